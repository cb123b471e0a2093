(** Model of aiok8s/workqueue/delaying_queue.py, class [_DelayingType]
    (lines 28-115), on top of the work queue and the delay heap.

    The system is one event loop with: any number of callers of [add], [get],
    [done], [add_after], [shut_down]; the background task [_waiting_loop]; one
    helper task per pending [self._waiting_for_add_queue.put(...)]; and a clock.
    Each transition is a maximal piece of code without suspension.

    Simplifications: the clock is an integer that never goes back (see
    WaitPQ_model.v for why integers suffice); the heartbeat ticker may wake the
    loop at any time (a superset of every-10-seconds); blocked [put]s complete
    in any order (asyncio completes them first-come first-served); putting,
    taking and waking are separate transitions, so that everything else may
    happen in between.  Sleeping callers of [get] are covered by
    WorkQueueSched.v and appear here as the result [RBlocked]. *)
From Verif Require Import Base WorkQueue_model WaitPQ_model.
From Coq Require Import ZArith.
Open Scope Z_scope.

Section dq.
  Context {A : Type} `{EqDecision A}.

  (** program counter of [_waiting_loop] *)
  Inductive lpc :=
  | LTop                      (* about to run line 69 *)
  | LWait (timer : option Z)  (* suspended in asyncio.wait (line 89); time at which
                                 next_ready_at fires, if a timer is armed *)
  | LGot (e : A * Z)          (* wait_task completed with an entry, loop not resumed yet *)
  | LEnd                      (* returned (line 102, or loop condition) *)
  | LCrash.                   (* died with an exception (KeyError from the heap) *)

  (** delaying_queue.py:29-34; [dq_pq] is the loop's local waiting_for_queue *)
  Record dq := DQ {
    dq_now : Z;                    (* self._clock.now() *)
    dq_base : wq A;                (* the inherited queue *)
    dq_stop : bool;                (* self._stop_event *)
    dq_puts : list (A * Z);        (* put(...) tasks not completed *)
    dq_incoming : list (A * Z);    (* self._waiting_for_add_queue *)
    dq_pq : pq A;
    dq_pc : lpc
  }.
  Definition dq_init (t : Z) : dq := DQ t wq_init false [] [] pq_init LTop.

  (** line 33 *)
  Definition incoming_max : nat := Nat.mul 10 (Nat.mul 10 10).

  Definition with_base (q : wq A) (s : dq) : dq :=
    DQ (dq_now s) q (dq_stop s) (dq_puts s) (dq_incoming s) (dq_pq s) (dq_pc s).
  Definition with_loop (q : wq A) (w : pq A) (pc : lpc) (s : dq) : dq :=
    DQ (dq_now s) q (dq_stop s) (dq_puts s) (dq_incoming s) w pc.

  (** delaying_queue.py:36-57 [add_after], up to its first suspension *)
  Definition dq_add_after (x : A) (d : Z) (s : dq) : dq :=
    if wq_down (dq_base s) then s
    else if d <=? 0 then with_base (wq_add x (dq_base s)).1 s
    else DQ (dq_now s) (dq_base s) (dq_stop s) (dq_puts s ++ [(x, dq_now s + d)])
            (dq_incoming s) (dq_pq s) (dq_pc s).

  (** delaying_queue.py:59-63 [shut_down].  Line 62 calls [self.shut_down()],
      i.e. this same method, which finds the event set and returns. *)
  Definition shut_down_body (self_shut_down : dq → dq) (s : dq) : dq :=
    if dq_stop s then s
    else self_shut_down
      (DQ (dq_now s) (dq_base s) true (dq_puts s) (dq_incoming s) (dq_pq s) (dq_pc s)).
  Definition dq_shut_down (s : dq) : dq := shut_down_body (shut_down_body (λ s, s)) s.

  (** lines 72-78; [None] if [peek_priority] or [pop] raises.  [fuel] is the
      number of waiting entries, each round removes one. *)
  Fixpoint drain_due (fuel : nat) (now : Z) (w : pq A) (q : wq A) : option (pq A * wq A) :=
    match fuel with
    | O => Some (w, q)
    | S fuel' =>
        if Nat.eqb (pq_len w) 0 then Some (w, q)
        else match pq_peek w with
             | (_, None) => None
             | (w1, Some entry_ready_at) =>
                 if entry_ready_at >? now then Some (w1, q)
                 else match pq_pop w1 with
                      | (_, None) => None
                      | (w2, Some entry_data) => drain_due fuel' now w2 (wq_add entry_data q).1
                      end
             end
    end.

  (** lines 69-97: from the top of the loop to the suspension *)
  Definition loop_top (s : dq) : dq :=
    if wq_down (dq_base s) then with_loop (dq_base s) (dq_pq s) LEnd s
    else
      let now := dq_now s in
      match drain_due (pq_len (dq_pq s)) now (dq_pq s) (dq_base s) with
      | None => with_loop (dq_base s) (dq_pq s) LCrash s
      | Some (w, q) =>
          if Nat.eqb (pq_len w) 0 then with_loop q w (LWait None) s
          else match pq_peek w with
               | (w1, Some entry_ready_at) =>
                   (* new_timer(entry_ready_at - now), started at [now] *)
                   with_loop q w1 (LWait (Some (now + (entry_ready_at - now)))) s
               | (w1, None) => with_loop q w1 LCrash s
               end
      end.

  (** lines 105-108 and 112-115 *)
  Definition absorb (now : Z) (e : A * Z) (wb : pq A * wq A) : pq A * wq A :=
    if e.2 >? now then (pq_insert e.1 e.2 wb.1, wb.2) else (wb.1, (wq_add e.1 wb.2).1).
  Fixpoint absorb_all (now : Z) (es : list (A * Z)) (wb : pq A * wq A) : pq A * wq A :=
    match es with [] => wb | e :: es => absorb_all now es (absorb now e wb) end.

  (** lines 98-115 after [wait_task] got entry [e] *)
  Definition loop_resume (e : A * Z) (s : dq) : dq :=
    if dq_stop s then with_loop (dq_base s) (dq_pq s) LEnd s
    else
      let '(w, q) := absorb_all (dq_now s) (dq_incoming s)
                       (absorb (dq_now s) e (dq_pq s, dq_base s)) in
      DQ (dq_now s) q (dq_stop s) (dq_puts s) [] w LTop.

  (** lines 98-102 after being woken by something else *)
  Definition loop_wake (s : dq) : dq :=
    with_loop (dq_base s) (dq_pq s) (if dq_stop s then LEnd else LTop) s.

  Inductive dlabel :=
  | DTick (t : Z)                       (* the clock moves to [t] *)
  | DAdd (x : A)
  | DAddAfter (x : A) (d : Z) (t : Z)   (* add_after(x, d) called at time [t] *)
  | DGet (r : wres A) (t : Z)           (* get answered [r] at time [t] *)
  | DDone (x : A) (r : wres A)
  | DShutDown
  | DPut | DPutCancel                   (* a put completes / is cancelled *)
  | DLoopTop | DTake | DResume | DWakeTimer | DWakeHeartbeat | DWakeStop.

  Inductive dtrans : dq → dlabel → dq → Prop :=
  | dt_tick s t : dq_now s ≤ t →
      dtrans s (DTick t) (DQ t (dq_base s) (dq_stop s) (dq_puts s) (dq_incoming s) (dq_pq s) (dq_pc s))
  | dt_add s x : dtrans s (DAdd x) (with_base (wstep (dq_base s) (Add x)).1 s)
  | dt_get s q r : wstep (dq_base s) Get = (q, r) → dtrans s (DGet r (dq_now s)) (with_base q s)
  | dt_done s x q r : wstep (dq_base s) (Done x) = (q, r) → dtrans s (DDone x r) (with_base q s)
  | dt_add_after s x d : dtrans s (DAddAfter x d (dq_now s)) (dq_add_after x d s)
  | dt_shut s : dtrans s DShutDown (dq_shut_down s)
  | dt_put s e a b : dq_puts s = a ++ e :: b → (length (dq_incoming s) < incoming_max)%nat →
      dtrans s DPut (DQ (dq_now s) (dq_base s) (dq_stop s) (a ++ b) (dq_incoming s ++ [e]) (dq_pq s) (dq_pc s))
  (** lines 55-57, when the stop event completed first *)
  | dt_put_cancel s e a b : dq_puts s = a ++ e :: b → dq_stop s = true →
      dtrans s DPutCancel (DQ (dq_now s) (dq_base s) (dq_stop s) (a ++ b) (dq_incoming s) (dq_pq s) (dq_pc s))
  | dt_top s : dq_pc s = LTop → dtrans s DLoopTop (loop_top s)
  | dt_take s tm e rest : dq_pc s = LWait tm → dq_incoming s = e :: rest →
      dtrans s DTake (DQ (dq_now s) (dq_base s) (dq_stop s) (dq_puts s) rest (dq_pq s) (LGot e))
  | dt_resume s e : dq_pc s = LGot e → dtrans s DResume (loop_resume e s)
  | dt_wake_timer s t : dq_pc s = LWait (Some t) → t ≤ dq_now s → dtrans s DWakeTimer (loop_wake s)
  | dt_wake_heartbeat s tm : dq_pc s = LWait tm → dtrans s DWakeHeartbeat (loop_wake s)
  | dt_wake_stop s tm : dq_pc s = LWait tm → dq_stop s = true → dtrans s DWakeStop (loop_wake s).
End dq.
Arguments dq : clear implicits.
Arguments lpc : clear implicits.
Arguments dlabel : clear implicits.
