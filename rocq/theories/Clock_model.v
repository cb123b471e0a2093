(** Model of FakeClock, aiok8s/util/clock.py:35-112 and 126-154, 168-176.

    Times are integers in an arbitrary unit.  [_set_time_locked] is one step:
    the lock is free whenever another task runs, and [Queue.put] on a queue
    that is not full does not suspend; a put that would wait, and an endless
    loop in 97-98, are [CHang], after which nothing more happens.  A queue is
    identified by the number of the timer or ticker it was made for, and only
    the clock puts into it. *)
From Verif Require Import Base.
Local Open Scope Z_scope.

(** _FakeClockWaiter, 105-112 *)
Record waiter := Waiter { w_queue : nat; w_target : Z; w_step : Z; w_skip : bool }.
(** [c_queues]: the item in each queue, maxsize=1 *)
Record clock := Clock { c_time : Z; c_waiters : list waiter; c_queues : list (option Z); c_hung : bool }.
Definition clock_init (t : Z) : clock := Clock t [] [] false.

(** 97-98; [None] if the loop does not end *)
Fixpoint advance (fuel : nat) (target step t : Z) : option Z :=
  if bool_decide (target <= t) then match fuel with O => None | S fuel => advance fuel (target + step) step t end else Some target.

(** Queue.full() *)
Definition full (q : option (option Z)) : bool := match q with Some (Some _) => true | _ => false end.
(** 88-102 *)
Fixpoint set_waiters (t : Z) (ws : list waiter) (qs : list (option Z)) : option (list waiter * list (option Z)) :=
  match ws with
  | [] => Some ([], qs)
  | w :: ws =>
      if bool_decide (w_target w <= t) then
        qs1 ← (if w_skip w then Some (if full (qs !! w_queue w) then qs else <[w_queue w := Some t]> qs)
               else if full (qs !! w_queue w) then None else Some (<[w_queue w := Some t]> qs));
        if bool_decide (w_step w = 0) then set_waiters t ws qs1 else
        target ← advance (Z.to_nat (t - w_target w + 1)) (w_target w) (w_step w) t;
        '(ws', qs') ← set_waiters t ws qs1;
        Some (Waiter (w_queue w) target (w_step w) (w_skip w) :: ws', qs')
      else '(ws', qs') ← set_waiters t ws qs; Some (w :: ws', qs')
  end.

Inductive cop :=
| CNow | CSince (ts : Z)
| CNewTimer (d : Z) | CNewTicker (d : Z)
| CStep (d : Z) | CSetTime (t : Z)
| CHasWaiters
| CStop (i : nat)              (* _FakeTimer.stop *)
| CReset (i : nat) (d : Z)     (* _FakeTimer.reset *)
| CTickerStop (i : nat)        (* _FakeTicker.stop *)
| CGet (i : nat).              (* c().get_nowait(); None if empty *)
Inductive cres := CNone | CTime (t : Z) | CQueue (i : nat) | CBool (b : bool) | CItem (t : option Z) | CHang.

Global Instance cres_eq_dec : EqDecision cres.
Proof. solve_decision. Defined.

(** 85-102 *)
Definition set_time (s : clock) (t : Z) : clock * cres :=
  match set_waiters t (c_waiters s) (c_queues s) with
  | Some (ws, qs) => (Clock t ws qs false, CNone)
  | None => (Clock t (c_waiters s) (c_queues s) true, CHang)
  end.
Definition cstep (s : clock) (c : cop) : clock * cres :=
  if c_hung s then (s, CHang) else
  match c with
  | CNow => (s, CTime (c_time s))
  | CSince ts => (s, CTime (c_time s - ts))
  (** 55-60 *)
  | CNewTimer d => (Clock (c_time s) (c_waiters s ++ [Waiter (length (c_queues s)) (c_time s + d) 0 false]) (c_queues s ++ [None]) false, CQueue (length (c_queues s)))
  (** 62-72 *)
  | CNewTicker d => (Clock (c_time s) (c_waiters s ++ [Waiter (length (c_queues s)) (c_time s + d) d true]) (c_queues s ++ [None]) false, CQueue (length (c_queues s)))
  | CStep d => set_time s (c_time s + d)
  | CSetTime t => set_time s t
  | CHasWaiters => (s, CBool (negb (bool_decide (length (c_waiters s) = 0%nat))))
  (** 134-145 *)
  | CStop i =>
      (Clock (c_time s) (filter (λ w, w_queue w ≠ i) (c_waiters s)) (c_queues s) false,
       CBool (existsb (λ w, bool_decide (w_queue w = i)) (c_waiters s)))
  (** 147-154: the first waiter with this queue *)
  | CReset i d =>
      match list_find (λ w, w_queue w = i) (c_waiters s) with
      | Some (n, w) => (Clock (c_time s) (<[n := Waiter i (c_time s + d) (w_step w) (w_skip w)]> (c_waiters s)) (c_queues s) false, CBool true)
      | None => (s, CBool false)
      end
  (** 175-176 *)
  | CTickerStop i => (s, CNone)
  | CGet i =>
      match c_queues s !! i with
      | Some (Some t) => (Clock (c_time s) (c_waiters s) (<[i := None]> (c_queues s)) false, CItem (Some t))
      | _ => (s, CItem None)
      end
  end.
