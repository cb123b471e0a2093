(** Model of a listener of a shared informer whose run is called any number of times: _ProcessListener,
    aiok8s/cache/shared_informer.py:299-402, with _SharedProcessor._run (268-278), which for every call of
    _SharedIndexInformer.run (134-159) makes another pair of tasks for each listener.

    As Listener_model.v, but for any number of pumps (_pop) and of handler tasks (_run) on the same two queues:
    - [pending_notifications] and the queues are shared, [notification] and the tasks of a pump are its own.
    - Which of several waiting tasks a queue serves is left open.
    - [join] of _next_queue (351) returns once the queue was empty, even if another pump has put an item since:
      [MWoken].
    - put_task may be cancelled and made again although the queue has room (two pumps compete for it), so
      a pump that wakes with a notification need not have put.
    - One caller of _add at a time (_block_deltas). *)
From Verif Require Import Base Listener_model.

Section many.
  Context {N : Type}.
  Inductive mpump :=
  | MNew
  | MWait (cur : option N) (got : option N) (put : bool)  (* 334 *)
  | MJoin                                                 (* 351, waits *)
  | MWoken                                                (* 351, the queue was empty *)
  | MStopped.
  Record mul := Mul {
    m_adder : adder N;
    m_addq : option N;
    m_stop : bool;               (* _stop_add *)
    m_pumps : list mpump;
    m_pend : list N;
    m_nextq : option N;
    m_next : bool;               (* _stop_next *)
    m_runs : list (runner N)
  }.
  Definition mul_init : mul := Mul AIdle None false [] [] None false [].

  Inductive mlabel := MAdd (n : N) | MPut (n : N) | MJoined | MCancel | MRun | MStop
  | MStart (i : nat) | MGet (i : nat) | MPutNext (i : nat) | MWake (i : nat) | MNext (i : nat)
  | MStartRun (j : nat) | MFetch (j : nat) | MCall (j : nat) (n : N) | MReturn (j : nat) | MRaise (j : nat) | MSlept (j : nat) | MRunStop (j : nat).

  (** 351: join *)
  Definition joining (nq : option N) : mpump := match nq with None => MWoken | Some _ => MJoin end.
  (** task_done of the last item wakes who joins *)
  Definition woken (p : mpump) : mpump := match p with MJoin => MWoken | _ => p end.

  Inductive mstep : mul → mlabel → mul → Prop :=
  (** _add, 312-314 *)
  | m_add n q st ps pe nq sn rs : mstep (Mul AIdle q st ps pe nq sn rs) (MAdd n) (Mul (APutting n) q st ps pe nq sn rs)
  | m_put n st ps pe nq sn rs : mstep (Mul (APutting n) None st ps pe nq sn rs) (MPut n) (Mul AJoining (Some n) st ps pe nq sn rs)
  | m_joined st ps pe nq sn rs : mstep (Mul AJoining None st ps pe nq sn rs) MJoined (Mul AIdle None st ps pe nq sn rs)
  | m_cancel a q st ps pe nq sn rs : mstep (Mul a q st ps pe nq sn rs) MCancel (Mul AIdle q st ps pe nq sn rs)
  (** _SharedProcessor._run, 269-272 and 275-277 *)
  | m_run a q st ps pe nq sn rs : mstep (Mul a q st ps pe nq sn rs) MRun (Mul a q st (ps ++ [MNew]) pe nq sn (rs ++ [RNew]))
  | m_stopping a q st ps pe nq sn rs : mstep (Mul a q st ps pe nq sn rs) MStop (Mul a q true ps pe nq sn rs)
  (** _pop, 322-361 *)
  | m_start i a q st ps pe nq sn rs : ps !! i = Some MNew → mstep (Mul a q st ps pe nq sn rs) (MStart i) (Mul a q st (<[i:=MWait None None false]> ps) pe nq sn rs)
  | m_get i n cur put a st ps pe nq sn rs : ps !! i = Some (MWait cur None put) →
      mstep (Mul a (Some n) st ps pe nq sn rs) (MGet i) (Mul a None st (<[i:=MWait cur (Some n) put]> ps) pe nq sn rs)
  | m_putnext i c got a q st ps pe sn rs : ps !! i = Some (MWait (Some c) got false) →
      mstep (Mul a q st ps pe None sn rs) (MPutNext i) (Mul a q st (<[i:=MWait (Some c) got true]> ps) pe (Some c) sn rs)
  | m_wake i cur got put a q ps pe nq sn rs : ps !! i = Some (MWait cur got put) → got ≠ None ∨ put = true →
      mstep (Mul a q false ps pe nq sn rs) (MWake i)
        (match got, cur with
         | Some n, None => Mul a q false (<[i:=if put then joining nq else MWait (Some n) None false]> ps) pe nq sn rs
         | Some n, Some _ => Mul a q false (<[i:=if put then joining nq else MWait cur None false]> ps) (pe ++ [n]) nq sn rs
         | None, _ => Mul a q false (<[i:=if put then joining nq else MWait cur None false]> ps) pe nq sn rs
         end)
  | m_wake_stop i cur got put a q ps pe nq sn rs : ps !! i = Some (MWait cur got put) →
      mstep (Mul a q true ps pe nq sn rs) (MWake i) (Mul a q true (<[i:=MStopped]> ps) pe nq true rs)
  | m_next_ i a q st ps pe nq sn rs : ps !! i = Some MWoken →
      mstep (Mul a q st ps pe nq sn rs) (MNext i) (Mul a q st (<[i:=MWait (head pe) None false]> ps) (tail pe) nq sn rs)
  (** _run, 363-402 *)
  | m_startrun j a q st ps pe nq sn rs : rs !! j = Some RNew → mstep (Mul a q st ps pe nq sn rs) (MStartRun j) (Mul a q st ps pe nq sn (<[j:=RWait]> rs))
  | m_fetch j n a q st ps pe sn rs : rs !! j = Some RWait →
      mstep (Mul a q st ps pe (Some n) sn rs) (MFetch j) (Mul a q st (woken <$> ps) pe None sn (<[j:=RFetched n]> rs))
  | m_call j n a q st ps pe nq rs : rs !! j = Some (RFetched n) → mstep (Mul a q st ps pe nq false rs) (MCall j n) (Mul a q st ps pe nq false (<[j:=RHandling n]> rs))
  | m_return j n a q st ps pe nq sn rs : rs !! j = Some (RHandling n) → mstep (Mul a q st ps pe nq sn rs) (MReturn j) (Mul a q st ps pe nq sn (<[j:=RWait]> rs))
  | m_raise j n a q st ps pe nq sn rs : rs !! j = Some (RHandling n) → mstep (Mul a q st ps pe nq sn rs) (MRaise j) (Mul a q st ps pe nq sn (<[j:=RSleep]> rs))
  | m_slept j a q st ps pe nq sn rs : rs !! j = Some RSleep → mstep (Mul a q st ps pe nq sn rs) (MSlept j) (Mul a q st ps pe nq sn (<[j:=RWait]> rs))
  | m_runstop j r a q st ps pe nq rs : rs !! j = Some r → (r = RWait ∨ ∃ n, r = RFetched n) →
      mstep (Mul a q st ps pe nq true rs) (MRunStop j) (Mul a q st ps pe nq true (<[j:=RStopped]> rs)).
End many.
Arguments mpump : clear implicits.
Arguments mul : clear implicits.
Arguments mlabel : clear implicits.
