(** Model of _ProcessListener, aiok8s/cache/shared_informer.py:299-402: a caller of
    [_add], the pump task [_pop] and the handler task [_run], connected by two
    asyncio queues of size one.

    Atomicity: a transition is a piece of a task between two suspensions.
    - [get()] of either queue (317-320, 366-369) takes the item and calls
      task_done in one step, so the number of unfinished tasks of a queue is the
      number of items in it, and [join] returns when the queue is empty.
    - A [get] or [put] task that is cancelled before it completed has no effect:
      asyncio.Queue takes or stores the item in the last step of the task, and a
      task that was woken but not yet run passes the wakeup on.  So the tasks
      cancelled in 349 and 358 can be forgotten.
    - asyncio.wait (334) reports every task that is done when _pop resumes.  The
      put task is created in the step in which the wait begins and is run before
      _pop is resumed, so if next_queue has room it is done by then (the premise
      of [l_wake] below).
    - _stop_next is set when _pop returns (360), so it is [PStopped].
    - wait.exponential_backoff (394) adds nothing: [condition] returns only at
      stop; an exception of the handler goes through it to line 398. *)
From Verif Require Import Base.

Section listener.
  Context {N : Type}.   (* notifications *)

  Inductive adder := AIdle | APutting (n : N) | AJoining.
  Inductive pump :=
  | PNew
  | PWait (cur : option N) (got : option N) (put : bool)  (* 334; cur: [notification]; got: result of get_task; put: put_task is done *)
  | PJoin                                                 (* 351 *)
  | PStopped.
  Inductive runner := RNew | RWait | RFetched (n : N) | RHandling (n : N) | RSleep | RStopped.
  Record lis := Lis {
    l_adder : adder;
    l_addq : option N;        (* _add_queue *)
    l_stop : bool;            (* _stop_add *)
    l_pump : pump;
    l_pend : list N;          (* _pending_notifications *)
    l_nextq : option N;       (* _next_queue *)
    l_run : runner
  }.
  Definition lis_init : lis := Lis AIdle None false PNew [] None RNew.

  Inductive llabel := LAdd (n : N) | LPut (n : N) | LJoined | LAddCancel | LStartPump | LGet | LPutNext | LWake | LNextJoined
  | LStartRun | LFetch | LCall (n : N) | LReturn | LRaise | LSlept | LRunStop | LStop.

  Inductive lstep : lis → llabel → lis → Prop :=
  (** _add, 312-314; cancelled with its caller *)
  | l_add n q st p pe nq r : lstep (Lis AIdle q st p pe nq r) (LAdd n) (Lis (APutting n) q st p pe nq r)
  | l_put n st p pe nq r : lstep (Lis (APutting n) None st p pe nq r) (LPut n) (Lis AJoining (Some n) st p pe nq r)
  | l_joined st p pe nq r : lstep (Lis AJoining None st p pe nq r) LJoined (Lis AIdle None st p pe nq r)
  | l_cancel a q st p pe nq r : lstep (Lis a q st p pe nq r) LAddCancel (Lis AIdle q st p pe nq r)
  (** _pop, 322-332 *)
  | l_start a q st pe nq r : lstep (Lis a q st PNew pe nq r) LStartPump (Lis a q st (PWait None None false) pe nq r)
  | l_get a n st cur put pe nq r :
      lstep (Lis a (Some n) st (PWait cur None put) pe nq r) LGet (Lis a None st (PWait cur (Some n) put) pe nq r)
  | l_putnext a q st c got pe r :
      lstep (Lis a q st (PWait (Some c) got false) pe None r) LPutNext (Lis a q st (PWait (Some c) got true) pe (Some c) r)
  (** 337-351, 357-358 *)
  | l_wake a q cur got put pe nq r : got ≠ None ∨ put = true → (put = true ∨ cur = None ∨ nq ≠ None) →
      lstep (Lis a q false (PWait cur got put) pe nq r) LWake
        (match got, cur with
         | Some n, None => Lis a q false (if put then PJoin else PWait (Some n) None false) pe nq r
         | Some n, Some _ => Lis a q false (if put then PJoin else PWait cur None false) (pe ++ [n]) nq r
         | None, _ => Lis a q false (if put then PJoin else PWait cur None false) pe nq r
         end)
  | l_wake_stop a q cur got put pe nq r : lstep (Lis a q true (PWait cur got put) pe nq r) LWake (Lis a q true PStopped pe nq r)
  (** 351-356 *)
  | l_next a q st pe r : lstep (Lis a q st PJoin pe None r) LNextJoined
        (Lis a q st (PWait (head pe) None false) (tail pe) None r)
  (** _run, 363-402 *)
  | l_startrun a q st p pe nq : lstep (Lis a q st p pe nq RNew) LStartRun (Lis a q st p pe nq RWait)
  | l_fetch a q st p pe n : lstep (Lis a q st p pe (Some n) RWait) LFetch (Lis a q st p pe None (RFetched n))
  | l_call a q st p pe nq n : p ≠ PStopped → lstep (Lis a q st p pe nq (RFetched n)) (LCall n) (Lis a q st p pe nq (RHandling n))
  | l_return a q st p pe nq n : lstep (Lis a q st p pe nq (RHandling n)) LReturn (Lis a q st p pe nq RWait)
  | l_raise a q st p pe nq n : lstep (Lis a q st p pe nq (RHandling n)) LRaise (Lis a q st p pe nq RSleep)
  | l_slept a q st p pe nq : lstep (Lis a q st p pe nq RSleep) LSlept (Lis a q st p pe nq RWait)
  | l_runstop a q st pe nq r : (r = RWait ∨ ∃ n, r = RFetched n) → lstep (Lis a q st PStopped pe nq r) LRunStop (Lis a q st PStopped pe nq RStopped)
  (** _SharedProcessor._run, 275-277 *)
  | l_stopping a q st p pe nq r : lstep (Lis a q st p pe nq r) LStop (Lis a q true p pe nq r).
End listener.
Arguments adder : clear implicits.
Arguments pump : clear implicits.
Arguments runner : clear implicits.
Arguments lis : clear implicits.
Arguments llabel : clear implicits.
