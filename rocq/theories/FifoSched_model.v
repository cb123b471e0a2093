(** Tasks calling one FIFO under an event loop (aiok8s/cache/fifo.py:111-148).

    A task that reaches [Condition.wait] releases the lock and joins the
    waiters; [notify_all] makes every waiter runnable; a runnable task
    re-acquires the lock and runs the loop of [pop] again (lines 113-132).
    Nothing else suspends while holding the lock, so each of these is atomic.
    The event loop may run tasks in any order, may cancel any suspended task at
    any time, and may never run some of them. *)
From Verif Require Import Base Fifo_model.

Section sched.
  Context {K O T : Type} `{EqDecision K} `{EqDecision T} (keyf : O → option K).

  Record fsys := FSys {
    y_fifo : fifo K O;
    y_waiting : list (T * (O → outcome));   (* suspended in Condition.wait, not notified *)
    y_woken : list (T * (O → outcome))      (* notified, not yet run *)
  }.
  Definition fsys_init : fsys := FSys fifo_init [] [].

  Inductive flabel :=
  | YCall (t : T) (c : fop K O) (r : fres K O)  (* task t starts a call, which answers r or suspends *)
  | YResume (t : T) (r : fres K O)              (* a notified task runs on *)
  | YCancel (t : T).                            (* a suspended task is cancelled *)

  (** the effect of one turn of task [t] on the waiters *)
  Definition turn (t : T) (p : O → outcome) (blocked notify : bool) (y : fsys) (s' : fifo K O) (woken : list (T * (O → outcome))) : fsys :=
    if notify then FSys s' (if blocked then [(t, p)] else []) (woken ++ y_waiting y)
    else FSys s' (y_waiting y ++ if blocked then [(t, p)] else []) woken.
  Definition blocked (r : fres K O) : bool := match r with FBlocked => true | _ => false end.
  (** the callback a suspended call keeps *)
  Definition callback (c : fop K O) : O → outcome := match c with FPop p => p | _ => λ _, POk end.

  Inductive ytrans : fsys → flabel → fsys → Prop :=
  | yt_call y t c s' r n :
      fcall keyf (y_fifo y) c = (s', r, n) →
      ytrans y (YCall t c r) (turn t (callback c) (blocked r) n y s' (y_woken y))
  | yt_resume y t p w1 w2 s' r n :
      y_woken y = w1 ++ (t, p) :: w2 →
      fcall keyf (y_fifo y) (FPop p) = (s', r, n) →
      ytrans y (YResume t r) (turn t p (blocked r) n y s' (w1 ++ w2))
  | yt_cancel_waiting y t p w1 w2 :
      y_waiting y = w1 ++ (t, p) :: w2 →
      ytrans y (YCancel t) (FSys (y_fifo y) (w1 ++ w2) (y_woken y))
  | yt_cancel_woken y t p w1 w2 :
      y_woken y = w1 ++ (t, p) :: w2 →
      ytrans y (YCancel t) (FSys (y_fifo y) (y_waiting y) (w1 ++ w2)).
End sched.
Arguments fsys : clear implicits.
Arguments flabel : clear implicits.
