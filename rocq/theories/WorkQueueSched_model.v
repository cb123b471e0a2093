(** Concurrency model of aiok8s/workqueue/queue.py: any number of tasks in
    [get] (lines 53-62) against any number of tasks calling [add], [done] and
    [shut_down], on one asyncio event loop.

    asyncio facts used (CPython 3.7-3.12, Lib/asyncio/locks.py, not in /repo):
    - a task runs until it suspends; no method of this class suspends while
      holding the lock, so [Condition]'s lock is always free when asked for and
      acquiring it does not suspend;
    - [Condition.wait] appends a future to a FIFO list of waiters and suspends;
      [notify(n)] completes the first [n] futures that are not done yet; the
      woken task runs at some later point, and until then other tasks may run;
    - cancelling a task whose future is already completed makes it raise
      CancelledError when it runs, without any further notification. *)
From Verif Require Import Base WorkQueue_model.

Section sched.
  Context {A : Type} `{EqDecision A}.

  Record sched := Sched {
    s_q : wq A;
    s_waiting : list nat;   (* tasks suspended in Condition.wait, future pending, in order *)
    s_notified : list nat   (* tasks whose future completed but that have not run yet *)
  }.
  Definition sched_init : sched := Sched wq_init [] [].

  (** [Condition.notify(1)] / [notify_all] / nothing *)
  Definition wake (n : notif) (w r : list nat) : list nat * list nat :=
    match n with
    | NoNotify => (w, r)
    | NotifyOne => match w with [] => ([], r) | t :: w' => (w', r ++ [t]) end
    | NotifyAll => ([], r ++ w)
    end.

  (** One turn of task [t] in [get]: from the top (line 54) or resumed from
      [wait] (back to the [while] test of line 55).  Either it finishes, or it
      waits (again) at the end of the waiter list. *)
  Definition turn_get (t : nat) (s : sched) : sched * wres A :=
    let '(q', g) := wq_get (s_q s) in
    match g with
    | GetWait => (Sched q' (s_waiting s ++ [t]) (s_notified s), RBlocked)
    | GetShutdown => (Sched q' (s_waiting s) (s_notified s), RShutdown)
    | GetItem x => (Sched q' (s_waiting s) (s_notified s), RItem x)
    end.

  Definition notify_with (p : wq A * notif) (s : sched) : sched :=
    let '(w, r) := wake p.2 (s_waiting s) (s_notified s) in Sched p.1 w r.

  (** Labels: what happens, and the queue call it amounts to ([None] for
      cancellations). *)
  Inductive slabel :=
  | LCall (o : wop A) (r : wres A)        (* add / done / shut_down by anyone *)
  | LGet (t : nat) (r : wres A)           (* task [t] enters get *)
  | LRun (t : nat) (r : wres A)           (* a notified task resumes *)
  | LCancelWaiting (t : nat)              (* task cancelled before being notified *)
  | LCancelNotified (t : nat).            (* task cancelled between notification and its turn *)

  Inductive strans : sched → slabel → sched → Prop :=
  | st_add s x : strans s (LCall (Add x) RNone) (notify_with (wq_add x (s_q s)) s)
  | st_done s x p : wq_done x (s_q s) = Some p →
      strans s (LCall (Done x) RNone) (notify_with p s)
  | st_done_err s x : wq_done x (s_q s) = None → strans s (LCall (Done x) RKeyError) s
  | st_shut s : strans s (LCall ShutDown RNone) (notify_with (wq_shut_down (s_q s)) s)
  | st_get s t s' r : t ∉ s_waiting s → t ∉ s_notified s → turn_get t s = (s', r) →
      strans s (LGet t r) s'
  | st_run s t n1 n2 s' r : s_notified s = n1 ++ t :: n2 →
      turn_get t (Sched (s_q s) (s_waiting s) (n1 ++ n2)) = (s', r) →
      strans s (LRun t r) s'
  | st_cancel_waiting s t w1 w2 : s_waiting s = w1 ++ t :: w2 →
      strans s (LCancelWaiting t) (Sched (s_q s) (w1 ++ w2) (s_notified s))
  | st_cancel_notified s t n1 n2 : s_notified s = n1 ++ t :: n2 →
      strans s (LCancelNotified t) (Sched (s_q s) (s_waiting s) (n1 ++ n2)).

  (** The queue calls seen in a schedule. *)
  Definition call_of (l : slabel) : list (wop A * wres A) :=
    match l with
    | LCall o r => [(o, r)]
    | LGet _ r | LRun _ r => [(Get, r)]
    | LCancelWaiting _ | LCancelNotified _ => []
    end.
  Definition is_cancel_notified (l : slabel) : bool :=
    match l with LCancelNotified _ => true | _ => false end.
End sched.
Arguments sched : clear implicits.
Arguments slabel : clear implicits.
