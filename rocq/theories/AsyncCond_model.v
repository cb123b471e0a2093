(** Model of an object whose methods run under one [asyncio.Condition] and wait on it, called
    by many tasks any of which may be cancelled at any time: workqueue/queue.py:33-74,
    cache/fifo.py:35-159 and cache/delta_fifo.py:31-214.

    The condition and its lock are those of CPython 3.8-3.12 (asyncio/locks.py):
    - Lock.acquire takes the lock at once if it is free and the futures of all its waiters are
      cancelled; otherwise it appends a future, awaits it, removes it and takes the lock.
      If it is cancelled it removes the future, and wakes the first waiter if the lock is
      free.  Lock.release frees the lock and wakes the first waiter: sets its
      future's result unless it is done.
    - Condition.wait releases the lock, appends a future to the waiters of the condition and awaits it.
      When that ends, also by cancellation, it removes the future and acquires the lock, again and again
      if that is cancelled, and only then raises the CancelledError, if there was one.
    - Condition.notify(n) sets the results of the first n futures that are not done.
    - Cancelling a task that awaits a pending future cancels the future; if the future
      has its result already, the task gets its CancelledError when it next runs.
    Every wait of these classes is in a loop that begins the method under the lock (queue.py:55-56,
    fifo.py:113-117, delta_fifo.py:142-146), so that a task that returns from wait enters its section again.
    Besides, a section may await something else while it holds the lock (delta_fifo.py:154).
    A cancellation there reaches what is awaited: it is one of the answers [E] it may end with.
    Calls are numbered in the order in which they are made. *)
From Verif Require Import Base WorkQueue_model Fifo_model DeltaFifo_model.

Section cond.
  Context {St Op R L E : Type}.
  (** how a part of a section ends: it returns (or raises), awaits something, or waits on the condition *)
  Inductive part := PReturn (r : R) | PAwait (l : L) | PWait.
  (** [enter]: the section up to its first await, [resume]: what follows an await; both with the notification they make.
      [direct]: the method does not use the lock *)
  Context (enter : St → Op → St * part * notif) (resume : St → L → E → St * part * notif) (direct : Op → bool).

  Inductive fut := FPending | FResult (cancelled : bool) | FCancelled.
  (** in which call of acquire: that of [async with], or that of [wait], which may have been cancelled *)
  Inductive mode := MEnter | MAgain (cancelled : bool).
  Record lwaiter := LW { lw_task : nat; lw_op : Op; lw_mode : mode; lw_fut : fut }.
  Record cwaiter := CW { cw_task : nat; cw_op : Op; cw_fut : fut }.
  Record cst := CS {
    c_obj : St;
    c_locked : bool; c_lockq : list lwaiter;      (* the lock and its _waiters *)
    c_condq : list cwaiter;                       (* the _waiters of the condition *)
    c_held : option (nat * Op * L);               (* the call that awaits something inside its section *)
    c_next : nat;                                 (* the number of the next call *)
    c_ran : list nat;                             (* the calls that entered their section, each time they did *)
    c_log : list (nat * R);                       (* the calls that returned or raised by themselves *)
    c_gone : list nat                             (* the calls that ended with CancelledError before or at a wait *)
  }.
  Definition cond_init (s : St) : cst := CS s false [] [] None 0 [] [] [].

  (** Lock._wake_up_first *)
  Definition wake_first (ws : list lwaiter) : list lwaiter :=
    match ws with LW t o m FPending :: ws => LW t o m (FResult false) :: ws | _ => ws end.
  (** Condition.notify *)
  Fixpoint notify_one (ws : list cwaiter) : list cwaiter :=
    match ws with
    | CW t o FPending :: ws => CW t o (FResult false) :: ws
    | w :: ws => w :: notify_one ws
    | [] => []
    end.
  Definition notify_every (ws : list cwaiter) : list cwaiter :=
    (λ w, match cw_fut w with FPending => CW (cw_task w) (cw_op w) (FResult false) | _ => w end) <$> ws.
  Definition notify (n : notif) (ws : list cwaiter) : list cwaiter :=
    match n with NoNotify => ws | NotifyOne => notify_one ws | NotifyAll => notify_every ws end.

  Definition is_cancelled (w : lwaiter) : bool := match lw_fut w with FCancelled => true | _ => false end.
  (** acquire need not wait *)
  Definition is_free (locked : bool) (ws : list lwaiter) : bool := negb locked && forallb is_cancelled ws.

  (** what follows a part of the section of call t, with the lock taken *)
  Definition after (t : nat) (o : Op) (y : St * part * notif) (s : cst) : cst :=
    let '(x, p, n) := y in
    let cq := notify n (c_condq s) in
    match p with
    | PReturn r => CS x false (wake_first (c_lockq s)) cq None (c_next s) (c_ran s) (c_log s ++ [(t, r)]) (c_gone s)
    | PAwait l => CS x true (c_lockq s) cq (Some (t, o, l)) (c_next s) (c_ran s) (c_log s) (c_gone s)
    | PWait => CS x false (wake_first (c_lockq s)) (cq ++ [CW t o FPending]) None (c_next s) (c_ran s) (c_log s) (c_gone s)
    end.
  (** call t got the lock: it enters its section *)
  Definition go (t : nat) (o : Op) (s : cst) : cst :=
    after t o (enter (c_obj s) o) (CS (c_obj s) (c_locked s) (c_lockq s) (c_condq s) (c_held s) (c_next s) (c_ran s ++ [t]) (c_log s) (c_gone s)).
  (** call t, which was cancelled in wait, got the lock: it leaves with the CancelledError and releases the lock *)
  Definition leave (t : nat) (s : cst) : cst :=
    CS (c_obj s) false (wake_first (c_lockq s)) (c_condq s) None (c_next s) (c_ran s) (c_log s) (c_gone s ++ [t]).
  Definition set_lock (b : bool) (ws : list lwaiter) (s : cst) : cst :=
    CS (c_obj s) b ws (c_condq s) (c_held s) (c_next s) (c_ran s) (c_log s) (c_gone s).
  Definition set_cond (ws : list cwaiter) (s : cst) : cst :=
    CS (c_obj s) (c_locked s) (c_lockq s) ws (c_held s) (c_next s) (c_ran s) (c_log s) (c_gone s).
  Definition quits (t : nat) (s : cst) : cst :=
    CS (c_obj s) (c_locked s) (c_lockq s) (c_condq s) (c_held s) (c_next s) (c_ran s) (c_log s) (c_gone s ++ [t]).
  (** acquire in wait *)
  Definition again (t : nat) (o : Op) (cancelled : bool) (s : cst) : cst :=
    if is_free (c_locked s) (c_lockq s) then if cancelled then leave t s else go t o s
    else set_lock (c_locked s) (c_lockq s ++ [LW t o (MAgain cancelled) FPending]) s.

  Fixpoint find_lw (t : nat) (ws : list lwaiter) : option lwaiter :=
    match ws with w :: ws => if decide (lw_task w = t) then Some w else find_lw t ws | [] => None end.
  Fixpoint remove_lw (t : nat) (ws : list lwaiter) : list lwaiter :=
    match ws with w :: ws => if decide (lw_task w = t) then ws else w :: remove_lw t ws | [] => [] end.
  Fixpoint find_cw (t : nat) (ws : list cwaiter) : option cwaiter :=
    match ws with w :: ws => if decide (cw_task w = t) then Some w else find_cw t ws | [] => None end.
  Fixpoint remove_cw (t : nat) (ws : list cwaiter) : list cwaiter :=
    match ws with w :: ws => if decide (cw_task w = t) then ws else w :: remove_cw t ws | [] => [] end.
  Definition cancel_fut (f : fut) : fut := match f with FPending => FCancelled | FResult _ => FResult true | FCancelled => FCancelled end.
  Definition cancel_lw (t : nat) (ws : list lwaiter) : list lwaiter :=
    (λ w, if decide (lw_task w = t) then LW (lw_task w) (lw_op w) (lw_mode w) (cancel_fut (lw_fut w)) else w) <$> ws.
  Definition cancel_cw (t : nat) (ws : list cwaiter) : list cwaiter :=
    (λ w, if decide (cw_task w = t) then CW (cw_task w) (cw_op w) (cancel_fut (cw_fut w)) else w) <$> ws.

  Inductive clabel :=
  | KCall (o : Op)      (* a method is called *)
  | KRun (t : nat)      (* a waiting task whose future is done runs *)
  | KCancel (t : nat)   (* a waiting task is cancelled *)
  | KResume (e : E).    (* what the section awaits has ended so *)
  Definition crun (s : cst) (l : clabel) : option cst :=
    match l with
    | KCall o =>
        let t := c_next s in
        let s1 := CS (c_obj s) (c_locked s) (c_lockq s) (c_condq s) (c_held s) (S t) (c_ran s) (c_log s) (c_gone s) in
        if direct o then
          match enter (c_obj s) o with
          | (x, PReturn r, NoNotify) => Some (CS x (c_locked s) (c_lockq s) (c_condq s) (c_held s) (S t) (c_ran s) (c_log s ++ [(t, r)]) (c_gone s))
          | _ => None
          end
        else if is_free (c_locked s) (c_lockq s) then Some (go t o s1)
        else Some (set_lock (c_locked s1) (c_lockq s1 ++ [LW t o MEnter FPending]) s1)
    | KRun t =>
        match find_lw t (c_lockq s), find_cw t (c_condq s) with
        | Some w, _ =>
            let s1 := set_lock (c_locked s) (remove_lw t (c_lockq s)) s in
            let s2 := if c_locked s then s1 else set_lock (c_locked s) (wake_first (remove_lw t (c_lockq s))) s in
            match lw_fut w, lw_mode w with
            | FPending, _ => None
            | FResult false, (MEnter | MAgain false) => Some (go t (lw_op w) s1)
            | FResult false, MAgain true => Some (leave t s1)
            | (FResult true | FCancelled), MEnter => Some (quits t s2)
            | (FResult true | FCancelled), MAgain _ => Some (again t (lw_op w) true s2)
            end
        | None, Some w =>
            let s1 := set_cond (remove_cw t (c_condq s)) s in
            match cw_fut w with
            | FPending => None
            | FResult b => Some (again t (cw_op w) b s1)
            | FCancelled => Some (again t (cw_op w) true s1)
            end
        | None, None => None
        end
    | KCancel t =>
        match find_lw t (c_lockq s), find_cw t (c_condq s) with
        | Some _, _ => Some (set_lock (c_locked s) (cancel_lw t (c_lockq s)) s)
        | None, Some _ => Some (set_cond (cancel_cw t (c_condq s)) s)
        | None, None => None
        end
    | KResume e => '(t, o, l) ← c_held s; Some (after t o (resume (c_obj s) l e) s)
    end.
  Definition cstep (s : cst) (l : clabel) (s' : cst) : Prop := crun s l = Some s'.
End cond.
Arguments part : clear implicits.
Arguments lwaiter : clear implicits.
Arguments cwaiter : clear implicits.
Arguments cst : clear implicits.
Arguments clabel : clear implicits.

(** ** The three queues *)
Definition all_if (n : bool) : notif := if n then NotifyAll else NoNotify.
Section queues.
  Context {A K O : Type} `{EqDecision A} `{EqDecision K} (keyf : O → option K).
  (** queue.py:41-74; __len__ does not use the lock and is left out *)
  Definition wq_enter (q : wq A) (c : wop A) : wq A * part (wres A) Empty_set * notif :=
    match c with
    | Add x => ((wq_add x q).1, PReturn RNone, (wq_add x q).2)
    | Get => match wq_get q with
             | (q', GetWait) => (q', PWait, NoNotify)
             | (q', GetShutdown) => (q', PReturn RShutdown, NoNotify)
             | (q', GetItem x) => (q', PReturn (RItem x), NoNotify)
             end
    | Done x => match wq_done x q with Some (q', n) => (q', PReturn RNone, n) | None => (q, PReturn RKeyError, NoNotify) end
    | ShutDown => ((wq_shut_down q).1, PReturn RNone, (wq_shut_down q).2)
    end.
  (** fifo.py:44-159; close sets _closed before it asks for the lock, which it gets at once (C106_atomic), as do the calls that need none *)
  Definition fifo_enter (s : fifo K O) (c : fop K O) : fifo K O * part (fres K O) Empty_set * notif :=
    match fcall keyf s c with
    | (s', FBlocked, n) => (s', PWait, all_if n)
    | (s', r, n) => (s', PReturn r, all_if n)
    end.
  Definition no_resume {St R} (s : St) (l : Empty_set) (e : unit) : St * part R Empty_set * notif := match l with end.
  Definition locks_all {Op} (_ : Op) : bool := false.
  (** delta_fifo.py:36-178, the callback of pop awaited at 154 *)
  Definition delta_part (y : dfifo K O * dres K O * bool) : dfifo K O * part (dres K O) (list (delta K O)) * notif :=
    match y with
    | (s', DBlocked, n) => (s', PWait, all_if n)
    | (s', DPopped ds, n) => (s', PAwait ds, all_if n)
    | (s', r, n) => (s', PReturn r, all_if n)
    end.
  Definition delta_enter (s : dfifo K O) (c : dop K O) : dfifo K O * part (dres K O) (list (delta K O)) * notif := delta_part (dcall keyf s c).
  Definition delta_resume (s : dfifo K O) (ds : list (delta K O)) (out : doutcome) : dfifo K O * part (dres K O) (list (delta K O)) * notif :=
    delta_part (dcall keyf s (DFinish out)).
  Definition delta_direct (c : dop K O) : bool := negb (needs_lock c).
End queues.
