(** Model of an object whose methods run under one [asyncio.Lock], called by many tasks,
    any of which may be cancelled at any time: cache/thread_safe_store.py:27-115 and
    cache/testing/fake_controller_source.py:24-99.

    The lock is the one of CPython 3.8-3.12 (asyncio/locks.py, class Lock):
    - acquire takes the lock at once if it is free and all waiters' futures are cancelled;
      otherwise it appends a future and awaits it; then it removes the future and takes the
      lock.  If it is cancelled it removes the future, and wakes the first waiter if
      the lock is free.
    - release frees the lock and wakes the first waiter: sets its future's result unless
      the future is done.
    - Cancelling a task that awaits a future that is pending cancels the future; if it
      has its result already, the task gets its CancelledError when it next runs.
    A section (the code under the lock) is a sequence of parts, each without an await: [enter] is
    the first part, [resume] the next one after an await.  What it awaits may take any time.
    If it is cancelled there, it ends with CancelledError and the lock is released by
    [async with], except if the method [keeps] the lock: [shutdown] of the fake source acquires it
    without [async with] (fake_controller_source.py:90-92).
    Calls are numbered in the order in which they are made. *)
From Verif Require Import Base FakeSource_model.

Section lock.
  Context {St Op R L : Type}.
  Inductive part := PReturn (r : R) | PAwait (l : L).
  Context (enter : St → Op → St * part) (resume : St → L → St * part) (keeps : Op → bool).

  Inductive fut := FPending | FResult (cancelled : bool) | FCancelled.
  Record waiter := W { w_call : nat; w_op : Op; w_fut : fut }.
  Inductive outcome := OReturned (r : R) | OAborted.
  Record lst := LS {
    l_obj : St;
    l_locked : bool; l_waiters : list waiter;
    l_held : option (nat * Op * L);          (* the call awaiting inside its section *)
    l_next : nat;                            (* the number of the next call *)
    l_log : list (nat * Op * outcome);       (* the sections that ended *)
    l_gone : list nat                        (* the calls cancelled before they got the lock *)
  }.
  Definition lock_init (s : St) : lst := LS s false [] None 0 [] [].

  (** _wake_up_first *)
  Definition wake_first (ws : list waiter) : list waiter :=
    match ws with W t o FPending :: ws => W t o (FResult false) :: ws | _ => ws end.
  (** what follows a part of the section of call t *)
  Definition after (t : nat) (o : Op) (p : part) (x : St) (ws : list waiter) (n : nat) (log : list (nat * Op * outcome)) (gone : list nat) : lst :=
    match p with
    | PReturn r =>
        if keeps o then LS x true ws None n (log ++ [(t, o, OReturned r)]) gone
        else LS x false (wake_first ws) None n (log ++ [(t, o, OReturned r)]) gone
    | PAwait l => LS x true ws (Some (t, o, l)) n log gone
    end.
  Definition is_cancelled (w : waiter) : bool := match w_fut w with FCancelled => true | _ => false end.
  Fixpoint find_waiter (t : nat) (ws : list waiter) : option waiter :=
    match ws with w :: ws => if decide (w_call w = t) then Some w else find_waiter t ws | [] => None end.
  (** self._waiters.remove(fut) *)
  Fixpoint remove (t : nat) (ws : list waiter) : list waiter :=
    match ws with w :: ws => if decide (w_call w = t) then ws else w :: remove t ws | [] => [] end.
  Definition cancel_fut (f : fut) : fut := match f with FPending => FCancelled | FResult _ => FResult true | FCancelled => FCancelled end.
  Definition cancel (t : nat) (ws : list waiter) : list waiter :=
    (λ w, if decide (w_call w = t) then W (w_call w) (w_op w) (cancel_fut (w_fut w)) else w) <$> ws.

  Inductive label :=
  | LCall (o : Op)      (* a method is called *)
  | LRun (t : nat)      (* a waiting task whose future is done runs *)
  | LCancel (t : nat)   (* a waiting task is cancelled *)
  | LResume             (* what the section awaits is there *)
  | LAbort.             (* the section is cancelled at its await *)
  Definition lrun (s : lst) (l : label) : option lst :=
    match l with
    | LCall o =>
        let t := l_next s in
        if negb (l_locked s) && forallb is_cancelled (l_waiters s) then
          let '(x, p) := enter (l_obj s) o in Some (after t o p x (l_waiters s) (S t) (l_log s) (l_gone s))
        else Some (LS (l_obj s) (l_locked s) (l_waiters s ++ [W t o FPending]) (l_held s) (S t) (l_log s) (l_gone s))
    | LRun t =>
        w ← find_waiter t (l_waiters s);
        let ws := remove t (l_waiters s) in
        match w_fut w with
        | FPending => None
        | FResult false => let '(x, p) := enter (l_obj s) (w_op w) in Some (after t (w_op w) p x ws (l_next s) (l_log s) (l_gone s))
        | FResult true | FCancelled =>
            Some (LS (l_obj s) (l_locked s) (if l_locked s then ws else wake_first ws) (l_held s) (l_next s) (l_log s) (l_gone s ++ [t]))
        end
    | LCancel t =>
        match find_waiter t (l_waiters s) with
        | Some _ => Some (LS (l_obj s) (l_locked s) (cancel t (l_waiters s)) (l_held s) (l_next s) (l_log s) (l_gone s))
        | None => None
        end
    | LResume =>
        '(t, o, l) ← l_held s;
        let '(x, p) := resume (l_obj s) l in Some (after t o p x (l_waiters s) (l_next s) (l_log s) (l_gone s))
    | LAbort =>
        '(t, o, l) ← l_held s;
        Some (if keeps o then LS (l_obj s) true (l_waiters s) None (l_next s) (l_log s ++ [(t, o, OAborted)]) (l_gone s)
              else LS (l_obj s) false (wake_first (l_waiters s)) None (l_next s) (l_log s ++ [(t, o, OAborted)]) (l_gone s))
    end.
  Definition lstep (s : lst) (l : label) (s' : lst) : Prop := lrun s l = Some s'.
End lock.
Arguments part : clear implicits.
Arguments waiter : clear implicits.
Arguments outcome : clear implicits.
Arguments lst : clear implicits.
Arguments label : clear implicits.

(** ** The fake source: sections of fake_controller_source.py *)
Section source.
  Context {K V : Type} `{EqDecision K} (keyof : nat → K).
  Notation fsrc := (fsrc K V).
  Inductive sop := SOp (o : fop V) | SShutdown.
  (** what is awaited: room in the incoming queue of the broadcaster for an event (63; mux.py:74) or for the
      function that makes a watcher (83, 88; mux.py:89), that function's end (mux.py:95), the
      broadcaster's shutdown (92) *)
  Inductive await := APut (ty : ety) (r : nat) | AWatch (rc : Z) | AWatching (w : nat) | AShutdown.
  Inductive sres := SRes (r : fres K V) | SShut.
  (** 51-62, 65-73, 75-88, 90-91 *)
  Definition s_enter (s : fsrc) (o : sop) : fsrc * part sres await :=
    match o with
    | SOp (FChange ty r v dropped) =>
        match fchange keyof ty r v true s with
        | (s', FDone) => (s', if dropped then PReturn (SRes FDone) else PAwait (APut ty r))
        | (s', x) => (s', PReturn (SRes x))
        end
    | SOp FList => (s, PReturn (SRes (flist keyof s)))
    | SOp (FWatch rc) => match fwatch keyof rc s with (_, FWatching _) => (s, PAwait (AWatch rc)) | (_, x) => (s, PReturn (SRes x)) end
    | SShutdown => (s, PAwait AShutdown)
    end.
  (** an event in the queue will reach the watchers made by functions that are before it in the queue;
      a function in the queue will make its watcher, whoever waits for it *)
  Definition s_resume (s : fsrc) (a : await) : fsrc * part sres await :=
    match a with
    | APut ty r => (FS (f_heap s) (f_items s) (f_changes s) ((λ w, w ++ [WRef ty r]) <$> f_watchers s), PReturn (SRes FDone))
    | AWatch rc => match fwatch keyof rc s with (s', FWatching w) => (s', PAwait (AWatching w)) | (s', x) => (s', PReturn (SRes x)) end
    | AWatching w => (s, PReturn (SRes (FWatching w)))
    | AShutdown => (s, PReturn SShut)
    end.
  Definition s_keeps (o : sop) : bool := match o with SShutdown => true | _ => false end.
End source.
Arguments sop : clear implicits.
Arguments sres : clear implicits.
