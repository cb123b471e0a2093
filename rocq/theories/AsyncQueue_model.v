(** Model of the asyncio queues through which the parts of the code hand things on, with the get
    and put tasks that are made and cancelled on the way: cache/shared_informer.py:299-402
    ([_add_queue], [_next_queue]), watch/mux.py:35, 74, 77, 89, 104-114, 164, 188 ([_incoming], [_result]), watch/watch.py.

    The queue is the one of CPython 3.8-3.12 (asyncio/queues.py, class Queue, and Event of
    asyncio/locks.py for join):
    - get and put wait in a loop while the queue is empty, or full; each round appends a new future to
      [_getters] or [_putters].
    - get_nowait and put_nowait wake the first putter, or getter, whose future is not done;
      futures that are done are dropped on the way.
    - A get or put that is cancelled while it waits removes its future; if the future had its result already
      and the queue has an item, or room, it wakes the next one.
    - Cancelling a task that awaits a pending future cancels the future; if the future has its result, the task gets
      CancelledError when it next runs; a task that has not started ends without running.
    - task_done comes at any time after a get, once for each get: at once in the listener (shared_informer.py:317-320, 366-369),
      when the reader runs again in the watchers (mux.py:169-171, watch.py).
    A task is one call of get, put or join; calls made by a task that goes on are tasks too, here.
    [q_in] and [q_out] record what was put and what was taken, and by which task. *)
From Verif Require Import Base.

Section queue.
  Context {A : Type} (max : nat).      (* maxsize; 0: no limit *)

  Inductive qop := OGet | OPut (a : A) | OJoin.
  Inductive qfut := FPending | FWoken (cancelled : bool) | FCancelled.
  Inductive qstate := SNew (cancelled : bool) | SWait (f : qfut) | SDone | SCancelled.
  Record task := T { t_op : qop; t_st : qstate }.
  Record aqueue := AQ {
    q_items : list A;
    q_unfinished : nat;
    q_getters : list nat;    (* the tasks whose futures are in _getters *)
    q_putters : list nat;
    q_tasks : list task;
    q_in : list (nat * A);
    q_out : list (nat * A);
    q_done : nat             (* calls of task_done *)
  }.
  Definition aq_init : aqueue := AQ [] 0 [] [] [] [] [] 0.

  Definition full (items : list A) : bool := (0 <? max) && (max <=? length items).
  Definition set_st (t : nat) (x : qstate) (ts : list task) : list task := alter (λ k, T (t_op k) x) t ts.
  (** _wakeup_next *)
  Fixpoint wake (ws : list nat) (ts : list task) : list nat * list task :=
    match ws with
    | [] => ([], ts)
    | t :: ws => match t_st <$> ts !! t with
                 | Some (SWait FPending) => (ws, set_st t (SWait (FWoken false)) ts)
                 | _ => wake ws ts
                 end
    end.
  (** Event.set of _finished: everybody that waits in join is woken *)
  Definition wake_joins (ts : list task) : list task :=
    (λ k, match k with T OJoin (SWait FPending) => T OJoin (SWait (FWoken false)) | _ => k end) <$> ts.
  Definition remove (t : nat) (ws : list nat) : list nat := filter (λ i, i ≠ t) ws.

  (** the loop of get; get_nowait *)
  Definition get (t : nat) (s : aqueue) : aqueue :=
    match q_items s with
    | [] => AQ [] (q_unfinished s) (q_getters s ++ [t]) (q_putters s) (set_st t (SWait FPending) (q_tasks s)) (q_in s) (q_out s) (q_done s)
    | a :: items =>
        let '(ps, ts) := wake (q_putters s) (q_tasks s) in
        AQ items (q_unfinished s) (q_getters s) ps (set_st t SDone ts) (q_in s) (q_out s ++ [(t, a)]) (q_done s)
    end.
  (** the loop of put; put_nowait *)
  Definition put (t : nat) (a : A) (s : aqueue) : aqueue :=
    if full (q_items s) then
      AQ (q_items s) (q_unfinished s) (q_getters s) (q_putters s ++ [t]) (set_st t (SWait FPending) (q_tasks s)) (q_in s) (q_out s) (q_done s)
    else
      let '(gs, ts) := wake (q_getters s) (q_tasks s) in
      AQ (q_items s ++ [a]) (S (q_unfinished s)) gs (q_putters s) (set_st t SDone ts) (q_in s ++ [(t, a)]) (q_out s) (q_done s).
  Definition with_tasks (s : aqueue) (ts : list task) : aqueue := AQ (q_items s) (q_unfinished s) (q_getters s) (q_putters s) ts (q_in s) (q_out s) (q_done s).
  Definition join (t : nat) (s : aqueue) : aqueue :=
    with_tasks s (set_st t (if decide (q_unfinished s = 0) then SDone else SWait FPending) (q_tasks s)).
  Definition task_done (s : aqueue) : aqueue :=
    let n := Nat.pred (q_unfinished s) in
    AQ (q_items s) n (q_getters s) (q_putters s) (if decide (n = 0) then wake_joins (q_tasks s) else q_tasks s) (q_in s) (q_out s) (S (q_done s)).
  (** what a task does that was woken and then cancelled; [passes]: it wakes the next one *)
  Definition give_up (t : nat) (o : qop) (passes : bool) (s : aqueue) : aqueue :=
    let gs := match o with OGet => remove t (q_getters s) | _ => q_getters s end in
    let ps := match o with OPut _ => remove t (q_putters s) | _ => q_putters s end in
    let ts := set_st t SCancelled (q_tasks s) in
    match o with
    | OGet => if passes && negb (bool_decide (q_items s = [])) then let '(gs, ts) := wake gs ts in AQ (q_items s) (q_unfinished s) gs ps ts (q_in s) (q_out s) (q_done s)
              else AQ (q_items s) (q_unfinished s) gs ps ts (q_in s) (q_out s) (q_done s)
    | OPut _ => if passes && negb (full (q_items s)) then let '(ps, ts) := wake ps ts in AQ (q_items s) (q_unfinished s) gs ps ts (q_in s) (q_out s) (q_done s)
                else AQ (q_items s) (q_unfinished s) gs ps ts (q_in s) (q_out s) (q_done s)
    | OJoin => AQ (q_items s) (q_unfinished s) gs ps ts (q_in s) (q_out s) (q_done s)
    end.

  Inductive qlabel :=
  | QStart (o : qop)     (* a task is made *)
  | QRun (t : nat)       (* the event loop runs it *)
  | QCancel (t : nat)
  | QTaskDone.           (* task_done for an item that was taken *)
  Definition qrun (s : aqueue) (l : qlabel) : option aqueue :=
    match l with
    | QStart o => Some (with_tasks s (q_tasks s ++ [T o (SNew false)]))
    | QRun t =>
        k ← q_tasks s !! t;
        match t_st k with
        | SNew true => Some (with_tasks s (set_st t SCancelled (q_tasks s)))
        | SNew false | SWait (FWoken false) =>
            Some match t_op k, t_st k with
                 | OGet, _ => get t s
                 | OPut a, _ => put t a s
                 | OJoin, SNew _ => join t s
                 | OJoin, _ => with_tasks s (set_st t SDone (q_tasks s))
                 end
        | SWait (FWoken true) => Some (give_up t (t_op k) true s)
        | SWait FCancelled => Some (give_up t (t_op k) false s)
        | SWait FPending | SDone | SCancelled => None
        end
    | QCancel t =>
        k ← q_tasks s !! t;
        match t_st k with
        | SNew _ => Some (with_tasks s (set_st t (SNew true) (q_tasks s)))
        | SWait FPending => Some (with_tasks s (set_st t (SWait FCancelled) (q_tasks s)))
        | SWait (FWoken _) => Some (with_tasks s (set_st t (SWait (FWoken true)) (q_tasks s)))
        | SWait FCancelled => Some s
        | SDone | SCancelled => None
        end
    | QTaskDone => if decide (q_done s < length (q_out s)) then Some (task_done s) else None
    end.
  Definition qstep (s : aqueue) (l : qlabel) (s' : aqueue) : Prop := qrun s l = Some s'.
End queue.
Arguments qop : clear implicits.
Arguments task : clear implicits.
Arguments aqueue : clear implicits.
Arguments qlabel : clear implicits.
