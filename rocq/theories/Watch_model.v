(** Model of FakeWatcher, aiok8s/watch/watch.py:29-90, as made by new_fake (89-90).

    Atomicity and simplifications:
    - A transition is a piece of a task between two suspensions.  The queues are
      unbounded (69, 90), so put (85) does not suspend and action suspends for the
      lock and in join (86) only.  A call waiting for the lock has not begun yet; so
      at most one action is under way, and [w_lock] says which queue it joins.
    - Each reset makes a queue and a stop task (68-69).  They are numbered; the last
      ones are [_result] and [_task].  A stop task is new until its first step, then it
      is finished or waits; [Event.set] finishes those that wait, and clearing the
      event (67) does not bring them back.
    - [__anext__] (39-50) is a reader, with the queue of its get task (40), the stop
      task it waits for (43) and what the get task has taken.  Any pending get
      task may be the next to take an item.  When the caller is cancelled
      ([FWCancel]) the get task stays behind.
    - asyncio.wait lets a new get task run first even if the stop task is finished, and a
      get task that an item was put for runs before a reader that is woken by a later
      stop.  So StopAsyncIteration needs a queue without items that were put into it
      while the event was clear; [q_late] counts those put while it was set.
    - Events are never put into the queue by others than action. *)
From Verif Require Import Base.

Section watch.
  Context {E : Type}.

  Inductive stask := TNew | TWait | TFin.
  Record fqueue := FQ { q_items : list E; q_unfinished : nat; q_late : nat }.
  Inductive rstat := RPending | ROver | RLeft.
  Record reader := RD { r_queue : nat; r_task : nat; r_got : option E; r_stat : rstat }.
  Record fwatcher := FW {
    w_stopped : bool;           (* 31 *)
    w_tasks : list stask;       (* 32, 68 *)
    w_queues : list fqueue;     (* 33, 69 *)
    w_lock : option nat;        (* 34 *)
    w_readers : list reader
  }.
  Definition fw_init : fwatcher := FW false [TNew] [FQ [] 0 0] None [].

  (** asyncio.Event.set and the stop tasks *)
  Definition wake (t : stask) : stask := match t with TWait => TFin | _ => t end.
  (** asyncio.Queue.put_nowait *)
  Definition qput (st : bool) (e : E) (q : fqueue) : fqueue := FQ (q_items q ++ [e]) (S (q_unfinished q)) (if st then S (q_late q) else q_late q).
  Definition over (r : reader) : reader := RD (r_queue r) (r_task r) (r_got r) ROver.

  Inductive fwlabel :=
  | FWStart (g : nat) | FWStop | FWReset
  | FWPut (e : E) | FWJoined | FWAbort
  | FWRead (i : nat) | FWTake (i : nat) (e : E) | FWReturn (i : nat) (e : E) | FWValueError (i : nat) (e : E)
  | FWEnd (i : nat) | FWAgain (i : nat) | FWCancel (i : nat).

  Inductive fwstep : fwatcher → fwlabel → fwatcher → Prop :=
  (** first step of a stop task: Event.wait *)
  | fw_start g st ts qs lk rs : ts !! g = Some TNew →
      fwstep (FW st ts qs lk rs) (FWStart g) (FW st (<[g := if st then TFin else TWait]> ts) qs lk rs)
  (** 58-60 *)
  | fw_stop st ts qs lk rs : fwstep (FW st ts qs lk rs) FWStop (FW true (wake <$> ts) qs lk rs)
  (** 65-69 *)
  | fw_reset st ts qs rs : fwstep (FW st ts qs None rs) FWReset (FW false (ts ++ [TNew]) (qs ++ [FQ [] 0 0]) None rs)
  (** 83-86 *)
  | fw_put e st ts qs rs : fwstep (FW st ts qs None rs) (FWPut e) (FW st ts (alter (qput st e) (pred (length qs)) qs) (Some (pred (length qs))) rs)
  | fw_joined g q st ts qs rs : qs !! g = Some q → q_unfinished q = 0 → fwstep (FW st ts qs (Some g) rs) FWJoined (FW st ts qs None rs)
  (** the caller of action is cancelled in join *)
  | fw_abort g st ts qs rs : fwstep (FW st ts qs (Some g) rs) FWAbort (FW st ts qs None rs)
  (** 39-43 *)
  | fw_read st ts qs lk rs : fwstep (FW st ts qs lk rs) (FWRead (length rs)) (FW st ts qs lk (rs ++ [RD (pred (length qs)) (pred (length ts)) None RPending]))
  (** the get task, 40 *)
  | fw_take i e g t p b u lt st ts qs lk rs : rs !! i = Some (RD g t None p) → p ≠ ROver → qs !! g = Some (FQ (e :: b) u lt) →
      fwstep (FW st ts qs lk rs) (FWTake i e) (FW st ts (<[g := FQ b u lt]> qs) lk (<[i := RD g t (Some e) p]> rs))
  (** 45-47, task_done counts on the queue of now *)
  | fw_return i e g t b u lt st ts qs lk rs : rs !! i = Some (RD g t (Some e) RPending) → qs !! pred (length qs) = Some (FQ b (S u) lt) →
      fwstep (FW st ts qs lk rs) (FWReturn i e) (FW st ts (<[pred (length qs) := FQ b u lt]> qs) lk (alter over i rs))
  | fw_value_error i e g t b lt st ts qs lk rs : rs !! i = Some (RD g t (Some e) RPending) → qs !! pred (length qs) = Some (FQ b 0 lt) →
      fwstep (FW st ts qs lk rs) (FWValueError i e) (FW st ts qs lk (alter over i rs))
  (** 48-50 *)
  | fw_end i g t b u lt ts qs lk rs : rs !! i = Some (RD g t None RPending) → ts !! t = Some TFin → qs !! g = Some (FQ b u lt) → length b ≤ lt →
      fwstep (FW true ts qs lk rs) (FWEnd i) (FW true ts qs lk (alter over i rs))
  (** 41-43 again: the event is clear by now *)
  | fw_again i g t ts qs lk rs : rs !! i = Some (RD g t None RPending) → ts !! t = Some TFin →
      fwstep (FW false ts qs lk rs) (FWAgain i) (FW false ts qs lk (<[i := RD g (pred (length ts)) None RPending]> rs))
  | fw_cancel i g t o st ts qs lk rs : rs !! i = Some (RD g t o RPending) →
      fwstep (FW st ts qs lk rs) (FWCancel i) (FW st ts qs lk (<[i := RD g t o RLeft]> rs)).
End watch.
Arguments fqueue : clear implicits.
Arguments reader : clear implicits.
Arguments fwatcher : clear implicits.
Arguments fwlabel : clear implicits.
