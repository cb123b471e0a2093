(** Model of a controller whose start is called any number of times: aiok8s/controller/controller.py:56-121.
    (manager.start calls the start of every runnable each time it is called, manager.py:43-56.)

    [self.queue] is replaced by each start (57), and it is read again for every get, add_* and done
    (89, 98, 103-121).

    Simplifications:
    - A queue is that of WorkQueue_model.v.  add_rate_limited and add_after are adds that may come at
      any time to any queue ([TAdd]); so are the adds of the event handlers, which keep the queue they
      were made with (61-63).
    - shut_down (80) of the rate limited queue does not shut down its base (delaying_queue.py:63-67 calls
      itself), so get never reports a shutdown; it is left out.
    - The mutex, the sources and the synchronization (59-66) are in Inject_model.v; here a worker begins
      at any time after the first start, whichever start it belongs to.
    - A worker may be cancelled at any time. *)
From Verif Require Import Base WorkQueue_model.
From Coq Require Import ZArith.
Local Open Scope nat_scope.

Section twice.
  Context {A : Type} `{EqDecision A}.
  (** before 89; in get of the queue with this number; in reconcile (107) and what follows; before done (98),
      having been cancelled or not; ended; ended by an exception of done *)
  Inductive tphase := PIdle | PGet (q : nat) | PRun (x : A) | PFin (x : A) (stop : bool) | PEnd | PCrash.
  Record tctl := TCtl { t_qs : list (wq A); t_ws : list tphase }.
  Definition tctl_init : tctl := TCtl [] [].
  (** self.queue *)
  Definition current (s : tctl) : nat := length (t_qs s) - 1.
  Inductive tlab := TStart | TWorker (w : nat) | TCall (w q : nat) | TTake (w q : nat) (x : A) | TRet (w : nat) (x : A) | TDone (w : nat) (x : A) (ok : bool)
  | TAdd (q : nat) (x : A) | TCancel (w : nat).
  Definition set_phase (w : nat) (p : tphase) (s : tctl) : tctl := TCtl (t_qs s) (<[w:=p]> (t_ws s)).
  Definition set_queue (k : nat) (q : wq A) (s : tctl) : tctl := TCtl (<[k:=q]> (t_qs s)) (t_ws s).
  (** where a cancellation leads, and whether the task ends there *)
  Definition stopped_at (p : tphase) : tphase :=
    match p with PIdle | PGet _ => PEnd | PRun x => PFin x true | PFin x _ => PFin x true | PEnd => PEnd | PCrash => PCrash end.

  Inductive tstep (s : tctl) : tlab → tctl → Prop :=
  (** 57 *)
  | t_start : tstep s TStart (TCtl (t_qs s ++ [wq_init]) (t_ws s))
  (** 73-76 *)
  | t_worker : t_qs s ≠ [] → tstep s (TWorker (length (t_ws s))) (TCtl (t_qs s) (t_ws s ++ [PIdle]))
  (** 89: self.queue.get is called *)
  | t_call w : t_ws s !! w = Some PIdle → tstep s (TCall w (current s)) (set_phase w (PGet (current s)) s)
  (** it returns, queue.py:53-62 *)
  | t_take w k q q' x : t_ws s !! w = Some (PGet k) → t_qs s !! k = Some q → wstep q Get = (q', RItem x) →
      tstep s (TTake w k x) (set_queue k q' (set_phase w (PRun x) s))
  (** 92-96 *)
  | t_ret w x : t_ws s !! w = Some (PRun x) → tstep s (TRet w x) (set_phase w (PFin x false) s)
  (** 97-98: self.queue.done; the worker goes on or sleeps (70-71, 85-87) *)
  | t_done w x b q q' : t_ws s !! w = Some (PFin x b) → t_qs s !! current s = Some q → wstep q (Done x) = (q', RNone) →
      tstep s (TDone w x true) (set_queue (current s) q' (set_phase w (if b then PEnd else PIdle) s))
  | t_done_raises w x b q : t_ws s !! w = Some (PFin x b) → t_qs s !! current s = Some q → wstep q (Done x) = (q, RKeyError) →
      tstep s (TDone w x false) (set_phase w PCrash s)
  | t_add k q q' x : t_qs s !! k = Some q → wstep q (Add x) = (q', RNone) → tstep s (TAdd k x) (set_queue k q' s)
  | t_cancel w p : t_ws s !! w = Some p → tstep s (TCancel w) (set_phase w (stopped_at p) s).
End twice.
Arguments tphase : clear implicits.
Arguments tctl : clear implicits.
Arguments tlab : clear implicits.
