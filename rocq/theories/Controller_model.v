(** Model of the workers of _Controller, aiok8s/controller/controller.py:68-125,
    on top of the delaying queue (DelayQueue_model.v), the default rate limiter
    (RateLimit_model.v) and rate_limiting_queue.py:25-39.

    Atomicity and simplifications:
    - Any number of workers (max_concurrent_reconciles, 39); each is a task that
      runs aw (68-71) for ever.  A transition of a worker is a piece of code
      between two suspensions; the call of queue.done (98) is a transition of its
      own, although it does not suspend.
    - [KEnv] is everything else that happens to the queue: calls of add (event
      handlers), add_after and shut_down by others, its background loop, the
      clock.  Nobody else calls get or done.
    - add_after (delaying_queue.py:36-57) suspends while its put is pending: the
      worker is in [WPut].  It may resume at any time here, also before the put
      completed, which it does not in reality.
    - get answered [RBlocked] is a worker that waits (see WorkQueueSched_model.v).
    - Time is counted in nanoseconds; delays are rounded up to whole ones.  The
      default limiter never answers an infinite delay.
    - CancelledError is no subclass of Exception (Python >= 3.8).
    - Logging (96, 103, 112, 124) has no effect. *)
From Verif Require Import Base WorkQueue_model WaitPQ_model DelayQueue_model RateLimit_model.
From Coq Require Import ZArith QArith Qround.
Open Scope Z_scope.

(** seconds as clock ticks *)
Definition ticks (q : Q) : Z := Qceiling (q * (1000000000 # 1)).
Definition ticks_of (d : number) : Z := match d with Fin q => ticks q | PInf | NInf => 0 end.

(** how do.reconcile ends (106-113, 114-120): an exception, a Result, or a
    value without the fields of a Result (such as None) *)
Inductive outcome := ORaise | OResult (requeue : bool) (requeue_after : Q) | OBad.
(** what _process_next_work_item gives: true, false or None (after 96), or an
    exception that is not an Exception *)
Inductive ret := RTrue | RFalse | RNothing | RCancelled.

Section controller.
  Context {A : Type} `{EqDecision A} (is_request : A → bool).

  Inductive wphase :=
    | WIdle                    (* about to call or in queue.get, 90 *)
    | WRun (x : A)             (* in do.reconcile, 107 *)
    | WPut (x : A) (r : ret)   (* in add_after *)
    | WFinish (x : A) (r : ret)  (* about to call queue.done, 98 *)
    | WSleep                   (* 71 *)
    | WDead                    (* cancelled *)
    | WCrashed.                (* queue.done raised: the exception leaves start *)
  Record kstate := K { k_q : dq A; k_lim : list (lim A); k_ws : list wphase }.
  (** 59-76, with [n] workers *)
  Definition kinit (t : Z) (n : nat) : kstate := K (dq_init t) default_limiter (replicate n WIdle).

  (** rate_limiting_queue.py:32-36, add_rate_limited up to add_after, and forget *)
  Definition limit_when (x : A) (sec : Q) (ms : list (lim A)) : list (lim A) * option Z :=
    let '(ms', r) := maxof_step lim_step ms (When x sec) in
    (ms', match r with LDelay d => Some (ticks_of d) | _ => None end).
  Definition limit_forget (x : A) (ms : list (lim A)) : list (lim A) := (maxof_step lim_step ms (Forget x)).1.

  (** add_after: does it suspend? *)
  Definition suspends (d : Z) (q : dq A) : bool := negb (wq_down (dq_base q)) && negb (d <=? 0).
  (** await self.queue.add_after(x, d) *)
  Definition do_add_after (x : A) (d : Z) (r : ret) (q : dq A) : dq A * wphase * option (Z * Z) :=
    (dq_add_after x d q, if suspends d q then WPut x r else WFinish x r, Some (d, dq_now q)).

  (** _reconcile_handler after do.reconcile, 108-125, and 95-96; also the delay
      given to add_after, and when *)
  Definition handle (x : A) (o : outcome) (sec : Q) (q : dq A) (ms : list (lim A)) : list (lim A) * (dq A * wphase * option (Z * Z)) :=
    match o with
    | ORaise =>
        match limit_when x sec ms with
        | (ms, Some d) => (ms, do_add_after x d RFalse q)
        | (ms, None) => (ms, (q, WFinish x RNothing, None))
        end
    | OResult requeue after =>
        if negb (Qeq_bool after 0) then (limit_forget x ms, do_add_after x (ticks after) RTrue q)
        else if requeue then
          match limit_when x sec ms with
          | (ms, Some d) => (ms, do_add_after x d RTrue q)
          | (ms, None) => (ms, (q, WFinish x RNothing, None))
          end
        else (limit_forget x ms, (q, WFinish x RTrue, None))
    | OBad => (ms, (q, WFinish x RNothing, None))
    end.
  (** 90-92 and 101-104; [r] is the answer of get *)
  Definition handle_get (r : wres A) (ms : list (lim A)) : list (lim A) * wphase :=
    match r with
    | RItem x => if is_request x then (ms, WRun x) else (limit_forget x ms, WFinish x RTrue)
    | RShutdown => (ms, WSleep)
    | _ => (ms, WIdle)
    end.
  (** 85-87 and 68-71, when queue.done is done *)
  Definition after_done (r : ret) : wphase :=
    match r with RTrue => WIdle | RFalse | RNothing => WSleep | RCancelled => WDead end.
  (** the worker's task is cancelled *)
  Definition cancelled (p : wphase) : wphase :=
    match p with
    | WRun x | WPut x _ => WFinish x RCancelled
    | WFinish x r => WFinish x r
    | WIdle | WSleep => WDead
    | WDead => WDead | WCrashed => WCrashed
    end.

  Inductive klabel :=
    | KEnv (l : dlabel A)
    | KGet (i : nat) (r : wres A) (t : Z)
    | KRet (i : nat) (x : A) (o : outcome) (sec : Q) (after : option (Z * Z))
    | KResume (i : nat)
    | KDone (i : nat) (x : A) (r : wres A)
    | KWake (i : nat)
    | KCancel (i : nat).
  Definition outside (l : dlabel A) : Prop := match l with DGet _ _ | DDone _ _ => False | _ => True end.

  Definition set_w (i : nat) (p : wphase) (s : kstate) : kstate := K (k_q s) (k_lim s) (<[i:=p]> (k_ws s)).
  Inductive kstep (s : kstate) : klabel → kstate → Prop :=
    | k_env l q' : outside l → dtrans (k_q s) l q' → kstep s (KEnv l) (K q' (k_lim s) (k_ws s))
    | k_get i r q' t : k_ws s !! i = Some WIdle → dtrans (k_q s) (DGet r t) q' →
        kstep s (KGet i r t) (K q' (handle_get r (k_lim s)).1 (<[i:=(handle_get r (k_lim s)).2]> (k_ws s)))
    | k_ret i x o sec ms q' p a : k_ws s !! i = Some (WRun x) → handle x o sec (k_q s) (k_lim s) = (ms, (q', p, a)) →
        kstep s (KRet i x o sec a) (K q' ms (<[i:=p]> (k_ws s)))
    | k_resume i x r : k_ws s !! i = Some (WPut x r) → kstep s (KResume i) (set_w i (WFinish x r) s)
    | k_done i x r q' e : k_ws s !! i = Some (WFinish x r) → dtrans (k_q s) (DDone x e) q' →
        kstep s (KDone i x e) (K q' (k_lim s) (<[i:=match e with RKeyError => WCrashed | _ => after_done r end]> (k_ws s)))
    | k_wake i : k_ws s !! i = Some WSleep → kstep s (KWake i) (set_w i WIdle s)
    | k_cancel i p : k_ws s !! i = Some p → kstep s (KCancel i) (set_w i (cancelled p) s).

  (** what a transition is for the queue *)
  Definition to_queue (l : klabel) : list (dlabel A) :=
    match l with
    | KEnv l => [l]
    | KGet _ r t => [DGet r t]
    | KRet _ x _ _ (Some (d, t)) => [DAddAfter x d t]
    | KDone _ x r => [DDone x r]
    | _ => []
    end.
End controller.
Arguments wphase : clear implicits.
Arguments kstate : clear implicits.
Arguments klabel : clear implicits.
