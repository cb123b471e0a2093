(** Specification of the workers, over traces (oldest first). *)
From Verif Require Import Base WorkQueue_model DelayQueue_model DelayQueue_spec RateLimit_model Controller_model.
From Coq Require Import ZArith QArith.

Section spec.
  Context {A : Type} `{EqDecision A} (is_request : A → bool).
  Implicit Types (tr : list (klabel A)) (x : A).

  (** worker i is reconciling x *)
  Definition reconciling (i : nat) (x : A) (s : kstate A) : Prop := k_ws s !! i = Some (WRun x).
  (** the worker has x in hand *)
  Definition holdsb x (p : wphase A) : bool :=
    match p with WRun y | WPut y _ | WFinish y _ => bool_decide (y = x) | _ => false end.
  (** x was given out, and given back *)
  Definition given x tr : nat := countb (λ l, match l with KGet _ (RItem y) _ => bool_decide (y = x) | _ => false end) tr.
  Definition released x tr : nat := countb (λ l, match l with KDone _ y RNone => bool_decide (y = x) | _ => false end) tr.
  (** worker i started reconciling x *)
  Definition starts x (l : klabel A) : Prop := ∃ i t, l = KGet i (RItem x) t.

  (** the number of failures counted for x: reconciles that failed or asked to
      be repeated since the last that succeeded, or set a delay itself *)
  Definition count_step x (n : nat) (l : klabel A) : nat :=
    match l with
    | KRet _ y ORaise _ _ => if bool_decide (y = x) then S n else n
    | KRet _ y (OResult requeue after) _ _ =>
        if bool_decide (y = x) then (if negb (Qeq_bool after 0) then 0%nat else if requeue then S n else 0%nat) else n
    | KGet _ (RItem y) _ => if bool_decide (y = x ∧ is_request y = false) then 0%nat else n
    | _ => n
    end.
  Definition failures_of x tr : nat := foldl (count_step x) 0%nat tr.
  (** the exponential back-off after n failures, in seconds *)
  Definition backoff (n : nat) : Q :=
    let d := (five_milli * inject_Z (2 ^ Z.of_nat n))%Q in if Qle_bool d 1000 then d else 1000%Q.

  (** what is to be done with x after a reconcile, when n failures were counted
      before, and how many are counted then *)
  Inductive plan := NoRequeue | After (d : Q) | AtLeast (d : Q).
  Definition repeat_plan (n : nat) : plan * nat := (if Nat.ltb n 1024 then AtLeast (backoff n) else NoRequeue, S n).
  Definition plan_of (o : outcome) (n : nat) : plan * nat :=
    match o with
    | ORaise => repeat_plan n
    | OResult requeue after =>
        if Qeq_bool after 0 then (if requeue then repeat_plan n else (NoRequeue, 0%nat)) else (After after, 0%nat)
    | OBad => (NoRequeue, n)
    end.
  (** add_after was called accordingly; the delay may exceed the back-off only
      to be what the bucket asks for *)
  Definition met (p : plan) (sec : Q) (s : kstate A) (after : option (Z * Z)) (s' : kstate A) : Prop :=
    match p with
    | NoRequeue => after = None ∧ k_q s' = k_q s
    | After d => after = Some (ticks d, dq_now (k_q s))
    | AtLeast d => ∃ d', after = Some (ticks d', dq_now (k_q s)) ∧ (d <= d')%Q ∧
        ((d' == d)%Q ∨ ∃ b, inr b ∈ k_lim s ∧ d' = (bucket_when b sec).2)
    end.
  (** queue.num_requeues(x) *)
  Definition num_requeues x (s : kstate A) : lres := (maxof_step lim_step (k_lim s) (NumRequeues x)).2.

  (** x is asked for by somebody else than a worker *)
  Definition asks x (l : klabel A) : Prop := l = KEnv (DAdd x) ∨ ∃ d t, l = KEnv (DAddAfter x d t).
  (** nothing but adding, failing reconciles and the queue's own doing *)
  Definition natural (l : klabel A) : Prop :=
    match l with KEnv DShutDown | KEnv (DAddAfter _ _ _) | KCancel _ => False | KRet _ _ o _ _ => o = ORaise | _ => True end.
  (** a worker that was not cancelled *)
  Definition alive (p : wphase A) : Prop :=
    match p with WDead | WCrashed => False | WFinish _ RCancelled | WPut _ RCancelled => False | _ => True end.
  (** worker i was told that the queue is shut down, or its reconcile failed; or it succeeded *)
  Definition goes_wrong (i : nat) (l : klabel A) : Prop :=
    match l with KGet j RShutdown _ => j = i | KRet j _ o _ _ => j = i ∧ (o = ORaise ∨ o = OBad) | _ => False end.
  Definition goes_well (i : nat) (l : klabel A) : Prop :=
    match l with KRet j _ (OResult requeue after) _ _ => j = i ∧ (requeue = false ∨ Qeq_bool after 0 = false) | _ => False end.
  (** transitions of the workers alone *)
  Definition by_worker (l : klabel A) : Prop :=
    match l with KGet _ _ _ | KRet _ _ _ _ _ | KResume _ | KDone _ _ _ | KWake _ => True | _ => False end.
End spec.
