(** Properties of the controller's workers: C62-C64. *)
From Verif Require Import Base WorkQueue_model WaitPQ_model DelayQueue_model DelayQueue_spec RateLimit_model
  Controller_model Controller_spec Controller_proofs Controller_proofs2 Controller_proofs3.
From Coq Require Import ZArith QArith.
Local Open Scope nat_scope.

Section props.
  Context {A : Type} `{EqDecision A} (is_request : A → bool).
  Notation kst := (kstep is_request).

  (** C62: the reconciler runs at most once at a time for a request *)
  Theorem C62_one_reconcile t n tr s i j x : reach kst (kinit t n) tr s → reconciling i x s → reconciling j x s → i = j.
  Proof. exact (one_reconcile is_request t n tr s i j x). Qed.
  (** every request given to a worker is given back exactly once, unless the one worker still has it; giving it back never fails *)
  Theorem C62_released_once t n tr s x : reach kst (kinit t n) tr s →
    given x tr = released x tr + countb (holdsb x) (k_ws s) ∧ countb (holdsb x) (k_ws s) ≤ 1 ∧
    (∀ i y r, KDone i y r ∈ tr → r = RNone) ∧ (∀ i, k_ws s !! i ≠ Some WCrashed).
  Proof. exact (released_once is_request t n tr s x). Qed.

  (** C63: what becomes of a request after each outcome *)
  Theorem C63_table t n tr s i x o sec a s' : reach kst (kinit t n) tr s → kst s (KRet i x o sec a) s' →
    let p := plan_of o (failures_of is_request x tr) in met p.1 sec s a s' ∧ num_requeues x s' = LCount p.2.
  Proof. exact (outcome_table is_request t n tr s i x o sec a s'). Qed.
  (** what is no request is not reconciled, and its count reset *)
  Theorem C63_not_a_request t n tr s i x tm s' : reach kst (kinit t n) tr s → kst s (KGet i (RItem x) tm) s' → is_request x = false →
    k_ws s' !! i = Some (WFinish x RTrue) ∧ num_requeues x s' = LCount 0.
  Proof. exact (not_request is_request t n tr s i x tm s'). Qed.
  (** what was requeued was given to a worker again since, or is due now, or will be *)
  Theorem C63_requeued t n tr s l1 l2 i x o sec d t0 : reach kst (kinit t n) tr s → dq_stop (k_q s) = false →
    tr = l1 ++ KRet i x o sec (Some (d, t0)) :: l2 →
    (∃ l, l ∈ l2 ∧ starts x l) ∨ ready_owed x (k_q s) ∨ ∃ r, (x, r) ∈ dq_tracked (k_q s) ∧ (r <= t0 + d)%Z.
  Proof. exact (requeued is_request t n tr s l1 l2 i x o sec d t0). Qed.
  (** after a failure, or when the queue is shut down, a worker pauses before it asks for the next request; after a success it does not *)
  Theorem C63_pauses t n l1 l l2 i r tm l3 s : reach kst (kinit t n) (l1 ++ l :: l2 ++ KGet i r tm :: l3) s → goes_wrong i l → KWake i ∈ l2.
  Proof. exact (pauses is_request t n l1 l l2 i r tm l3 s). Qed.
  Theorem C63_no_pause t n l1 l l2 i l3 s : reach kst (kinit t n) (l1 ++ l :: l2 ++ KWake i :: l3) s → goes_well i l → ∃ r tm, KGet i r tm ∈ l2.
  Proof. exact (no_pause is_request t n l1 l l2 i l3 s). Qed.

  (** C64: a request added at any time is given to a worker later, or still owed, *)
  Theorem C64_not_lost t n tr s l1 l2 x : reach kst (kinit t n) tr s → tr = l1 ++ KEnv (DAdd x) :: l2 →
    (∃ l, l ∈ l2 ∧ starts x l) ∨ ready_owed x (k_q s).
  Proof. exact (added_owed is_request t n tr s l1 l2 x). Qed.
  (** and then the workers can always go on to take it by themselves *)
  Theorem C64_progress t n tr s i p x : reach kst (kinit t n) tr s → k_ws s !! i = Some p → alive p → ready_owed x (k_q s) →
    ∃ ls s', reach kst s ls s' ∧ Forall by_worker ls ∧ ∃ l, l ∈ ls ∧ starts x l.
  Proof. exact (will_start is_request t n tr s i p x). Qed.
End props.

(** C63 (refuted): a failed reconcile is not always retried: 1025 failures in a row and the request is gone *)
Theorem C63_retried_refuted : ∃ tr s, reach (kstep always) (kinit 0 1) tr s ∧ failures_of always 0 tr = 1025 ∧ Forall natural tr ∧
  k_ws s = [WIdle] ∧ ∀ ls s', reach (kstep always) s ls s' → (∀ l, l ∈ ls → ¬ asks 0 l) → ∀ l, l ∈ ls → ¬ starts 0 l.
Proof. exact dropped. Qed.

(** cases *)
Example C62_C64_case : ∃ s, reach (kstep always) (kinit 0 2) busy_trace s ∧ reconciling 0 7 s ∧ reconciling 1 8 s ∧ ready_owed 7 (k_q s).
Proof. exact busy_case. Qed.
Example C63_case : ∃ s s', reach (kstep always) (kinit 0 1) [KEnv (DAdd 7); KGet 0 (RItem 7) 0] s ∧
  kstep always s (KRet 0 7 (OResult true (3 # 2)) 0 (Some (1500000000%Z, 0%Z))) s' ∧ dq_puts (k_q s') = [(7, 1500000000%Z)].
Proof. exact after_case. Qed.
Example C63_pauses_case : ∃ s, reach (kstep always) (kinit 0 1)
  ([KEnv (DAdd 7); KGet 0 (RItem 7) 0] ++ KRet 0 7 OBad 0 None :: [KDone 0 7 RNone; KWake 0] ++ KGet 0 RBlocked 0 :: []) s ∧ goes_wrong 0 (KRet 0 7 OBad 0 None).
Proof. exact pause_case. Qed.

Print Assumptions C62_one_reconcile.
Print Assumptions C62_released_once.
Print Assumptions C63_table.
Print Assumptions C63_not_a_request.
Print Assumptions C63_requeued.
Print Assumptions C63_pauses.
Print Assumptions C63_no_pause.
Print Assumptions C64_not_lost.
Print Assumptions C64_progress.
Print Assumptions C63_retried_refuted.
