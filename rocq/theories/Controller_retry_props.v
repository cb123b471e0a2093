(** C81: delayed and failed requests come back. *)
From Verif Require Import Base WorkQueue_model DelayQueue_model DelayQueue_spec DelayQueue_live_spec DelayQueue_live_proofs RateLimit_model Controller_model Controller_spec Controller_proofs3 Controller_live_spec Controller_retry_spec Controller_retry_proofs Controller_retry_proofs2.
From Coq Require Import ZArith QArith.
Local Open Scope nat_scope.

(** C81: in every run of a delaying queue that goes on and is not shut down, what was given to add_after is handed out later, whatever else happens, *)
Theorem C81_delay_ends (A : Type) `{EqDecision A} σ lb t n (x : A) d t0 : σ 0 = dq_init t → queue_runs σ lb → queue_goes_on σ lb → (∀ k, dq_stop (σ k) = false) →
  lb n = Some (DAddAfter x d t0) → ∃ m, n < m ∧ ready_owed x (σ m).
Proof. exact (λ H0 Hr Hg Ho, after_returns σ lb t H0 Hr Hg Ho n x d t0). Qed.
Print Assumptions C81_delay_ends.
(** and so is every entry, wherever it is kept *)
Theorem C81_entry_leaves (A : Type) `{EqDecision A} σ lb t n (x : A) r : σ 0 = dq_init t → queue_runs σ lb → queue_goes_on σ lb → (∀ k, dq_stop (σ k) = false) →
  (x, r) ∈ dq_tracked (σ n) → ∃ m, n ≤ m ∧ ready_owed x (σ m).
Proof. exact (λ H0 Hr Hg Ho, tracked_returns σ lb t H0 Hr Hg Ho n x r). Qed.
Print Assumptions C81_entry_leaves.

Section controller.
  Context (A : Type) `{EqDecision A} (is_request : A → bool) (σ : nat → kstate A) (lb : nat → klabel A) (t : Z) (n0 i : nat).
  Context (H0 : σ 0 = kinit t n0) (Hr : runs is_request σ lb) (Hf : fair σ lb) (Hs : serves σ lb) (Hi : i < n0) (Hc : ∀ k, lb k ≠ KCancel i).

  (** C81: a request given to the controller's queue with a delay is reconciled later *)
  Theorem C81_delayed n x d t0 : lb n = KEnv (DAddAfter x d t0) → ∃ m, n < m ∧ starts x (lb m).
  Proof. exact (added_after_starts is_request σ lb t n0 i H0 Hr Hf Hs Hi Hc n x d t0). Qed.
  (** C81: so is a request whose reconcile failed, fewer than 1024 times before, or asked for it *)
  Theorem C81_repeated n j x o sec a : lb n = KRet j x o sec a → (plan_of o (failures_of is_request x (upto lb n))).1 ≠ NoRequeue → ∃ m, n < m ∧ starts x (lb m).
  Proof. exact (requeued_starts is_request σ lb t n0 i H0 Hr Hf Hs Hi Hc n j x o sec a). Qed.
  (** C81: what is added is reconciled until that succeeds, or failed 1025 times in a row *)
  Theorem C81_until_success n x : is_request x = true → (∀ j k, lb k ≠ KCancel j) → lb n = KEnv (DAdd x) →
    ∃ m o, n < m ∧ ended lb x m o ∧ (¬ fails o ∨ 1024 ≤ failures_of is_request x (upto lb m)).
  Proof. exact (added_settles is_request σ lb t n0 i H0 Hr Hf Hs Hi Hc x n). Qed.
End controller.
Print Assumptions C81_delayed.
Print Assumptions C81_repeated.
Print Assumptions C81_until_success.

(** a run meeting the hypotheses *)
Example C81_case : retry_st 0 = kinit 0 1 ∧ runs always retry_st retry_lb ∧ fair retry_st retry_lb ∧ serves retry_st retry_lb ∧ (∀ j k, retry_lb k ≠ KCancel j) ∧
  retry_lb 0 = KEnv (DAdd 5) ∧ retry_lb 2 = KRet 0 5 ORaise 0 (Some (back, 0%Z)) ∧ retry_lb 15 = KGet 0 (RItem 5) back ∧ failures_of always 5 (upto retry_lb 16) = 1 ∧ ended retry_lb 5 16 (OResult false 0).
Proof. exact retry_case. Qed.
Print Assumptions C81_case.
