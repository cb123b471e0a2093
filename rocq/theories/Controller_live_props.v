(** C64, over infinite runs. *)
From Verif Require Import Base WorkQueue_model DelayQueue_model DelayQueue_spec RateLimit_model Controller_model Controller_spec Controller_proofs3 Controller_live_spec Controller_live_proofs.
Local Open Scope nat_scope.

(** C64: in every run in which workers go on, with one of them never cancelled, whatever the
    reconciles answer and whatever else happens to the queue, what is added is given to a worker later. *)
Theorem C64_inevitable (A : Type) `{EqDecision A} (is_request : A → bool) σ lb t n0 i x n : σ 0 = kinit t n0 → runs is_request σ lb → fair σ lb →
  i < n0 → (∀ k, lb k ≠ KCancel i) → lb n = KEnv (DAdd x) → ∃ k, n < k ∧ starts x (lb k).
Proof. exact (λ H0 Hr Hf, added_starts is_request σ lb t n0 H0 Hr Hf i x n). Qed.
Print Assumptions C64_inevitable.
(** C64: so is whatever the queue owes, such as what became due *)
Theorem C64_owed_inevitable (A : Type) `{EqDecision A} (is_request : A → bool) σ lb t n0 i x n : σ 0 = kinit t n0 → runs is_request σ lb → fair σ lb →
  i < n0 → (∀ k, lb k ≠ KCancel i) → ready_owed x (k_q (σ n)) → ∃ k, n ≤ k ∧ starts x (lb k).
Proof. exact (λ H0 Hr Hf, owed_starts is_request σ lb t n0 H0 Hr Hf i x n). Qed.
Print Assumptions C64_owed_inevitable.

(** a run meeting the hypotheses *)
Theorem C64_live_case : live_st 0 = kinit 0 1 ∧ runs always live_st live_lb ∧ fair live_st live_lb ∧ (∀ k, live_lb k ≠ KCancel 0) ∧ live_lb 0 = KEnv (DAdd 5).
Proof. exact live_case. Qed.
Print Assumptions C64_live_case.
