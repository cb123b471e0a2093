(** C89. *)
From Verif Require Import Base WorkQueue_model DelayQueue_model RateLimit_model Controller_model PyOld_model PyOld_spec ManagerStop_model ManagerStop_spec PyOld_proofs.
Open Scope nat_scope.

(** C89: since Python 3.8 the workers are those of the other properties *)
Theorem C89_since_38 {A : Type} `{EqDecision A} (is_request : A → bool) (s s' : kstate A) ls : reach (vstep is_request false) s ls s' ↔ reach (kstep is_request) s ls s'.
Proof. exact (new_reach is_request s ls s'). Qed.
(** C89: a worker that is cancelled while it waits for a request or sleeps takes no request any more, whatever the version; since 3.8 the same holds for one that reconciles or waits in add_after *)
Theorem C89_cancel_ends {A : Type} `{EqDecision A} (is_request : A → bool) old (s s1 s2 : kstate A) ls i p : k_ws s !! i = Some p →
  (p = WIdle ∨ p = WSleep ∨ (old = false ∧ ∃ x, p = WRun x ∨ ∃ r, p = WPut x r)) →
  vstep is_request old s (KCancel i) s1 → reach (vstep is_request old) s1 ls s2 → ∀ r t, KGet i r t ∉ ls.
Proof. exact (cancel_ends is_request old s s1 s2 ls i p). Qed.
(** before 3.8 a worker that reconciles survives any number of cancellations *)
Theorem C89_reconciling_refuted n : ∃ ls s, reach (vstep yes true) (kinit 0 1) ls s ∧ length (cancels 0 ls) = n ∧ taken_by 0 ls = replicate (S n) 5 ∧ k_ws s = [WRun 5].
Proof. exact (old_goes_on n). Qed.
(** C89: then a worker that goes on after manager.start was cancelled, and start has ended, is never asked to stop again *)
Theorem C89_left_alone ls s r w ls' s' : reach ostep t_init ls s → over s r → unasked s w → reach ostep s ls' s' → (∀ l, OT l ∈ ls' → ¬ own_end l w) → unasked s' w.
Proof. exact (old_left_alone ls s r w ls' s'). Qed.
(** and start does end, although nothing failed: C82_cancel_reaches_all is false there *)
Theorem C89_manager_refuted : ∃ ls s, reach tstep t_init mgr_up s ∧ gathering s ∧ reach ostep s ls mgr_end_st ∧ OT TCancel ∈ ls ∧ (∀ w r, OT (TOwn w r) ∉ ls) ∧
  over mgr_end_st Cancelled ∧ ∀ ls' s', reach ostep mgr_end_st ls' s' → (∀ l, OT l ∈ ls' → ¬ own_end l (WWorker 0 0)) → unasked s' (WWorker 0 0).
Proof. exact old_manager. Qed.

(** Concrete case: a worker that reconciles, and is cancelled *)
Theorem C89_case : reach (vstep yes true) (kinit 0 1) begin busy ∧ k_ws busy !! 0 = Some (WRun 5) ∧ vstep yes false busy (KCancel 0) (set_w 0 (WFinish 5 RCancelled) busy) ∧
  reach (vstep yes true) busy cycle busy ∧ cycle = [KCancel 0; KDone 0 5 RNone; KWake 0; KEnv (DAdd 5); KGet 0 (RItem 5) 0].
Proof. exact (conj begins (conj eq_refl (conj (v_cancel yes false busy 0 (WRun 5) eq_refl) (conj cycles eq_refl)))). Qed.
Print Assumptions C89_since_38.
Print Assumptions C89_cancel_ends.
Print Assumptions C89_reconciling_refuted.
Print Assumptions C89_left_alone.
Print Assumptions C89_manager_refuted.
Print Assumptions C89_case.
