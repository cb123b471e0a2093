(** C82: which tasks end with manager.start. *)
From Verif Require Import Base ManagerStop_model ManagerStop_spec ManagerStop_proofs.

(** cancelled while it waits for its tasks, and none of the informers and workers has ended by itself: all tasks of the tree are asked to stop, they cannot go on forever, and once none can go on all have ended *)
Theorem C82_cancel_reaches_all ls s s' : reach tstep t_init ls s → none_failed ls → gathering s → tstep s TCancel s' →
  (∀ w, ¬ unasked s' w) ∧ (∃ b, ∀ ls' s2, reach tstep s' ls' s2 → (∀ l, l ∈ ls' → inside l) → length ls' ≤ b) ∧
  (∀ ls' s2, reach tstep s' ls' s2 → (∀ l, l ∈ ls' → inside l) → settled s2 → (∀ a, ¬ live s2 a) ∧ ∃ r, over s2 r ∧ r ≠ Returned).
Proof. exact (cancel_reaches ls s s'). Qed.
(** nothing that was not asked to stop by then is asked after manager.start has ended *)
Theorem C82_left_alone ls s r w ls' s' : reach tstep t_init ls s → over s r → unasked s w → reach tstep s ls' s' → (∀ l, l ∈ ls' → ¬ own_end l w) → unasked s' w.
Proof. exact (left_alone ls s r w ls' s'). Qed.
(** cancelled while it waits for the cache, manager.start leaves the informers running *)
Theorem C82_waiting_refuted : ∃ ls s, reach tstep t_init (ls ++ [TCancel]) s ∧ none_failed ls ∧ over s Cancelled ∧
  ∀ ls' s', reach tstep s ls' s' → (∀ l, l ∈ ls' → ¬ own_end l (WInf 0)) → unasked s' (WInf 0).
Proof. exact waiting_refuted. Qed.
(** a controller that fails ends manager.start; the informers and the other controllers' workers go on *)
Theorem C82_failure_refuted : ∃ ls s, reach tstep t_init ls s ∧ TCtlFail 0 ∈ ls ∧ over s Raised ∧
  ∀ w, w = WInf 0 ∨ w = WWorker 1 0 → ∀ ls' s', reach tstep s ls' s' → (∀ l, l ∈ ls' → ¬ own_end l w) → unasked s' w.
Proof. exact failure_refuted. Qed.
(** the hypothesis that no informer has failed is needed: a cancellation that comes right after one failed does not reach the others *)
Theorem C82_late_refuted : ∃ ls1 s1 ls2 s2, reach tstep t_init ls1 s1 ∧ gathering s1 ∧ reach tstep s1 (TCancel :: ls2) s2 ∧ over s2 Cancelled ∧
  ∀ ls' s', reach tstep s2 ls' s' → (∀ l, l ∈ ls' → ¬ own_end l (WInf 1)) → unasked s' (WInf 1).
Proof. exact late_refuted. Qed.
(** however a controller's start ends, its queue is shut down, unless it had not begun *)
Theorem C82_queue_shut ls s k c r : reach tstep t_init ls s → t_ctls s !! k = Some c → k_phase c = KEnd r → TCtlBegin k ∈ ls → k_shut c = true.
Proof. exact (queue_shut ls s k c r). Qed.

(** cases *)
Example C82_case : reach tstep t_init up_ls up_st ∧ none_failed up_ls ∧ gathering up_st ∧ live up_st ACache ∧ live up_st (ACtl 0) ∧ live up_st (ALeaf (WInf 0)) ∧ live up_st (ALeaf (WWorker 0 1)).
Proof. exact up_case. Qed.
Example C82_failed_case : reach tstep t_init fail_ls fail_st ∧ t_ctls fail_st !! 0 = Some (Ctl (KEnd Raised) [] true) ∧ TCtlBegin 0 ∈ fail_ls.
Proof. exact fail_case. Qed.

Print Assumptions C82_cancel_reaches_all.
Print Assumptions C82_left_alone.
Print Assumptions C82_waiting_refuted.
Print Assumptions C82_failure_refuted.
Print Assumptions C82_late_refuted.
Print Assumptions C82_queue_shut.
