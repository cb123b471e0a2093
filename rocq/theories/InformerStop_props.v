(** C83: the end of a shared informer. *)
From Verif Require Import Base Listener_model Listener_proofs InformerStop_model InformerStop_spec InformerStop_proofs InformerStop_proofs2.

(** after run was cancelled (once) the tasks cannot go on forever, and once none of them can go on all have ended *)
Theorem C83_ends {N} ls (s : ist N) : reach istep is_init ls s → ICancel ∈ ls → ICancelAgain ∉ ls →
  (∃ b, ∀ ls' s', reach istep s ls' s' → (∀ l, l ∈ ls' → calm l) → length ls' ≤ b) ∧ (settled s → all_over s).
Proof. exact (informer_ends ls s). Qed.
(** run does not end before the callbacks that are running have returned *)
Theorem C83_waits_for_callback {N} ls (s : ist N) j ls' s' : reach istep is_init ls s → in_callback s j → i_run s ≠ REnd → reach istep s ls' s' →
  (∀ l, l ∈ ls' → ¬ callback_returns j l ∧ l ≠ ICancelAgain) → in_callback s' j ∧ i_run s' ≠ REnd.
Proof. exact (waits_for_callback ls s j ls' s'). Qed.
(** cancelled a second time while a handler is being added, run ends and leaves the tasks of the processor and of the listeners running for ever *)
Theorem C83_twice_refuted : ∃ ls (s : ist nat), reach istep is_init ls s ∧ i_run s = REnd ∧ (∃ x, i_lis s !! 0 = Some (true, x)) ∧
  ∀ ls' s', reach istep s ls' s' → i_proc s' ≠ QEnd ∧ ∀ j b x, i_lis s' !! j = Some (b, x) → l_stop x = false ∧ l_pump x ≠ PStopped ∧ l_run x ≠ RStopped.
Proof. exact twice_refuted. Qed.
(** without a cancellation, a call of add_event_handler may wait for a running callback to return: made by that callback, neither ends *)
Theorem C83_nested_add_refuted : ∃ ls (s : ist nat), reach istep is_init ls s ∧ in_callback s 0 ∧ i_adder s = Some ABlock ∧
  ∀ ls' s', reach istep s ls' s' → (∀ l, l ∈ ls' → ¬ callback_returns 0 l ∧ l ≠ ICancel ∧ l ≠ IACancel) → in_callback s' 0 ∧ i_adder s' = Some ABlock.
Proof. exact stuck_refuted. Qed.

(** a case: cancelled while a callback runs, a notification waits to be taken and a handler is being added *)
Example C83_case : ∃ s, reach istep is_init (up ++ stuck ++ [ICancel]) s ∧ in_callback s 0 ∧ i_run s = RClose.
Proof. exact cancelled_case. Qed.

Print Assumptions C83_ends.
Print Assumptions C83_waits_for_callback.
Print Assumptions C83_twice_refuted.
Print Assumptions C83_nested_add_refuted.
