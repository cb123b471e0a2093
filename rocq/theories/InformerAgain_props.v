(** C99: a shared informer whose run is cancelled again while it waits for its
    processor.  [CAgain] is that cancellation. *)
From Verif Require Import Base Listener_model InformerStop_model InformerStop_spec InformerAgain_model InformerAgain_spec InformerAgain_proofs.

(** if the processor waits for the tasks of the listeners, these end: they
    cannot go on for ever, once none can go on all have ended, and no callback is
    started any more *)
Theorem C99_ends {N} ls (s : cst N) s1 ls' s' : reach cstep cs_init ls s → gathering s → cstep s CAgain s1 → reach cstep s1 ls' s' →
  (∃ b, ∀ ls2 s2, reach cstep s' ls2 s2 → CAgain ∉ ls2 → length ls2 ≤ b) ∧ (still s' → tasks_over s') ∧ ∀ j n, CBase (ILis j (LCall n)) ∉ ls'.
Proof. exact (again_ends ls s s1 ls' s'). Qed.
(** run can end at once, whatever callbacks are running, if a task of a listener was not in one *)
Theorem C99_at_once {N} ls (s : cst N) s1 j : reach cstep cs_init ls s → gathering s → idle_task s j → cstep s CAgain s1 →
  ∃ s2, cstep s1 CEnd s2 ∧ run_over s2.
Proof. exact (again_at_once ls s s1 j). Qed.
(** otherwise it waits for the callbacks until one lets the cancellation through *)
Theorem C99_waits {N} ls (s : cst N) s1 k ls' s' : reach cstep cs_init ls s → gathering s → (∀ j, ¬ idle_task s j) → calling s k →
  cstep s CAgain s1 → reach cstep s1 ls' s' →
  (∀ l, l ∈ ls' → (∀ j, l ≠ CThrough j) ∧ l ≠ CBase (ILis k LReturn) ∧ l ≠ CBase (ILis k LRaise)) → ¬ run_over s'.
Proof. exact (again_waits ls s s1 k ls' s'). Qed.
(** once one did, run can end *)
Theorem C99_through {N} (s : cst N) s1 bs s' j : gathering s → cstep s CAgain s1 → reach cstep s1 bs s' → CThrough j ∈ bs →
  run_over s' ∨ ∃ s2, cstep s' CEnd s2 ∧ run_over s2.
Proof. exact (again_through s s1 bs s' j). Qed.
(** if the processor has not begun, all is over *)
Theorem C99_unstarted {N} ls (s : cst N) s1 : reach cstep cs_init ls s → not_begun s → cstep s CAgain s1 → tasks_over s1 ∧ ∀ l s2, ¬ cstep s1 l s2.
Proof. exact (again_unstarted ls s s1). Qed.
(** if the processor has not woken up since it was told to stop, run ends and no task of a listener ever does *)
Theorem C99_leak {N} ls (s : cst N) s1 ls' s' : reach cstep cs_init ls s → not_woken s → cstep s CAgain s1 → reach cstep s1 ls' s' →
  run_over s' ∧ length (i_lis (c_st s')) = length (i_lis (c_st s)) ∧
  ∀ j b x, i_lis (c_st s') !! j = Some (b, x) → b = true ∧ l_stop x = false ∧ l_pump x ≠ PStopped ∧ l_run x ≠ RStopped.
Proof. exact (again_leak ls s s1 ls' s'). Qed.
(** so it happens that a callback is started after run has ended, by tasks that never end *)
Theorem C99_leak_refuted : ∃ s s1 s2, reach cstep cs_init (CBase <$> (again_up ++ again_stop)) s ∧ not_woken s ∧ cstep s CAgain s1 ∧ run_over s1 ∧
  reach cstep s1 (CBase <$> again_call) s2 ∧ calling s2 0 ∧
  ∀ ls' s', reach cstep s1 ls' s' → ∃ x, i_lis (c_st s') !! 0 = Some (true, x) ∧ l_pump x ≠ PStopped ∧ l_run x ≠ RStopped.
Proof. exact again_leak_refuted. Qed.
(** and that run ends while a callback is running *)
Theorem C99_callback_refuted : ∃ s s1 s2 s3, reach cstep cs_init (CBase <$> (again_up ++ again_call ++ again_stop ++ [IProcWake; IProcStop])) s ∧
  gathering s ∧ calling s 0 ∧ cstep s CAgain s1 ∧ cstep s1 CEnd s2 ∧ run_over s2 ∧ calling s2 0 ∧ reach cstep s2 [CThrough 0] s3 ∧ tasks_over s3.
Proof. exact again_callback_refuted. Qed.

Print Assumptions C99_ends.
Print Assumptions C99_at_once.
Print Assumptions C99_waits.
Print Assumptions C99_through.
Print Assumptions C99_unstarted.
Print Assumptions C99_leak.
Print Assumptions C99_leak_refuted.
Print Assumptions C99_callback_refuted.
