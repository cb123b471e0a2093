(** Properties of a controller that is started several times: C93. *)
From Verif Require Import Base WorkQueue_model Twice_model Twice_spec Twice_proofs.

(** C93: at most as many reconciles of a request run at a time as the controller was started *)
Theorem C93_at_most_starts {A : Type} `{EqDecision A} tr (s : tctl A) x : reach tstep tctl_init tr s → takes x tr ≤ rets x tr + starts tr.
Proof. exact (at_most_starts tr s x). Qed.
(** and a request ends workers by the KeyError of done less often than that; never, if the controller is started once *)
Theorem C93_errors {A : Type} `{EqDecision A} tr (s : tctl A) x : reach tstep tctl_init tr s → errors x tr ≤ starts tr - 1.
Proof. exact (few_errors tr s x). Qed.
(** from the queues of the starts before, at most one request is taken for each worker that waited when a start made its own *)
Theorem C93_left_behind {A : Type} `{EqDecision A} tr1 (s1 : tctl A) tr2 s : reach tstep tctl_init tr1 s1 → reach tstep s1 (TStart :: tr2) s →
  old_takes (starts tr1) tr2 ≤ waiting s1.
Proof. exact (left_behind tr1 s1 tr2 s). Qed.
(** REFUTED: that a request is reconciled by one worker at a time *)
Theorem C93_concurrent_refuted : ∃ tr s, reach tstep tctl_init (tr : list (tlab nat)) s ∧ t_ws s !! 0 = Some (PRun 7) ∧ t_ws s !! 1 = Some (PRun 7).
Proof. exact twice_refuted. Qed.
(** REFUTED: that the workers of the last start go on *)
Theorem C93_crash_refuted : ∃ tr s, reach tstep tctl_init (tr : list (tlab nat)) s ∧ TTake 1 1 7 ∈ tr ∧ t_ws s !! 1 = Some PCrash.
Proof. exact crash_refuted. Qed.
(** REFUTED: that a request which was added is taken, if the controller is started again *)
Theorem C93_lost_refuted : ∃ tr s, reach tstep tctl_init (tr : list (tlab nat)) s ∧ TAdd 0 8 ∈ tr ∧ (∀ w q, TTake w q 8 ∉ tr) ∧
  ∀ tr' s', reach tstep s (TStart :: tr') s' → ∀ w x, TTake w 0 x ∉ tr'.
Proof. exact lost_refuted. Qed.

(** the bounds are met *)
Example C93_case : reach tstep tctl_init both_tr both_s ∧ takes 7 both_tr = 2 ∧ rets 7 both_tr = 0 ∧ starts both_tr = 2 ∧
  ∃ s, reach tstep tctl_init (both_tr ++ [TRet 0 7; TDone 0 7 true; TRet 1 7; TDone 1 7 false]) s ∧ errors 7 (both_tr ++ [TRet 0 7; TDone 0 7 true; TRet 1 7; TDone 1 7 false]) = 1.
Proof. split; [exact both_runs|]. repeat (split; [done|]). destruct crash_runs as (s & Hs & _). exists s. split; [eapply reach_app; [exact both_runs|exact Hs]|done]. Qed.

Print Assumptions C93_at_most_starts.
Print Assumptions C93_errors.
Print Assumptions C93_left_behind.
Print Assumptions C93_concurrent_refuted.
Print Assumptions C93_crash_refuted.
Print Assumptions C93_lost_refuted.
