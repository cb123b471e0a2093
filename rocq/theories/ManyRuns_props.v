(** Property of a listener whose informer is run several times: C96. *)
From Verif Require Import Base Listener_model ManyRuns_model ManyRuns_spec ManyRuns_proofs.

Section props.
  Context {N : Type} `{EqDecision N}.
  Implicit Types ls : list (mlabel N).
  (** C96: however often run was called, no notification is handed to the handler more often than it was accepted *)
  Theorem C96_at_most_once ls s n : reach mstep mul_init ls s → times n (called ls) ≤ times n (taken ls).
  Proof. exact (at_most_once ls s n). Qed.
  (** the tasks come to rest when nothing new happens, *)
  Theorem C96_ends ls s : reach mstep mul_init ls s → ∃ b, ∀ ls' s', reach mstep s ls' s' → Forall goes_on ls' → length ls' ≤ b.
  Proof. exact (many_ends ls s). Qed.
  (** and then, without a stop, each was handed over exactly once, its callback has ended and nobody waits to add one *)
  Theorem C96_delivered ls s : reach mstep mul_init ls s → MStop ∉ ls → 1 ≤ runs ls → (∀ l s', mstep s l s' → ¬ goes_on l) →
    called ls ≡ₚ taken ls ∧ returned ls = length (taken ls) ∧ m_adder s = AIdle.
  Proof. exact (delivered ls s). Qed.
  (** at most as many callbacks run at once as run was called times *)
  Theorem C96_overlap ls s : reach mstep mul_init ls s → returned ls ≤ length (called ls) ≤ returned ls + runs ls.
  Proof. exact (overlap_bound ls s). Qed.
  (** once a stop of any run has ended the pumps, no _add returns until run is called again *)
  Theorem C96_stopped_hangs s : Forall (λ p, p = MStopped) (m_pumps s) → m_adder s ≠ AJoining → ∀ ls s', reach mstep s ls s' → MRun ∉ ls → MJoined ∉ ls.
  Proof. exact (λ H1 H2 ls s' H3 H4, proj2 (proj2 (shut_never s H1 H2 ls s' H3 H4))). Qed.
End props.
(** REFUTED: callbacks follow one another. Of two runs, the second ends the callback of 2 while the callback of 1 is still running *)
Theorem C96_one_at_a_time_refuted : ∃ (ls : list (mlabel nat)) s, reach mstep mul_init (ls ++ [MReturn 1]) s ∧ runs ls = 2 ∧
  taken ls = [1; 2] ∧ called ls = [1; 2] ∧ m_runs s = [RHandling 1; RWait].
Proof. exact overlap_wit. Qed.
(** REFUTED: the end of one run leaves the other alone. After one stop the pumps of both have ended *)
Theorem C96_stop_refuted : ∃ (ls : list (mlabel nat)) s, reach mstep mul_init ls s ∧ runs ls = 2 ∧ times MStop ls = 1 ∧
  m_pumps s = [MStopped; MStopped] ∧ m_adder s = AIdle.
Proof. exact stop_wit. Qed.
(** a run: two runs, two notifications, both handed over *)
Theorem C96_case : ∃ s, reach mstep mul_init (overlap_trace ++ [MReturn 0]) s ∧ called (overlap_trace ++ [MReturn 0]) = [1; 2] ∧ returned (overlap_trace ++ [MReturn 0]) = 2.
Proof. exact many_case. Qed.
Print Assumptions C96_at_most_once.
Print Assumptions C96_ends.
Print Assumptions C96_delivered.
Print Assumptions C96_overlap.
Print Assumptions C96_stopped_hangs.
Print Assumptions C96_one_at_a_time_refuted.
Print Assumptions C96_stop_refuted.
