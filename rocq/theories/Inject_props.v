(** Properties of watches and injection: C91. *)
From Verif Require Import Base Inject_model Inject_spec Inject_proofs.

(** C91: a controller that is started starts the sources of exactly the watches made before it took its
    mutex, in order, once each, before its workers begin *)
Theorem C91_watches_started c r ls1 ls2 s : reach istep inj_init (ls1 ++ ILock c r :: ls2) s →
  sources_of c r (ls1 ++ ILock c r :: ls2) `prefix_of` watches_of c ls1 ∧
  (IWork c r ∈ ls2 → sources_of c r (ls1 ++ ILock c r :: ls2) = watches_of c ls1).
Proof. exact (started_watches c r ls1 ls2 s). Qed.
Theorem C91_locked_first c r ls s : reach istep inj_init ls s → sources_of c r ls ≠ [] → ILock c r ∈ ls.
Proof. exact (source_locked c r ls s). Qed.
(** no source is started without a cache *)
Theorem C91_never_uninjected ls s c r k : reach istep inj_init ls s → ISourceFails c r k ∉ ls.
Proof. exact (never_uninjected ls s c r k). Qed.
(** the cache is the one of the manager of the first controller that watched it *)
Theorem C91_first_manager ls s c r k ca : reach istep inj_init ls s → ISource c r k ca ∈ ls →
  ∃ c1 ls1 ls2, ls = ls1 ++ IWatch c1 k :: ls2 ∧ (∀ c', IWatch c' k ∉ ls1) ∧ manager_of c1 ls1 = Some ca.
Proof. exact (source_cache ls s c r k ca). Qed.
(** so with one manager it is the cache whose synchronization is waited for *)
Theorem C91_one_manager ls s m c r k ca : reach istep inj_init ls s → only_manager m ls → ISource c r k ca ∈ ls ∨ ISync c r ca ∈ ls → ca = m.
Proof. exact (one_manager ls s m c r k ca). Qed.
(** REFUTED: that a watch made after the start of the controller is started *)
Theorem C91_late_watch_refuted : ∃ ls s, reach istep inj_init ls s ∧ IWork 0 0 ∈ ls ∧ IWatch 0 1 ∈ ls ∧
  ∀ ls' s', reach istep s ls' s' → (∀ r, IStart 0 r ∉ ls') → ∀ r ca, ISource 0 r 1 ca ∉ ls ++ ls'.
Proof. exact late_refuted. Qed.
(** REFUTED: that a controller uses and waits for its manager's cache, when a Kind is shared between managers *)
Theorem C91_two_managers_refuted : ∃ ls s, reach istep inj_init ls s ∧ manager_of 1 ls = Some 1 ∧ ISource 1 0 0 0 ∈ ls ∧ ISync 1 0 1 ∈ ls.
Proof. exact two_refuted. Qed.

(** a case with one manager, a watch before and a watch after the start *)
Example C91_case : reach istep inj_init late_ls late_s ∧ only_manager 7 late_ls ∧ sources_of 0 0 late_ls = [0] ∧ watches_of 0 late_ls = [0; 1].
Proof. exact (conj late_runs (conj late_only (conj eq_refl eq_refl))). Qed.

Print Assumptions C91_watches_started.
Print Assumptions C91_locked_first.
Print Assumptions C91_never_uninjected.
Print Assumptions C91_first_manager.
Print Assumptions C91_one_manager.
Print Assumptions C91_late_watch_refuted.
Print Assumptions C91_two_managers_refuted.
