(** C71 and C75 over infinite runs. *)
From Verif Require Import Base InformersMap_model InformersMap_spec Manager_model Manager_spec Manager_live_spec Manager_live_proofs.

(** C71: in every fair run, a call of start launches the runnables, if no start is
    cancelled and the cache is started a finite number of times.  (That a later start
    only relaunches is C71_again_raises.) *)
Theorem C71_inevitable (G : Type) `{EqDecision G} (σ : nat → mgr G) lb : σ 0 = m_init → runs σ lb → fair σ lb →
  ∀ c p n n1, no_start_from lb n1 → (∀ j c', lb j ≠ MCancel c') → m_starts (σ n) !! c = Some p → p = SLock ∨ (∃ snap, p = SWait snap) →
  ∃ m ks, n ≤ m ∧ (lb m = MLaunch c ks ∨ lb m = MRelaunch c ks).
Proof. exact (start_launches σ lb). Qed.
Print Assumptions C71_inevitable.
(** C71: each runnable of a launch begins. *)
Theorem C71_begins (G : Type) `{EqDecision G} (σ : nat → mgr G) lb : runs σ lb → fair σ lb →
  ∀ n c ks k, lb n = MLaunch c ks ∨ lb n = MRelaunch c ks → k ∈ ks → ∃ m, n < m ∧ lb m = MTask (TRun k).
Proof. exact (launched_begins σ lb). Qed.
Print Assumptions C71_begins.
(** C75: in every fair run in which all informers were made before the last start of the
    cache, and one for every watched kind, each controller that is launched begins and
    comes up. *)
Theorem C75_inevitable (G : Type) `{EqDecision G} (σ : nat → mgr G) lb : σ 0 = m_init → runs σ lb → fair σ lb →
  ∀ n1, lb n1 = MTask TCache → no_start_from lb (S n1) → (∀ n g, made g (trace lb n) → made g (trace lb n1)) → (∀ n k g, lb n = MWatch k g → made g (trace lb n1)) →
  ∀ n c ks k, lb n = MLaunch c ks ∨ lb n = MRelaunch c ks → k ∈ ks → ∃ m i, n ≤ m ∧ length (m_runs (σ n)) ≤ i ∧ m_runs (σ m) !! i = Some (CR k CUp).
Proof. exact (launched_up σ lb). Qed.
Print Assumptions C75_inevitable.
(** C75: so does each that began, whatever it waits for. *)
Theorem C75_begun_inevitable (G : Type) `{EqDecision G} (σ : nat → mgr G) lb : σ 0 = m_init → runs σ lb → fair σ lb →
  ∀ n1, lb n1 = MTask TCache → no_start_from lb (S n1) → (∀ n g, made g (trace lb n) → made g (trace lb n1)) → (∀ n k g, lb n = MWatch k g → made g (trace lb n1)) →
  ∀ i k ph n, m_runs (σ n) !! i = Some (CR k ph) → ∃ m, n ≤ m ∧ m_runs (σ m) !! i = Some (CR k CUp).
Proof. exact (inevitable σ lb). Qed.
Print Assumptions C75_begun_inevitable.
(** a run that meets all the hypotheses *)
Example C75_live_case : ∃ (σ : nat → mgr nat) lb, σ 0 = m_init ∧ runs σ lb ∧ fair σ lb ∧ lb 7 = MTask TCache ∧ no_start_from lb 8 ∧ (∀ n g, made g (trace lb n) → made g (trace lb 7)) ∧
  (∀ n k g, lb n = MWatch k g → made g (trace lb 7)) ∧ (∀ n c, lb n ≠ MCancel c) ∧ lb 5 = MStart ∧ lb 10 = MLaunch 0 [0] ∧ m_runs (σ 12) !! 0 = Some (CR 0 CLock).
Proof. exact live_case. Qed.
