(** Property of the path from the API server to a reconciler, over infinite runs: C80. *)
From Verif Require Import Base KeyFunc_model KeyFunc_spec DeltaFifo_model DeltaFifo_spec Store_model Reflector_model Reflector_spec World_model Informer_model Informer_spec Store_spec
  SharedInformer_model SharedInformer_spec Listener_model Source_model Source_spec WorkQueue_model DelayQueue_model Controller_model System_model System_spec System_proofs2
  System_live_spec System_live_proofs2 System_live_proofs4 System_live_proofs6 System_live_proofs7.
From Coq Require Import Strings.String.
From stdpp Require Import strings.
Local Open Scope nat_scope.

(** C80: while the informer is not stopped, the handler is called with every notification of its log, in the order of the log *)
Theorem C80_delivered {V N : Type} `{EqDecision V} `{EqDecision N} (g : rcfg pyobj nat) second dflt i ps fs t0 workers (σ : nat → sys V N) lb n p x :
  good_indexers fs → σ 0 = sys_init dflt fs t0 workers → zruns (zstep g second dflt i ps) σ lb → (∀ m, stopped (σ m) = false) → (∀ q, just (zstep g second dflt i ps) σ lb q) →
  log_of i (z_inf (σ n)) !! p = Some x → ∃ m, n ≤ m ∧ calls (first lb m) !! p = Some x.
Proof. intros Hfs H0 Hrun Hns Hjust. exact (delivered g second dflt i ps fs Hfs t0 workers σ lb H0 Hrun Hns Hjust n p x). Qed.

(** if the changes of an object are announced, then again and again its request was taken by a worker after the last change of the cached object *)
Theorem C80_reconciled {V N : Type} `{EqDecision V} `{EqDecision N} (g : rcfg pyobj nat) second dflt i ps fs k ns name t0 workers (σ : nat → sys V N) lb j n :
  good_indexers fs → (∀ p n e, p ∈ ps → about k n → event_of n e → p e = PTrue) →
  let step := λ z l z', zstep g second dflt i ps z l z' ∧ well_named k ns name l ∧ announced i k z l in
  σ 0 = sys_init dflt fs t0 workers → zruns step σ lb → (∀ m, stopped (σ m) = false) → (∀ q, just (zstep g second dflt i ps) σ lb q) →
  workers_go_on σ lb → j < workers → (∀ m, lb m ≠ ZCtl (KCancel j)) → registered i (σ n) →
  ∃ m, n ≤ m ∧ (cached k (σ m) = None ∧ (∀ x, x ∈ log_of i (z_inf (σ m)) → ¬ about k x) ∨
    reconciled_since step (sys_init dflt fs t0 workers) k (NsName ns name) (first lb m) (σ m)).
Proof.
  intros Hfs Hps step H0 Hrun Hns Hjust Hgo Hj Hnc.
  exact (up_to_date_again g second dflt i ps fs Hfs t0 workers k ns name Hps σ lb H0 Hrun Hns Hjust Hgo j Hj Hnc n).
Qed.

(** and with calm lists, once the server stops changing and the watch stays open, the cached object becomes and stays the server's, and a worker took
    the request after the cache became so *)
Theorem C80_converges {V N : Type} `{EqDecision V} `{EqDecision N} (g : rcfg pyobj nat) second dflt i ps fs k ns name t0 workers (σ : nat → sys V N) lb j n :
  good_indexers fs → (∀ p n e, p ∈ ps → about k n → event_of n e → p e = PTrue) →
  let step := λ z l z', zstep g second dflt i ps z l z' ∧ well_named k ns name l ∧ announced i k z l in
  let changes := w_changes (z_world (σ n)) in
  let server := server_at queue_key changes (length changes) k in
  σ 0 = sys_init dflt fs t0 workers → zruns (λ z l z', step z l z' ∧ calm_lists z l) σ lb → (∀ m, stopped (σ m) = false) → (∀ q, just (zstep g second dflt i ps) σ lb q) →
  workers_go_on σ lb → j < workers → (∀ m, lb m ≠ ZCtl (KCancel j)) → registered i (σ n) → server_rests σ lb n →
  ∃ M, n ≤ M ∧ ∀ m, M ≤ m → drained (h_inf (z_inf (σ m))) ∧ cached k (σ m) = DObj <$> server ∧
    (server = None ∧ (∀ x, x ∈ log_of i (z_inf (σ m)) → ¬ about k x) ∨
     reconciled_since step (sys_init dflt fs t0 workers) k (NsName ns name) (first lb m) (σ m)).
Proof.
  intros Hfs Hps step changes server H0 Hrun Hns Hjust Hgo Hj Hnc Hreg Hrest.
  exact (converges g second dflt i ps fs Hfs t0 workers k ns name Hps σ lb n H0 Hrun Hns Hjust Hgo Hrest j Hj Hnc Hreg).
Qed.

(** in particular if the reflector lists once and nothing is resynced *)
Theorem C80_single_list {V N : Type} `{EqDecision V} `{EqDecision N} (g : rcfg pyobj nat) second dflt i ps fs k ns name t0 workers (σ : nat → sys V N) lb j n :
  good_indexers fs → (∀ p n e, p ∈ ps → about k n → event_of n e → p e = PTrue) →
  let step := λ z l z', zstep g second dflt i ps z l z' ∧ well_named k ns name l ∧ announced i k z l in
  let changes := w_changes (z_world (σ n)) in
  let server := server_at queue_key changes (length changes) k in
  σ 0 = sys_init dflt fs t0 workers → zruns (λ z l z', zstep g second dflt i ps z l z' ∧ well_named k ns name l ∧ single_list z l) σ lb →
  (∀ m, stopped (σ m) = false) → (∀ q, just (zstep g second dflt i ps) σ lb q) →
  workers_go_on σ lb → j < workers → (∀ m, lb m ≠ ZCtl (KCancel j)) → registered i (σ n) → server_rests σ lb n →
  ∃ M, n ≤ M ∧ ∀ m, M ≤ m → drained (h_inf (z_inf (σ m))) ∧ cached k (σ m) = DObj <$> server ∧
    (server = None ∧ (∀ x, x ∈ log_of i (z_inf (σ m)) → ¬ about k x) ∨
     reconciled_since step (sys_init dflt fs t0 workers) k (NsName ns name) (first lb m) (σ m)).
Proof.
  intros Hfs Hps step changes server H0 Hrun Hns Hjust Hgo Hj Hnc Hreg Hrest.
  exact (converges g second dflt i ps fs Hfs t0 workers k ns name Hps σ lb n H0 (single_runs g second dflt i ps fs Hfs t0 workers k ns name Hps σ lb H0 Hrun) Hns Hjust Hgo Hrest j Hj Hnc Hreg).
Qed.
(** such a run: from the second change on the server rests, when the cache is behind *)
Example C80_case : ∃ (σ : nat → ex_sys) lb n, σ 0 = ex_init ∧ zruns ex_single σ lb ∧ (∀ m, stopped (σ m) = false) ∧ (∀ p, just ex_step σ lb p) ∧ workers_go_on σ lb ∧
  (∀ m, lb m ≠ ZCtl (KCancel 0)) ∧ server_rests σ lb n ∧ registered 0 (σ n) ∧ length (w_changes (z_world (σ n))) = 2 ∧ cached ex_key (σ n) = Some (DObj (ex_pod "1")).
Proof. exact live_run. Qed.

Print Assumptions C80_delivered.
Print Assumptions C80_reconciled.
Print Assumptions C80_converges.
Print Assumptions C80_single_list.
