(** Property of the path from the API server to a reconciler when the informer waits for the listener: C92. *)
From Verif Require Import Base KeyFunc_model KeyFunc_spec DeltaFifo_model DeltaFifo_spec Store_model Reflector_model Reflector_spec World_model Informer_model Informer_spec Store_spec
  SharedInformer_model SharedInformer_spec Listener_model Source_model Source_spec WorkQueue_model DelayQueue_model Controller_model System_model System_spec System_proofs2
  System_live_spec System_live_proofs2 System_live_proofs6 SystemWait_model SystemWait_proofs SystemWait_proofs2.
From Coq Require Import Strings.String.
From stdpp Require Import strings.
Local Open Scope nat_scope.

(** C92: from when the handler has its listener and is given all there was, the informer is at most four notifications ahead of the calls of the handler *)
Theorem C92_ahead {V N : Type} `{EqDecision V} `{EqDecision N} (g : rcfg pyobj nat) second dflt i ps fs t0 workers tr0 (z0 : sys V N) tr z :
  good_indexers fs → reach (bstep g second dflt i ps) (sys_init dflt fs t0 workers) tr0 z0 → registered i z0 → waits i z0 = false →
  reach (bstep g second dflt i ps) z0 tr z → stopped z = false →
  length (log_of i (z_inf z)) ≤ length (calls (tr0 ++ tr)) + 4.
Proof. intros Hfs. exact (ahead_of_handler g second dflt i ps fs Hfs t0 workers tr0 z0 tr z). Qed.
(** it can be four *)
Example C92_ahead_case : ∃ tr0 (z0 : ex_sys) tr z, reach wex ex_init tr0 z0 ∧ registered 0 z0 ∧ waits 0 z0 = false ∧ reach wex z0 tr z ∧ stopped z = false ∧
  length (log_of 0 (z_inf z)) = 4 ∧ calls (tr0 ++ tr) = [] ∧ waits 0 z = true.
Proof. exact four_ahead. Qed.

(** waiting keeps no part from going on: a run that is just to the parts as they are when the process loop waits is just to them as they are when it does not *)
Theorem C92_fair {V N : Type} `{EqDecision V} `{EqDecision N} (g : rcfg pyobj nat) second dflt i ps fs t0 workers (σ : nat → sys V N) lb q :
  good_indexers fs → σ 0 = sys_init dflt fs t0 workers → zruns (bstep g second dflt i ps) σ lb → (∀ m, stopped (σ m) = false) → (∀ p, just (bstep g second dflt i ps) σ lb p) →
  just (zstep g second dflt i ps) σ lb q.
Proof. intros Hfs H0 Hrun Hns Hjust. exact (just_transfer g second dflt i ps fs Hfs t0 workers σ lb H0 Hrun Hns Hjust q). Qed.

(** so the handler is called with every notification of its log, in the order of the log *)
Theorem C92_delivered {V N : Type} `{EqDecision V} `{EqDecision N} (g : rcfg pyobj nat) second dflt i ps fs t0 workers (σ : nat → sys V N) lb n p x :
  good_indexers fs → σ 0 = sys_init dflt fs t0 workers → zruns (bstep g second dflt i ps) σ lb → (∀ m, stopped (σ m) = false) → (∀ q, just (bstep g second dflt i ps) σ lb q) →
  log_of i (z_inf (σ n)) !! p = Some x → ∃ m, n ≤ m ∧ calls (first lb m) !! p = Some x.
Proof.
  intros Hfs H0 Hrun Hns Hjust.
  exact (delivered g second dflt i ps fs Hfs t0 workers σ lb H0 (zrun g second dflt i ps σ lb Hrun) Hns (just_transfer g second dflt i ps fs Hfs t0 workers σ lb H0 Hrun Hns Hjust) n p x).
Qed.

(** and with one list, once the server stops changing and the watch stays open, the cached object becomes and stays the server's, and a worker took
    the request after the cache became so *)
Theorem C92_converges {V N : Type} `{EqDecision V} `{EqDecision N} (g : rcfg pyobj nat) second dflt i ps fs k ns name t0 workers (σ : nat → sys V N) lb j n :
  good_indexers fs → (∀ p n e, p ∈ ps → about k n → event_of n e → p e = PTrue) →
  let step := λ z l z', zstep g second dflt i ps z l z' ∧ well_named k ns name l ∧ announced i k z l in
  let changes := w_changes (z_world (σ n)) in
  let server := server_at queue_key changes (length changes) k in
  σ 0 = sys_init dflt fs t0 workers → zruns (λ z l z', bstep g second dflt i ps z l z' ∧ well_named k ns name l ∧ single_list z l) σ lb →
  (∀ m, stopped (σ m) = false) → (∀ q, just (bstep g second dflt i ps) σ lb q) →
  workers_go_on σ lb → j < workers → (∀ m, lb m ≠ ZCtl (KCancel j)) → registered i (σ n) → server_rests σ lb n →
  ∃ M, n ≤ M ∧ ∀ m, M ≤ m → drained (h_inf (z_inf (σ m))) ∧ cached k (σ m) = DObj <$> server ∧
    (server = None ∧ (∀ x, x ∈ log_of i (z_inf (σ m)) → ¬ about k x) ∨
     reconciled_since step (sys_init dflt fs t0 workers) k (NsName ns name) (first lb m) (σ m)).
Proof.
  intros Hfs Hps step changes server H0 Hrun Hns Hjust Hgo Hj Hnc Hreg Hrest.
  exact (wait_converges g second dflt i ps fs Hfs t0 workers k ns name Hps σ lb n H0 Hrun Hns Hjust Hgo Hrest j Hj Hnc Hreg).
Qed.
(** such a run: from the second change on the server rests, when the cache is behind *)
Example C92_case : ∃ (σ : nat → ex_sys) lb n, σ 0 = ex_init ∧ zruns wex_single σ lb ∧ (∀ m, stopped (σ m) = false) ∧ (∀ p, just wex σ lb p) ∧ workers_go_on σ lb ∧
  (∀ m, lb m ≠ ZCtl (KCancel 0)) ∧ server_rests σ lb n ∧ registered 0 (σ n) ∧ length (w_changes (z_world (σ n))) = 2 ∧ cached ex_key (σ n) = Some (DObj (ex_pod "1")).
Proof. exact wait_run. Qed.

Print Assumptions C92_ahead.
Print Assumptions C92_fair.
Print Assumptions C92_delivered.
Print Assumptions C92_converges.
