(** Property of the path from the API server to a reconciler: C79. *)
From Verif Require Import Base KeyFunc_model KeyFunc_spec DeltaFifo_model DeltaFifo_spec Store_model Reflector_model Reflector_spec World_model Informer_model Informer_spec Store_spec
  SharedInformer_model SharedInformer_spec Listener_model Source_model Source_spec WorkQueue_model DelayQueue_model Controller_model System_model System_spec System_proofs System_proofs2.
From Coq Require Import Strings.String.
From stdpp Require Import strings.
Local Open Scope nat_scope.

(** C79: if the changes of an object are announced to the handler, then once nothing about it is under way, a worker has taken
    its request after the last change of the cached object: it was reconciled, or is being reconciled, with the cache as it is *)
Theorem C79_last_reconcile {V N : Type} `{EqDecision V} `{EqDecision N} (g : rcfg pyobj nat) second dflt i ps fs k ns name t0 workers tr (z : sys V N) :
  good_indexers fs → (∀ p n e, p ∈ ps → about k n → event_of n e → p e = PTrue) →
  let step := λ z l z', zstep g second dflt i ps z l z' ∧ well_named k ns name l ∧ announced i k z l in
  reach step (sys_init dflt fs t0 workers) tr z → registered i z → stopped z = false → quiet i k (NsName ns name) z →
  cached k z = None ∧ (∀ n, n ∈ log_of i (z_inf z) → ¬ about k n) ∨
  reconciled_since step (sys_init dflt fs t0 workers) k (NsName ns name) tr z.
Proof. intros Hfs Hps. exact (last_reconcile g second dflt i ps fs Hfs k ns name Hps t0 workers tr z). Qed.

(** and with calm lists, that cache is the server's state at the reflector's version *)
Theorem C79_end_to_end {V N : Type} `{EqDecision V} `{EqDecision N} (g : rcfg pyobj nat) second dflt i ps fs k ns name t0 workers tr (z : sys V N) v :
  good_indexers fs → (∀ p n e, p ∈ ps → about k n → event_of n e → p e = PTrue) →
  let step := λ z l z', zstep g second dflt i ps z l z' ∧ well_named k ns name l ∧ announced i k z l in
  let server := server_at queue_key (w_changes (z_world z)) v k in
  reach (λ z l z', step z l z' ∧ calm_lists z l) (sys_init dflt fs t0 workers) tr z →
  registered i z → stopped z = false → quiet i k (NsName ns name) z → drained (h_inf (z_inf z)) → r_last (w_refl (z_world z)) = Some v →
  cached k z = DObj <$> server ∧
  (server = None ∧ (∀ n, n ∈ log_of i (z_inf z) → ¬ about k n) ∨ reconciled_since step (sys_init dflt fs t0 workers) k (NsName ns name) tr z).
Proof. intros Hfs Hps. exact (end_to_end g second dflt i ps fs Hfs k ns name Hps t0 workers tr z v). Qed.

(** a reflector that lists once, of an informer without resyncs, announces all changes, and its list is calm *)
Theorem C79_single_list {V N : Type} `{EqDecision V} `{EqDecision N} (g : rcfg pyobj nat) second dflt i ps fs k ns name t0 workers tr (z : sys V N) v :
  good_indexers fs → (∀ p n e, p ∈ ps → about k n → event_of n e → p e = PTrue) →
  let step := λ z l z', zstep g second dflt i ps z l z' ∧ well_named k ns name l ∧ announced i k z l in
  let server := server_at queue_key (w_changes (z_world z)) v k in
  reach (λ z l z', zstep g second dflt i ps z l z' ∧ well_named k ns name l ∧ single_list z l) (sys_init dflt fs t0 workers) tr z →
  registered i z → stopped z = false → quiet i k (NsName ns name) z → drained (h_inf (z_inf z)) → r_last (w_refl (z_world z)) = Some v →
  cached k z = DObj <$> server ∧
  (server = None ∧ (∀ n, n ∈ log_of i (z_inf z) → ¬ about k n) ∨ reconciled_since step (sys_init dflt fs t0 workers) k (NsName ns name) tr z).
Proof. intros Hfs Hps. exact (single_list_ok g second dflt i ps fs Hfs k ns name Hps t0 workers tr z v). Qed.
(** a pod is listed, reconciled, changed and taken again *)
Example C79_case : ∃ tr (z : ex_sys), reach ex_single ex_init tr z ∧ registered 0 z ∧ stopped z = false ∧ quiet 0 ex_key ex_req z ∧ drained (h_inf (z_inf z)) ∧
  r_last (w_refl (z_world z)) = Some 2 ∧ length (w_changes (z_world z)) = 2 ∧ cached ex_key z = Some (DObj (ex_pod "2")) ∧ k_ws (z_ctl z) = [WRun ex_req].
Proof. exact ex_run. Qed.

(** in general it is false.  The pod was reconciled as "1"; a list after a resync for another handler says "2": the cache has it, everything is at rest,
    and no worker took the request again *)
Theorem C79_silent_relist_refuted : ∃ tr1 z1 tr2 (z : ex_sys), reach ex_calm ex_init tr1 z1 ∧ reach ex_calm z1 tr2 z ∧
  registered 0 z ∧ stopped z = false ∧ quiet 0 ex_key ex_req z ∧ drained (h_inf (z_inf z)) ∧ r_last (w_refl (z_world z)) = Some 2 ∧ length (w_changes (z_world z)) = 2 ∧
  cached ex_key z1 = Some (DObj (ex_pod "1")) ∧ cached ex_key z = Some (DObj (ex_pod "2")) ∧ ∀ kl, ZCtl kl ∉ tr2.
Proof. exact stale_update. Qed.
(** the pod was deleted while the reflector did not watch: likewise *)
Theorem C79_missed_deletion_refuted : ∃ tr1 z1 tr2 (z : ex_sys), reach ex_calm ex_init tr1 z1 ∧ reach ex_calm z1 tr2 z ∧
  registered 0 z ∧ stopped z = false ∧ quiet 0 ex_key ex_req z ∧ drained (h_inf (z_inf z)) ∧ r_last (w_refl (z_world z)) = Some 2 ∧ length (w_changes (z_world z)) = 2 ∧
  cached ex_key z1 = Some (DObj (ex_pod "1")) ∧ cached ex_key z = None ∧ ∀ kl, ZCtl kl ∉ tr2.
Proof. exact stale_delete. Qed.

Print Assumptions C79_last_reconcile.
Print Assumptions C79_end_to_end.
Print Assumptions C79_single_list.
Print Assumptions C79_silent_relist_refuted.
Print Assumptions C79_missed_deletion_refuted.
