(** Property C78: the namespace index of the informers' stores.  [h] is any
    history of calls on a new store, [s] the state it leads to. *)
From Verif Require Import Base KeyFunc_model KeyFunc_spec Store_model Store_spec NsIndex_model NsIndex_spec NsIndex_proofs.
From Coq Require Import Strings.String.
From stdpp Require Import strings.
Local Open Scope string_scope.
Notation iev := (sop pystr pyobj pystr string * sres pystr pyobj pystr string)%type.

(** by_index("namespace", ns) gives exactly the stored objects of that namespace, each once *)
Theorem C78_by_namespace (h : list iev) s ns : exec istep (store_init informer_indexers) h s → only_api_objects h →
  ∃ ks, (istep s (SIndexKeys "namespace" ns)).2 = SKeys ks ∧ NoDup ks ∧
    (∀ k, k ∈ ks ↔ ∃ o name, content store_key k (reverse h) = Some o ∧ named o ns name) ∧
    (istep s (SByIndex "namespace" ns)).2 = SObjs (omap (λ k, content store_key k (reverse h)) ks).
Proof. exact (ns_keys h s ns). Qed.
Theorem C78_namespaces (h : list iev) s : exec istep (store_init informer_indexers) h s → only_api_objects h →
  ∃ vs, (istep s (SListIndexFuncValues "namespace")).2 = SValues vs ∧ NoDup vs ∧
    ∀ ns, ns ∈ vs ↔ ∃ k o name, content store_key k (reverse h) = Some o ∧ named o ns name.
Proof. exact (ns_values h s). Qed.
(** every stored object is in exactly one namespace's set *)
Theorem C78_partition (h : list iev) s k o : exec istep (store_init informer_indexers) h s → only_api_objects h →
  (istep s (SGetByKey k)).2 = SOpt (Some o) →
  ∃ ns, (∃ name, named o ns name) ∧ ∀ ns' ks, (istep s (SIndexKeys "namespace" ns')).2 = SKeys ks → k ∈ ks ↔ ns' = ns.
Proof. exact (ns_partition h s k o). Qed.
(** the index makes no call fail *)
Theorem C78_no_errors (h : list iev) s o : exec istep (store_init informer_indexers) h s → only_api_objects h → api_object o →
  (istep s (SAdd o)).2 = SNone ∧ (istep s (SUpdate o)).2 = SNone ∧ (istep s (SDelete o)).2 = SNone.
Proof. exact (ns_no_error h s o). Qed.
Theorem C78_replace_no_errors (h : list iev) s l : exec istep (store_init informer_indexers) h s → only_api_objects h → Forall api_object l →
  (istep s (SReplace l)).2 = SNone.
Proof. exact (ns_replace_no_error h s l). Qed.

(** without the restriction to API objects: an explicit key is stored, though add raises, but not indexed; *)
Theorem C78_explicit_key_unindexed (h : list iev) s k : exec istep (store_init informer_indexers) h s →
  content store_key (Some k) (reverse h) = None →
  (istep s (SAdd (ExplicitKey k))).2 = SIndexError ∧
  (istep (istep s (SAdd (ExplicitKey k))).1 (SGetByKey (Some k))).2 = SOpt (Some (ExplicitKey k)) ∧
  ∀ ns, (istep (istep s (SAdd (ExplicitKey k))).1 (SIndexKeys "namespace" ns)).2 = (istep s (SIndexKeys "namespace" ns)).2.
Proof. exact (explicit_add h s k). Qed.
(** it cannot be deleted any more, *)
Theorem C78_explicit_key_stays (h : list iev) s k x o : exec istep (store_init informer_indexers) h s →
  content store_key k (reverse h) = Some (ExplicitKey x) → store_key o = Some k → istep s (SDelete o) = (s, SIndexError).
Proof. exact (explicit_stays h s k x o). Qed.
(** and an object put in its place is stored but not indexed *)
Theorem C78_explicit_key_replaced (h : list iev) s k x o : exec istep (store_init informer_indexers) h s →
  content store_key k (reverse h) = Some (ExplicitKey x) → store_key o = Some k →
  (istep s (SAdd o)).2 = SIndexError ∧ (istep (istep s (SAdd o)).1 (SGetByKey k)).2 = SOpt (Some o) ∧
  ∀ ns, (istep (istep s (SAdd o)).1 (SIndexKeys "namespace" ns)).2 = (istep s (SIndexKeys "namespace" ns)).2.
Proof. exact (explicit_update h s k x o). Qed.
(** the store takes no and an empty namespace for the same, the index does not *)
Theorem C78_empty_namespace_refuted : ∃ o1 o2 name, named o1 None name ∧ named o2 (Some "") name ∧ store_key o1 = store_key o2 ∧
  ∃ s, exec istep (store_init informer_indexers) [(SAdd o2, SNone)] s ∧
    (istep s (SGet o1)).2 = SOpt (Some o2) ∧ (istep s (SIndex "namespace" o1)).2 = SObjs [].
Proof. exact ns_empty_refuted. Qed.

(** cases *)
Example C78_case : ∃ s, exec istep (store_init informer_indexers) ns_run s ∧ only_api_objects ns_run ∧
  (istep s (SByIndex "namespace" (Some "b"))).2 = SObjs [pod2] ∧ (istep s (SByIndex "namespace" (Some "a"))).2 = SObjs [] ∧
  (istep s (SByIndex "namespace" None)).2 = SObjs [node] ∧ (istep s (SByIndex "namespace" (Some ""))).2 = SObjs [node2] ∧
  (istep s (SListIndexFuncValues "namespace")).2 = SValues [Some "b"; None; Some ""].
Proof. exact ns_run_ex. Qed.
Theorem C78_explicit_key_refuted : ∃ s, exec istep (store_init informer_indexers) [(SAdd (ExplicitKey "a/p"), SIndexError); (SAdd pod, SIndexError)] s ∧
  (istep s (SGet pod)).2 = SOpt (Some pod) ∧ (istep s (SByIndex "namespace" (Some "a"))).2 = SObjs [].
Proof. exact explicit_refuted. Qed.

Print Assumptions C78_by_namespace.
Print Assumptions C78_namespaces.
Print Assumptions C78_partition.
Print Assumptions C78_no_errors.
Print Assumptions C78_replace_no_errors.
Print Assumptions C78_explicit_key_unindexed.
Print Assumptions C78_explicit_key_stays.
Print Assumptions C78_explicit_key_replaced.
Print Assumptions C78_empty_namespace_refuted.
Print Assumptions C78_explicit_key_refuted.
