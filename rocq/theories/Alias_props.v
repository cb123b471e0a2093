(** Property C98: the store keeps and hands out the objects themselves.  [h] is
    any history of calls and of edits to objects, from a new store with index
    functions [fs] and objects [hp]; [s] is the state it leads to.  [holder] and
    [value] say from the history which object a key holds and what an object
    contains. *)
From Verif Require Import Base Store_model Store_spec Alias_model Alias_spec Alias_proofs.

Section props.
  Context {K R O V N : Type} `{EqDecision K} `{EqDecision R} `{EqDecision V} `{EqDecision N}.
  Context (keyf : O → option K) (fs : dict N (index_func O V)).
  Notation astep := (astep (R:=R) keyf fs).
  Notation holder := (holder keyf).
  Notation hist := (list (aop K R O V N * sres K R V N)).

  (** whatever is edited, a key holds the very object last stored under it *)
  Theorem C98_by_key hp (h : hist) s : exec astep (alias_init hp) h s →
    (∀ k, (astep s (ACall (SGetByKey k))).2 = SOpt (holder hp k (reverse h))) ∧
    ∃ ks, (astep s (ACall SListKeys)).2 = SKeys ks ∧ NoDup ks ∧ (∀ k, k ∈ ks ↔ is_Some (holder hp k (reverse h))) ∧
      (astep s (ACall SList)).2 = SObjs (omap (λ k, holder hp k (reverse h)) ks).
  Proof. exact (alias_by_key keyf fs hp h s). Qed.

  (** an object with key [k] and value [v] is stored *)
  Notation indexed hp h f k v := (∃ r, holder hp k (reverse h) = Some r ∧ has_value f (value hp (reverse h) r) v).
  (** the indices are exact if the edits since the last replace left the index
      values of stored objects alone, whatever happened before *)
  Theorem C98_careful hp (h : hist) s n f : good_indexers fs → exec astep (alias_init hp) h s → careful keyf fs hp (reverse h) → (n, f) ∈ fs →
    (∀ v, ∃ ks, (astep s (ACall (SIndexKeys n v))).2 = SKeys ks ∧ NoDup ks ∧ (∀ k, k ∈ ks ↔ indexed hp h f k v) ∧
          (astep s (ACall (SByIndex n v))).2 = SObjs (omap (λ k, holder hp k (reverse h)) ks)) ∧
    (∃ vs, (astep s (ACall (SListIndexFuncValues n))).2 = SValues vs ∧ NoDup vs ∧ ∀ v, v ∈ vs ↔ ∃ k, indexed hp h f k v).
  Proof. exact (alias_careful keyf fs hp h s n f). Qed.
  Theorem C98_no_error hp (h : hist) s r c : good_indexers fs → exec astep (alias_init hp) h s → careful keyf fs hp (reverse h) →
    is_Some (keyf (value hp (reverse h) r)) → c = SAdd r ∨ c = SUpdate r ∨ c = SDelete r → (astep s (ACall c)).2 = SNone.
  Proof. exact (alias_no_error keyf fs hp h s r c). Qed.
  (** editing only objects never given to the store, such as copies, is careful *)
  Theorem C98_copies hp (h : hist) : (∀ r, r ∈ edited h → r ∉ given h) → careful keyf fs hp h.
  Proof. exact (copies_careful keyf fs hp h). Qed.
  (** a key left behind in an index makes the query fail until the content is
      replaced or something is stored under that key *)
  Theorem C98_ghost_stays hp (h : hist) s h' s' k n v ks : exec astep (alias_init hp) h s →
    (astep s (ACall (SIndexKeys n v))).2 = SKeys ks → k ∈ ks → (astep s (ACall (SGetByKey k))).2 = SOpt None →
    exec astep s h' s' → spared keyf hp k (reverse h) h' → (astep s' (ACall (SByIndex n v))).2 = SKeyError.
  Proof. exact (ghost_stays keyf fs hp h s h' s' k n v ks). Qed.
End props.

(** an edited label: after the deletion the store is empty, and the query for
    the old label raises KeyError *)
Theorem C98_ghost_refuted : ∃ s, exec acase_step (alias_init acase_heap) aghost_run s ∧
  (acase_step s (ACall SList)).2 = SObjs [] ∧ (acase_step s (ACall (SIndexKeys 0 5))).2 = SKeys [1] ∧
  ∀ h' s', exec acase_step s h' s' → spared acase_key acase_heap 1 (reverse aghost_run) h' →
    (acase_step s' (ACall (SByIndex 0 5))).2 = SKeyError.
Proof. exact alias_ghost_refuted. Qed.
(** a label edited to one in use: the next update raises KeyError, and the
    object cannot be deleted *)
Theorem C98_stuck_refuted : ∃ s, exec acase_step (alias_init acase_heap) astuck_run s ∧
  (acase_step s (ACall (SUpdate 2))).2 = SKeyError ∧
  ∀ h' s', exec acase_step s h' s' → (∀ c, c ∈ h'.*1 → c = ACall (SDelete 0)) →
    (∀ x, x ∈ h'.*2 → x = SKeyError) ∧ (acase_step s' (ACall (SGetByKey 1))).2 = SOpt (Some 0) ∧
    (acase_step s' (ACall (SIndexKeys 0 6))).2 = SKeys [2] ∧ (acase_step s' (ACall (SIndexKeys 0 5))).2 = SKeys [1].
Proof. exact alias_stuck_refuted. Qed.
(** an edited name: deleting the object returns, and leaves it in the store *)
Theorem C98_rename_refuted : ∃ s, exec acase_step (alias_init acase_heap) [(ACall (SAdd 0), SNone); (AEdit 0 (3, 5), SNone); (ACall (SDelete 0), SNone)] s ∧
  (acase_step s (ACall SList)).2 = SObjs [0] ∧ (acase_step s (ACall (SGetByKey 1))).2 = SOpt (Some 0) ∧ (acase_step s (ACall (SGet 0))).2 = SOpt None.
Proof. exact alias_rename_refuted. Qed.

(** a case: a careless edit, a replace, and two careful edits *)
Example C98_case_good : good_indexers acase_fs.
Proof. exact acase_good. Qed.
Example C98_case : ∃ s, exec acase_step (alias_init acase_heap) acase_run s ∧ careful acase_key acase_fs acase_heap (reverse acase_run) ∧
  (acase_step s (ACall (SByIndex 0 6))).2 = SObjs [0] ∧ (acase_step s (ACall (SByIndex 0 8))).2 = SObjs [2] ∧
  holder acase_key acase_heap 1 (reverse acase_run) = Some 0 ∧ value acase_heap (reverse acase_run) 0 = (4, 6).
Proof. exact alias_case. Qed.

Print Assumptions C98_by_key.
Print Assumptions C98_careful.
Print Assumptions C98_no_error.
Print Assumptions C98_copies.
Print Assumptions C98_ghost_stays.
Print Assumptions C98_ghost_refuted.
Print Assumptions C98_stuck_refuted.
Print Assumptions C98_rename_refuted.
