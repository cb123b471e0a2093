(** Properties C32 to C35 of the store.  [h] is any history of calls from a new
    store with index functions [fs], [s] the state it leads to.  [content k
    (reverse h)] is the object under key [k] according to the history alone. *)
From Verif Require Import Base Store_model Store_spec Store_proofs.

Section props.
  Context {K O V N : Type} `{EqDecision K} `{EqDecision V} `{EqDecision N} (keyf : O → option K).
  Notation sstep := (sstep keyf).
  Notation content := (content keyf).
  Notation hist := (list (sop K O V N * sres K O V N)).

  (** C32: the queries answer as one abstract map *)
  Theorem C32_is_a_map fs (h : hist) s : exec sstep (store_init fs) h s →
    (∀ k, (sstep s (SGetByKey k)).2 = SOpt (content k (reverse h))) ∧
    (∀ o k, keyf o = Some k → (sstep s (SGet o)).2 = SOpt (content k (reverse h))) ∧
    ∃ ks, (sstep s SListKeys).2 = SKeys ks ∧ NoDup ks ∧ (∀ k, k ∈ ks ↔ is_Some (content k (reverse h))) ∧
      (sstep s SList).2 = SObjs (omap (λ k, content k (reverse h)) ks).
  Proof. exact (store_is_map keyf fs h s). Qed.
  (** every object is filed under its own key *)
  Theorem C32_filed_under_own_key fs (h : hist) s k o : exec sstep (store_init fs) h s → content k (reverse h) = Some o → keyf o = Some k.
  Proof. exact (content_key keyf fs h s k o). Qed.
  (** a failing key function is reported, and changes nothing *)
  Theorem C32_key_failure_reported (s : store K O V N) c : (∃ o', (sstep s c).2 = SStoreKeyError o') ↔
    match c with
    | SAdd o | SUpdate o | SDelete o | SGet o => keyf o = None
    | SReplace l => ∃ o, o ∈ l ∧ keyf o = None
    | _ => False
    end.
  Proof. exact (store_key_error_iff keyf s c). Qed.
  Theorem C32_key_failure_changes_nothing (s : store K O V N) c o : (sstep s c).2 = SStoreKeyError o → (sstep s c).1 = s ∧ keyf o = None.
  Proof. exact (store_key_error keyf s c o). Qed.

  (** key [k] holds an object with value [v] *)
  Notation indexed h f k v := (∃ o, content k (reverse h) = Some o ∧ has_value f o v).
  (** C33 *)
  Theorem C33_indices_exact fs (h : hist) s n f : good_indexers fs → exec sstep (store_init fs) h s → (n, f) ∈ fs →
    (∀ v, ∃ ks, (sstep s (SIndexKeys n v)).2 = SKeys ks ∧ NoDup ks ∧ (∀ k, k ∈ ks ↔ indexed h f k v) ∧
          (sstep s (SByIndex n v)).2 = SObjs (omap (λ k, content k (reverse h)) ks)) ∧
    (∃ vs, (sstep s (SListIndexFuncValues n)).2 = SValues vs ∧ NoDup vs ∧ ∀ v, v ∈ vs ↔ ∃ k, indexed h f k v) ∧
    (∀ o, ∃ ks, NoDup ks ∧ (∀ k, k ∈ ks ↔ ∃ v, has_value f o v ∧ indexed h f k v) ∧
          (sstep s (SIndex n o)).2 = SObjs (omap (λ k, content k (reverse h)) ks)).
  Proof. exact (store_index_queries keyf fs h s n f). Qed.
  (** and no call fails because of an index *)
  Theorem C33_no_index_errors fs (h : hist) s c : good_indexers fs → exec sstep (store_init fs) h s →
    match c with
    | SAdd o | SUpdate o | SDelete o => is_Some (keyf o) → (sstep s c).2 = SNone
    | SReplace l => (∀ o, o ∈ l → is_Some (keyf o)) → (sstep s c).2 = SNone
    | _ => True
    end.
  Proof. exact (store_no_error keyf fs h s c). Qed.

  (** C35: what add_indexers accepts exactly: nothing, for a store without
      content and without index functions *)
  Theorem C35_accepts_exactly fs0 (h : hist) s fs : exec sstep (store_init fs0) h s →
    (sstep s (SAddIndexers fs)).2 = SNone ↔ (∀ k, content k (reverse h) = None) ∧ fs0 = [] ∧ fs = [].
  Proof. exact (add_indexers_accepts keyf fs0 h s fs). Qed.
  Theorem C35_indexers_never_change fs (h : hist) s : exec sstep (store_init fs) h s → (sstep s SGetIndexers).2 = SNames (dkeys fs).
  Proof. exact (get_indexers_fixed keyf fs h s). Qed.
End props.

(** C34: an object whose index values repeat cannot be deleted any more, and is missing from the index *)
Theorem C34_repeated_values_refuted :
  ∃ s, exec (sstep scase_key) (store_init [(0, scase_index)]) sbad_run s ∧
    (∀ h s', exec (sstep scase_key) s h s' → (∀ c, c ∈ h.*1 → c = SDelete (2, [5; 5])) →
       (∀ r, r ∈ h.*2 → r = SKeyError) ∧
       (sstep scase_key s' (SGetByKey 2)).2 = SOpt (Some (2, [5; 5])) ∧
       (sstep scase_key s' (SIndexKeys 0 5)).2 = SKeys [1]).
Proof. exact store_repeated_values_refuted. Qed.
Theorem C34_repeated_update_refuted :
  ∃ s, exec (sstep scase_key) (store_init [(0, scase_index)])
    [(SAdd (1, [5]), SNone); (SAdd (2, [5; 5]), SNone); (SUpdate (2, [6]), SKeyError)] s ∧
    (sstep scase_key s (SGetByKey 2)).2 = SOpt (Some (2, [6])) ∧ (sstep scase_key s (SIndexKeys 0 6)).2 = SKeys [].
Proof. exact store_repeated_update_refuted. Qed.
(** C35: a new name is refused although nothing is taken *)
Theorem C35_empty_store_refuted :
  ∃ (fs : dict nat (index_func (nat * list nat) nat)), fs ≠ [] ∧ dwf fs ∧
    (sstep scase_key (store_init []) (SAddIndexers fs)).2 = SConflictError ∧ (sstep (V:=nat) (N:=nat) scase_key (store_init []) SGetIndexers).2 = SNames [].
Proof. exact add_indexers_refuted. Qed.

(** a case: seven calls, two of them refused; two objects stay *)
Example C32_case : exec (sstep scase_key) (store_init [(0, scase_uniq)]) scase_run scase_state.
Proof. exact scase_runs. Qed.
Example C33_case_good : good_indexers [(0, scase_uniq)].
Proof. exact scase_good. Qed.
Example C33_case : content scase_key 1 (reverse scase_run) = Some (1, [6]) ∧ content scase_key 3 (reverse scase_run) = Some (3, [7]) ∧
  content scase_key 2 (reverse scase_run) = None ∧ (sstep scase_key scase_state (SByIndex 0 6)).2 = SObjs [(1, [6])].
Proof. exact scase_content. Qed.

Print Assumptions C32_is_a_map.
Print Assumptions C32_filed_under_own_key.
Print Assumptions C32_key_failure_reported.
Print Assumptions C32_key_failure_changes_nothing.
Print Assumptions C33_indices_exact.
Print Assumptions C33_no_index_errors.
Print Assumptions C35_accepts_exactly.
Print Assumptions C35_indexers_never_change.
Print Assumptions C34_repeated_values_refuted.
Print Assumptions C34_repeated_update_refuted.
Print Assumptions C35_empty_store_refuted.
