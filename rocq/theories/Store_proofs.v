From Verif Require Import Base Store_model Store_spec.

Section proofs.
  Context {K O V N : Type} `{EqDecision K} `{EqDecision V} `{EqDecision N} (keyf : O → option K).
  Notation store := (store K O V N).
  Notation sop := (sop K O V N).
  Notation sres := (sres K O V N).
  Notation sstep := (sstep keyf).
  Notation content := (content keyf).
  Notation indexers := (dict N (index_func O V)).
  Notation index := (dict V (list K)).
  Notation indices := (dict N (dict V (list K))).
  Implicit Types (s : store) (k : K) (o : O) (v : V) (n : N) (f : index_func O V) (fs : indexers) (ix : index) (ixs : indices).

  (** ** C32 *)
  Lemma store_items_spec l (items items' : dict K O) : store_items keyf l items = inl items' → dwf items →
    dwf items' ∧ ∀ k, dget k items' = match last_keyed keyf k l with Some o => Some o | None => dget k items end.
  Proof.
    revert items. induction l as [|o l IH]; intros items; simpl; [intros; by simplify_eq|].
    destruct (keyf o) as [k0|] eqn:Hk; [|done]. intros Hs Hwf. destruct (IH _ Hs) as [Hwf' Hg]; [by apply dwf_dset|].
    split; [done|]. intros k. rewrite Hg, dget_dset. destruct (last_keyed keyf k l); [done|].
    destruct (decide (k = k0)) as [->|]; [by rewrite decide_True|]. rewrite decide_False; [done|]. congruence.
  Qed.
  Lemma store_items_error l (items : dict K O) o : store_items keyf l items = inr o → o ∈ l ∧ keyf o = None.
  Proof.
    revert items. induction l as [|o' l IH]; intros items; simpl; [done|].
    destruct (keyf o') eqn:Hk.
    - intros Hs. destruct (IH _ Hs). split; [by right|done].
    - intros; simplify_eq. split; [by left|done].
  Qed.
  Lemma last_keyed_key k l o : last_keyed keyf k l = Some o → o ∈ l ∧ keyf o = Some k.
  Proof.
    induction l as [|o' l IH]; simpl; [done|]. destruct (last_keyed keyf k l) as [o1|].
    - intros; simplify_eq. destruct IH; [done|]. split; [by right|done].
    - case_decide; [|done]. intros; simplify_eq. split; [by left|done].
  Qed.

  Record CI (h : list (sop * sres)) s : Prop := {
    ci_wf : dwf (s_items s);
    ci_get : ∀ k, dget k (s_items s) = content k (reverse h);
    ci_key : ∀ k o, dget k (s_items s) = Some o → keyf o = Some k
  }.
  Lemma CI_init fs : CI [] (store_init fs).
  Proof. split; simpl; [apply dwf_nil|done|done]. Qed.
  Lemma ts_add_items k o s : s_items (ts_add k o s).1 = dset k o (s_items s) ∧ s_indexers (ts_add k o s).1 = s_indexers s ∧
    ∀ o', (ts_add k o s).2 ≠ SStoreKeyError o'.
  Proof. unfold ts_add. destruct (update_indices _ _ _ _ _) as [ixs []]; done. Qed.
  Lemma ts_delete_items k s : s_indexers (ts_delete k s).1 = s_indexers s ∧ (∀ o', (ts_delete k s).2 ≠ SStoreKeyError o') ∧
    (((ts_delete k s).2 = SNone ∧ ∀ j, dget j (s_items (ts_delete k s).1) = if decide (j = k) then None else dget j (s_items s)) ∨
     ((ts_delete k s).2 ≠ SNone ∧ s_items (ts_delete k s).1 = s_items s)) ∧ (dwf (s_items s) → dwf (s_items (ts_delete k s).1)).
  Proof.
    unfold ts_delete. destruct (dget k (s_items s)) as [o|] eqn:Hk.
    - destruct (delete_indices _ _ _ _) as [ixs []]; simpl; (split; [done|]); (split; [done|]).
      + split; [|by apply dwf_ddel]. left. split; [done|]. intros j. apply dget_ddel.
      + split; [by right|done].
      + split; [by right|done].
    - split; [done|]. split; [done|]. split; [|done]. left. split; [done|]. simpl. intros j. destruct (decide (j = k)) as [->|]; done.
  Qed.
  Lemma CI_step h s c : CI h s → CI (h ++ [(c, (sstep s c).2)]) (sstep s c).1.
  Proof.
    intros [Hwf Hg Hk].
    assert (Hsame : ∀ r, (∀ k, content k ((c, r) :: reverse h) = content k (reverse h)) → CI (h ++ [(c, r)]) s).
    { intros r Hr. split; [done| |done]. intros k. rewrite reverse_app, (Hg k). symmetry. exact (Hr k). }
    assert (Hadd : ∀ k0 o, keyf o = Some k0 → (∀ k r, (∀ o', r ≠ SStoreKeyError o') →
        content k ((c, r) :: reverse h) = if decide (keyf o = Some k) then Some o else content k (reverse h)) →
      CI (h ++ [(c, (ts_add k0 o s).2)]) (ts_add k0 o s).1).
    { intros k0 o Hk0 Hr. destruct (ts_add_items k0 o s) as (Hi & _ & Hne). split; rewrite ?Hi.
      - by apply dwf_dset.
      - intros k. rewrite dget_dset, reverse_app. change (reverse [?x] ++ ?l) with (x :: l). rewrite Hr by done. rewrite <-Hg.
        destruct (decide (k = k0)) as [->|]; [by rewrite decide_True|]. rewrite decide_False; [done|]. congruence.
      - intros k o'. rewrite dget_dset. destruct (decide (k = k0)) as [->|]; [intros; by simplify_eq|apply Hk]. }
    destruct c as [o|o|o| | |o|k|l| |n o|n v|n|n v| |fs]; simpl; try (by apply Hsame).
    - destruct (keyf o) as [k0|] eqn:Hk0; [|by apply Hsame]. apply Hadd; [done|]. intros k r Hr. simpl. destruct r; try done. by destruct (Hr o0).
    - destruct (keyf o) as [k0|] eqn:Hk0; [|by apply Hsame]. apply Hadd; [done|]. intros k r Hr. simpl. destruct r; try done. by destruct (Hr o0).
    - destruct (keyf o) as [k0|] eqn:Hk0; [|by apply Hsame].
      destruct (ts_delete_items k0 s) as (_ & Hne & [[Hr Hi]|[Hr Hi]] & Hwf').
      + split; [auto| |].
        * intros k. rewrite Hi, reverse_app, Hr. simpl. rewrite <-Hg.
          destruct (decide (k = k0)) as [->|]; [by rewrite decide_True|]. rewrite decide_False; [done|]. congruence.
        * intros k o'. rewrite Hi. case_decide; [done|apply Hk].
      + split; rewrite ?Hi; [done| |done]. intros k. rewrite Hg, reverse_app. change (reverse [?x] ++ ?l) with (x :: l). simpl.
        destruct (ts_delete k0 s).2; done.
    - destruct (keyf o); by apply Hsame.
    - destruct (store_items keyf l []) as [items|o] eqn:Hs; [|by apply Hsame].
      destruct (store_items_spec _ _ _ Hs dwf_nil) as [Hwf' Hg'].
      unfold ts_replace. destruct (reindex _ _ _) as [ixs e]. split; simpl; [done| |].
      + intros k. rewrite Hg', reverse_app. simpl. rewrite dget_nil. by destruct e; simpl; destruct (last_keyed keyf k l).
      + intros k o. rewrite Hg', dget_nil. destruct (last_keyed keyf k l) as [o'|] eqn:Hl; [|done]. intros; simplify_eq. by apply last_keyed_key in Hl as [??].
    - destruct (dget n (s_indexers s)) as [f|]; [|by apply Hsame]. destruct (f o); [|by apply Hsame].
      simpl. unfold fetched. destruct (fetch _ _); by apply Hsame.
    - destruct (dget n (s_indexers s)); by apply Hsame.
    - destruct (dget n (s_indexers s)); [|by apply Hsame]. simpl. unfold fetched. destruct (fetch _ _); by apply Hsame.
    - destruct (s_items s) as [|x xs] eqn:Hit; [|by apply Hsame]. destruct (dkeys (s_indexers s) ++ dkeys fs); [|by apply Hsame].
      split; simpl; [apply dwf_nil| |done]. intros k. rewrite reverse_app. simpl. rewrite <-Hg. done.
  Qed.
  Lemma CI_exec fs h s : exec sstep (store_init fs) h s → CI h s.
  Proof. apply exec_trace_inv; [apply CI_init|]. intros. by apply CI_step. Qed.

  Lemma store_is_map fs h s : exec sstep (store_init fs) h s →
    (∀ k, (sstep s (SGetByKey k)).2 = SOpt (content k (reverse h))) ∧
    (∀ o k, keyf o = Some k → (sstep s (SGet o)).2 = SOpt (content k (reverse h))) ∧
    ∃ ks, (sstep s SListKeys).2 = SKeys ks ∧ NoDup ks ∧ (∀ k, k ∈ ks ↔ is_Some (content k (reverse h))) ∧
      (sstep s SList).2 = SObjs (omap (λ k, content k (reverse h)) ks).
  Proof.
    intros [Hwf Hg Hk]%CI_exec. split; [intros k; simpl; by rewrite Hg|]. split.
    - intros o k Hok. simpl. by rewrite Hok, Hg.
    - exists (dkeys (s_items s)). split; [done|]. split; [done|]. split; [intros k; by rewrite elem_of_dkeys, Hg|].
      simpl. f_equal. unfold dvals, dkeys. clear Hk. assert (Hg' : ∀ k o, (k, o) ∈ s_items s → content k (reverse h) = Some o).
      { intros k o Hin. rewrite <-Hg. by apply elem_of_dget. }
      clear Hg Hwf. induction (s_items s) as [|[k o] items IH]; [done|]. csimpl. rewrite (Hg' k o) by left.
      rewrite IH; [done|]. intros k' o' Hin. apply Hg'. by right.
  Qed.
  Lemma content_key fs h s k o : exec sstep (store_init fs) h s → content k (reverse h) = Some o → keyf o = Some k.
  Proof. intros [_ Hg Hk]%CI_exec. rewrite <-Hg. apply Hk. Qed.
  Lemma store_key_error s c o : (sstep s c).2 = SStoreKeyError o → (sstep s c).1 = s ∧ keyf o = None.
  Proof.
    destruct c as [x|x|x| | |x|k|l| |n x|n v|n|n v| |fs]; simpl; try done.
    1,2: destruct (keyf x) as [k|] eqn:Hk; simpl; [|intros; by simplify_eq]; intros Hx; destruct (ts_add_items k x s) as (_ & _ & Hne); by destruct (Hne o).
    - destruct (keyf x) as [k|] eqn:Hk; simpl; [|intros; by simplify_eq]. intros Hx. destruct (ts_delete_items k s) as (_ & Hne & _). by destruct (Hne o).
    - destruct (keyf x) eqn:Hk; simpl; [done|]. intros; by simplify_eq.
    - destruct (store_items keyf l []) as [items|o'] eqn:Hs; simpl.
      + unfold ts_replace. by destruct (reindex _ _ _) as [? []].
      + intros; simplify_eq. by apply store_items_error in Hs as [_ ?].
    - destruct (dget n (s_indexers s)) as [f|]; [|done]. destruct (f x); [|done]. simpl. unfold fetched. by destruct (fetch _ _).
    - by destruct (dget n (s_indexers s)).
    - destruct (dget n (s_indexers s)); [|done]. simpl. unfold fetched. by destruct (fetch _ _).
    - destruct (s_items s); [|done]. by destruct (_ ++ _).
  Qed.
  Lemma store_key_error_iff s c : (∃ o', (sstep s c).2 = SStoreKeyError o') ↔
    match c with
    | SAdd o | SUpdate o | SDelete o | SGet o => keyf o = None
    | SReplace l => ∃ o, o ∈ l ∧ keyf o = None
    | _ => False
    end.
  Proof.
    split.
    - intros [o' Hr]. destruct (store_key_error _ _ _ Hr) as [_ Hk]. destruct c as [x|x|x| | |x|k|l| |n x|n v|n|n v| |fs]; simpl in Hr; try done.
      1,2: destruct (keyf x) as [k|]; [|done]; destruct (ts_add_items k x s) as (_ & _ & Hne); by destruct (Hne o').
      + destruct (keyf x) as [k|]; [|done]. destruct (ts_delete_items k s) as (_ & Hne & _); by destruct (Hne o').
      + by destruct (keyf x).
      + destruct (store_items keyf l []) as [items|o1] eqn:Hs; simpl in Hr; [unfold ts_replace in Hr; by destruct (reindex _ _ _) as [? []]|].
        apply store_items_error in Hs. eauto.
      + destruct (dget n (s_indexers s)) as [f|]; [|done]. destruct (f x); [|done]. simpl in Hr. unfold fetched in Hr. by destruct (fetch _ _).
      + by destruct (dget n (s_indexers s)).
      + destruct (dget n (s_indexers s)); [|done]. simpl in Hr. unfold fetched in Hr. by destruct (fetch _ _).
      + destruct (s_items s); [|done]. by destruct (_ ++ _).
    - destruct c as [x|x|x| | |x|k|l| |n x|n v|n|n v| |fs]; simpl; try done; try (intros ->; by eexists).
      intros (x & Hx & Hk). destruct (store_items keyf l []) as [items|o1] eqn:Hs; [|by eexists].
      exfalso. revert Hs. generalize (@nil (K * O)). induction l as [|y l IH]; intros it; simpl; [by apply elem_of_nil in Hx|].
      apply elem_of_cons in Hx as [<-|Hx]; [by rewrite Hk|]. destruct (keyf y); [|done]. by apply IH.
  Qed.

  (** ** C33 *)
  Definition ixof n ixs : index := default [] (dget n ixs).
  (** the index represents the relation *)
  Record idx_rel ix (R : K → V → Prop) : Prop := {
    ir_wf : dwf ix;
    ir_set : ∀ v set, dget v ix = Some set → set ≠ [] ∧ NoDup set;
    ir_rel : ∀ v k, k ∈ set_of v ix ↔ R k v
  }.
  Lemma idx_rel_ext ix R R' : (∀ k v, R k v ↔ R' k v) → idx_rel ix R → idx_rel ix R'.
  Proof. intros Hx [H1 H2 H3]. split; [done|done|]. intros v k. by rewrite H3, Hx. Qed.
  Lemma idx_rel_nil : idx_rel [] (λ _ _, False).
  Proof. split; [apply dwf_nil|done|]. intros v k. unfold set_of. rewrite dget_nil. simpl. by rewrite elem_of_nil. Qed.
  Lemma set_of_dset v v' set ix : set_of v' (dset v set ix) = if decide (v' = v) then set else set_of v' ix.
  Proof. unfold set_of. rewrite dget_dset. by case_decide. Qed.
  Lemma set_of_ddel v v' ix : set_of v' (ddel v ix) = if decide (v' = v) then [] else set_of v' ix.
  Proof. unfold set_of. rewrite dget_ddel. by case_decide. Qed.

  Lemma index_add_rel k ix v R : idx_rel ix R → idx_rel (index_add k ix v) (λ k' v', R k' v' ∨ k' = k ∧ v' = v).
  Proof.
    intros [H1 H2 H3]. unfold index_add. fold (set_of v ix). split.
    - by apply dwf_dset.
    - intros v' set. rewrite dget_dset. destruct (decide (v' = v)) as [->|]; [|apply H2]. intros; simplify_eq. split.
      + intros Hn. assert (k ∈ sadd k (set_of v ix)) as Hin by (apply elem_of_sadd; by left). rewrite Hn in Hin. by apply elem_of_nil in Hin.
      + apply NoDup_sadd. unfold set_of. destruct (dget v ix) as [set|] eqn:Hs; simpl; [by apply (H2 v)|apply NoDup_nil_2].
    - intros v' k'. rewrite set_of_dset. destruct (decide (v' = v)) as [->|Hne].
      + rewrite elem_of_sadd, H3. naive_solver.
      + rewrite H3. naive_solver.
  Qed.
  Lemma index_adds_rel k vs ix R : idx_rel ix R → idx_rel (foldl (index_add k) ix vs) (λ k' v', R k' v' ∨ k' = k ∧ v' ∈ vs).
  Proof.
    revert ix R. induction vs as [|v vs IH]; intros ix R HR; simpl.
    - eapply idx_rel_ext; [|done]. intros k' v'. rewrite elem_of_nil. naive_solver.
    - eapply idx_rel_ext; [|apply IH, index_add_rel, HR]. intros k' v'. simpl. rewrite elem_of_cons. naive_solver.
  Qed.
  Lemma index_remove_rel k vs ix R : idx_rel ix R → NoDup vs → (∀ v, v ∈ vs → R k v) →
    ∃ ix', index_remove k vs ix = (ix', true) ∧ idx_rel ix' (λ k' v', R k' v' ∧ ¬ (k' = k ∧ v' ∈ vs)).
  Proof.
    revert ix R. induction vs as [|v vs IH]; intros ix R HR Hnd Hall; simpl.
    - exists ix. split; [done|]. eapply idx_rel_ext; [|done]. intros k' v'. rewrite elem_of_nil. naive_solver.
    - apply NoDup_cons in Hnd as [Hni Hnd]. pose proof HR as [H1 H2 H3].
      assert (Hk : k ∈ set_of v ix) by (apply H3, Hall; left). unfold set_of in Hk.
      destruct (dget v ix) as [[|x xs]|] eqn:Hs; simpl in Hk; [by apply elem_of_nil in Hk| |by apply elem_of_nil in Hk].
      rewrite decide_True by done. set (R1 := λ k' v', R k' v' ∧ ¬ (k' = k ∧ v' = v)).
      assert (Hset : set_of v ix = x :: xs) by (unfold set_of; by rewrite Hs).
      assert (Hsr : ∀ k', k' ∈ srem k (x :: xs) ↔ R1 k' v).
      { intros k'. rewrite elem_of_srem, <-Hset, H3. unfold R1. naive_solver. }
      assert (Hfin : ∀ ix1, idx_rel ix1 R1 → ∃ ix', index_remove k vs ix1 = (ix', true) ∧ idx_rel ix' (λ k' v', R k' v' ∧ ¬ (k' = k ∧ v' ∈ v :: vs))).
      { intros ix1 HR1. destruct (IH ix1 R1 HR1 Hnd) as (ix' & He & HR').
        - intros v' Hv'. split; [apply Hall; by right|]. intros [_ ->]. done.
        - exists ix'. split; [done|]. eapply idx_rel_ext; [|done]. intros k' v'. unfold R1. rewrite elem_of_cons. naive_solver. }
      destruct (srem k (x :: xs)) as [|y ys] eqn:Hr.
      + apply Hfin. split.
        * by apply dwf_ddel.
        * intros v' set. rewrite dget_ddel. case_decide; [done|apply H2].
        * intros v' k'. rewrite set_of_ddel. destruct (decide (v' = v)) as [->|Hne]; [apply Hsr|].
          rewrite H3. unfold R1. naive_solver.
      + apply Hfin. split.
        * by apply dwf_dset.
        * intros v' set. rewrite dget_dset. destruct (decide (v' = v)) as [->|]; [|apply H2]. intros; simplify_eq. split; [done|].
          rewrite <-Hr. apply NoDup_srem. by apply (H2 v).
        * intros v' k'. rewrite set_of_dset. destruct (decide (v' = v)) as [->|Hne]; [apply Hsr|].
          rewrite H3. unfold R1. naive_solver.
  Qed.
  Lemma ixof_dset n n' ix ixs : ixof n' (dset n ix ixs) = if decide (n' = n) then ix else ixof n' ixs.
  Proof. unfold ixof. rewrite dget_dset. by case_decide. Qed.

  Lemma good_cons n f fs : good_indexers ((n, f) :: fs) → good_indexers fs ∧ (∀ o, ∃ vs, f o = Some vs ∧ NoDup vs) ∧ ∀ f', (n, f') ∉ fs.
  Proof.
    intros [Hwf Hg]. unfold dwf in Hwf. apply NoDup_cons in Hwf as [Hni Hwf]. split; [|split].
    - split; [done|]. intros n' f' Hin. apply (Hg n'). by right.
    - apply (Hg n). left.
    - intros f' Hin. apply Hni. apply elem_of_list_fmap. by exists (n, f').
  Qed.
  Lemma insert_indices_spec fs o k ixs : good_indexers fs →
    ∃ ixs', insert_indices fs o k ixs = (ixs', LDone) ∧
      (∀ n f vs, (n, f) ∈ fs → f o = Some vs → ixof n ixs' = foldl (index_add k) (ixof n ixs) vs) ∧
      (∀ n, (∀ f, (n, f) ∉ fs) → ixof n ixs' = ixof n ixs).
  Proof.
    revert ixs. induction fs as [|[n f] fs IH]; intros ixs Hg; simpl.
    - exists ixs. split; [done|]. split; [by intros ??? ?%elem_of_nil|done].
    - apply good_cons in Hg as (Hg & Hf & Hni). destruct (Hf o) as (vs & Hvs & _). rewrite Hvs.
      destruct (IH (dset n (foldl (index_add k) (default [] (dget n ixs)) vs) ixs) Hg) as (ixs' & He & Hin & Hout).
      exists ixs'. split; [done|]. split.
      + intros n' f' vs' [Heq|Hn]%elem_of_cons Hv.
        * simplify_eq. rewrite Hout by done. rewrite ixof_dset. by rewrite decide_True.
        * rewrite (Hin _ _ _ Hn Hv), ixof_dset. rewrite decide_False; [done|]. intros ->. by apply (Hni f').
      + intros n' Hn. rewrite Hout, ixof_dset.
        * rewrite decide_False; [done|]. intros ->. apply (Hn f). left.
        * intros f' Hin'. apply (Hn f'). by right.
  Qed.
  Lemma index_remove_nil k (vs : list V) : index_remove k vs [] = ([], true).
  Proof. induction vs as [|v vs IH]; simpl; [done|]. by rewrite dget_nil. Qed.
  Lemma delete_indices_spec fs o k ixs : good_indexers fs →
    (∀ n f vs, (n, f) ∈ fs → f o = Some vs → (index_remove k vs (ixof n ixs)).2 = true) →
    ∃ ixs', delete_indices fs o k ixs = (ixs', LDone) ∧
      (∀ n f vs, (n, f) ∈ fs → f o = Some vs → ixof n ixs' = (index_remove k vs (ixof n ixs)).1) ∧
      (∀ n, (∀ f, (n, f) ∉ fs) → ixof n ixs' = ixof n ixs).
  Proof.
    revert ixs. induction fs as [|[n f] fs IH]; intros ixs Hg Hok; simpl.
    - exists ixs. split; [done|]. split; [by intros ??? ?%elem_of_nil|done].
    - apply good_cons in Hg as (Hg & Hf & Hni). destruct (Hf o) as (vs & Hvs & _). rewrite Hvs.
      pose proof (Hok n f vs ltac:(left) Hvs) as Hn. unfold ixof in Hn. destruct (dget n ixs) as [ix|] eqn:Hix; simpl in Hn.
      + destruct (index_remove k vs ix) as [ix' ok] eqn:Hr. simpl in Hn. subst ok.
        destruct (IH (dset n ix' ixs) Hg) as (ixs' & He & Hin & Hout).
        { intros n' f' vs' Hin' Hv'. rewrite ixof_dset. rewrite decide_False; [|intros ->; by apply (Hni f')]. apply (Hok n' f'); [by right|done]. }
        exists ixs'. split; [done|]. split.
        * intros n' f' vs' [Heq|Hn']%elem_of_cons Hv.
          -- simplify_eq. rewrite Hout by done. rewrite ixof_dset. rewrite decide_True by done. unfold ixof. rewrite Hix. simpl. by rewrite Hr.
          -- rewrite (Hin _ _ _ Hn' Hv), ixof_dset. rewrite decide_False; [done|]. intros ->. by apply (Hni f').
        * intros n' Hn'. rewrite Hout, ixof_dset.
          -- rewrite decide_False; [done|]. intros ->. apply (Hn' f). left.
          -- intros f' Hin'. apply (Hn' f'). by right.
      + destruct (IH ixs Hg) as (ixs' & He & Hin & Hout).
        { intros n' f' vs' Hin' Hv'. apply (Hok n' f'); [by right|done]. }
        exists ixs'. split; [done|]. split.
        * intros n' f' vs' [Heq|Hn']%elem_of_cons Hv.
          -- simplify_eq. rewrite Hout by done. unfold ixof. rewrite Hix. simpl. by rewrite index_remove_nil.
          -- apply (Hin _ _ _ Hn' Hv).
        * intros n' Hn'. apply Hout. intros f' Hin'. apply (Hn' f'). by right.
  Qed.

  (** every index agrees with the content *)
  Definition vrel f (items : dict K O) : K → V → Prop := λ k v, ∃ o, dget k items = Some o ∧ has_value f o v.
  Definition II fs (items : dict K O) ixs : Prop := ∀ n f, (n, f) ∈ fs → idx_rel (ixof n ixs) (vrel f items).

  Lemma II_insert fs items ixs k o : good_indexers fs → II fs items ixs → dget k items = None →
    ∃ ixs', insert_indices fs o k ixs = (ixs', LDone) ∧ II fs (dset k o items) ixs'.
  Proof.
    intros Hg HI Hk. destruct (insert_indices_spec fs o k ixs Hg) as (ixs' & He & Hin & _). exists ixs'. split; [done|].
    intros n f Hnf. destruct Hg as [_ Hg]. destruct (Hg n f Hnf o) as (vs & Hvs & Hnd). rewrite (Hin n f vs Hnf Hvs).
    eapply idx_rel_ext; [|apply index_adds_rel, (HI n f Hnf)]. intros k' v. unfold vrel. rewrite dget_dset. split.
    - intros [(o' & Ho' & Hv)|[-> Hv]].
      + rewrite decide_False; [eauto|]. intros ->. congruence.
      + exists o. rewrite decide_True by done. split; [done|]. by exists vs.
    - intros (o' & Ho' & Hv). destruct (decide (k' = k)) as [->|]; [|eauto]. simplify_eq. right. split; [done|].
      destruct Hv as (vs' & ? & ?). by simplify_eq.
  Qed.
  Lemma II_delete fs items ixs k o : good_indexers fs → II fs items ixs → dget k items = Some o →
    ∃ ixs', delete_indices fs o k ixs = (ixs', LDone) ∧ II fs (ddel k items) ixs'.
  Proof.
    intros Hg HI Hk. assert (Hrm : ∀ n f vs, (n, f) ∈ fs → f o = Some vs → ∃ ix', index_remove k vs (ixof n ixs) = (ix', true) ∧
      idx_rel ix' (λ k' v', vrel f items k' v' ∧ ¬ (k' = k ∧ v' ∈ vs))).
    { intros n f vs Hnf Hvs. apply index_remove_rel; [by apply HI| |].
      - destruct Hg as [_ Hg]. destruct (Hg n f Hnf o) as (vs' & ? & ?). by simplify_eq.
      - intros v Hv. exists o. split; [done|]. by exists vs. }
    destruct (delete_indices_spec fs o k ixs Hg) as (ixs' & He & Hin & _).
    { intros n f vs Hnf Hvs. destruct (Hrm n f vs Hnf Hvs) as (ix' & -> & _). done. }
    exists ixs'. split; [done|]. intros n f Hnf. destruct Hg as [_ Hg]. destruct (Hg n f Hnf o) as (vs & Hvs & Hnd).
    rewrite (Hin n f vs Hnf Hvs). destruct (Hrm n f vs Hnf Hvs) as (ix' & -> & Hrel). simpl.
    eapply idx_rel_ext; [|exact Hrel]. intros k' v. unfold vrel. rewrite dget_ddel. split.
    - intros [(o' & Ho' & Hv) Hn]. exists o'. rewrite decide_False; [done|]. intros ->. simplify_eq. apply Hn. split; [done|].
      destruct Hv as (vs' & ? & ?). by simplify_eq.
    - intros (o' & Ho' & Hv). destruct (decide (k' = k)) as [->|]; [done|]. split; [eauto|]. by intros [? _].
  Qed.
  Lemma II_items fs items items' ixs : (∀ k, dget k items = dget k items') → II fs items ixs → II fs items' ixs.
  Proof.
    intros Heq HI n f Hnf. eapply idx_rel_ext; [|by apply HI]. intros k v. unfold vrel. by rewrite Heq.
  Qed.
  Lemma II_nil fs : II fs [] [].
  Proof.
    intros n f Hnf. unfold ixof. rewrite dget_nil. eapply idx_rel_ext; [|apply idx_rel_nil]. intros k v. unfold vrel.
    rewrite dget_nil. split; [done|]. by intros (o & ? & _).
  Qed.
  Lemma II_add fs s k o : s_indexers s = fs → good_indexers fs → II fs (s_items s) (s_indices s) →
    (ts_add k o s).2 = SNone ∧ II fs (s_items (ts_add k o s).1) (s_indices (ts_add k o s).1).
  Proof.
    intros <- Hg HI. unfold ts_add, update_indices. destruct (dget k (s_items s)) as [old|] eqn:Hk.
    - destruct (II_delete _ _ _ _ _ Hg HI Hk) as (ixs1 & -> & HI1).
      destruct (II_insert _ _ _ k o Hg HI1) as (ixs2 & -> & HI2); [apply dget_ddel_eq|]. simpl. split; [done|].
      eapply II_items; [|exact HI2]. intros k'. rewrite !dget_dset, dget_ddel. by destruct (decide (k' = k)).
    - destruct (II_insert _ _ _ k o Hg HI Hk) as (ixs2 & -> & HI2). done.
  Qed.
  Lemma II_del fs s k : s_indexers s = fs → good_indexers fs → II fs (s_items s) (s_indices s) →
    (ts_delete k s).2 = SNone ∧ II fs (s_items (ts_delete k s).1) (s_indices (ts_delete k s).1).
  Proof.
    intros <- Hg HI. unfold ts_delete. destruct (dget k (s_items s)) as [old|] eqn:Hk; [|done].
    destruct (II_delete _ _ _ _ _ Hg HI Hk) as (ixs1 & -> & HI1). done.
  Qed.
  Lemma II_reindex fs (items done_ : dict K O) ixs : good_indexers fs → II fs done_ ixs → dwf (done_ ++ items) →
    ∃ ixs', reindex fs items ixs = (ixs', LDone) ∧ II fs (done_ ++ items) ixs'.
  Proof.
    revert done_ ixs. induction items as [|[k o] items IH]; intros d ixs Hg HI Hwf; simpl.
    - exists ixs. by rewrite app_nil_r.
    - assert (Hk : dget k d = None).
      { apply not_elem_of_dkeys. unfold dwf, dkeys in *. rewrite fmap_app in Hwf. csimpl in Hwf. apply NoDup_app in Hwf as (_ & Hd & _).
        intros Hin. apply (Hd k Hin). left. }
      destruct (II_insert fs d ixs k o Hg HI Hk) as (ixs1 & He & HI1). rewrite He.
      destruct (IH (d ++ [(k, o)]) ixs1 Hg) as (ixs2 & He2 & HI2).
      + eapply II_items; [|exact HI1]. intros k'. clear -Hk. induction d as [|[k1 o1] d IH]; [done|].
        rewrite dget_cons in Hk. case_decide as Hne; [done|]. change (((k1, o1) :: d) ++ ?l) with ((k1, o1) :: (d ++ l)). rewrite dget_cons, <-IH by done.
        rewrite !dget_dset, dget_cons. destruct (decide (k' = k)) as [->|]; [|done]. by rewrite decide_False.
      + by rewrite <-app_assoc.
      + exists ixs2. split; [done|]. by rewrite <-app_assoc in HI2.
  Qed.
  Lemma II_step fs s c : s_indexers s = fs → dwf (s_items s) → good_indexers fs → II fs (s_items s) (s_indices s) →
    s_indexers (sstep s c).1 = fs ∧ II fs (s_items (sstep s c).1) (s_indices (sstep s c).1) ∧
    match c with SAdd o | SUpdate o | SDelete o => is_Some (keyf o) → (sstep s c).2 = SNone | _ => True end.
  Proof.
    intros Hf Hwf Hg HI. destruct c as [x|x|x| | |x|k|l| |n x|n v|n|n v| |fs']; simpl; try done.
    1,2: destruct (keyf x) as [k|] eqn:Hk; [|split; [done|]; split; [done|]; by intros [? ?]];
      destruct (II_add fs s k x Hf Hg HI) as [Hr HI']; destruct (ts_add_items k x s) as (_ & -> & _); done.
    - destruct (keyf x) as [k|] eqn:Hk; [|split; [done|]; split; [done|]; by intros [? ?]].
      destruct (II_del fs s k Hf Hg HI) as [Hr HI']. destruct (ts_delete_items k s) as (-> & _ & _). done.
    - by destruct (keyf x).
    - destruct (store_items keyf l []) as [items|o] eqn:Hs; [|done].
      destruct (store_items_spec _ _ _ Hs dwf_nil) as [Hwf' _].
      destruct (II_reindex fs items [] [] Hg (II_nil fs) Hwf') as (ixs' & He & HI'). unfold ts_replace. rewrite Hf, He. done.
    - destruct (dget n (s_indexers s)) as [f|]; [|done]. by destruct (f x).
    - by destruct (dget n (s_indexers s)).
    - by destruct (dget n (s_indexers s)).
    - destruct (s_items s) as [|y ys] eqn:Hit; [|simpl; by rewrite ?Hit]. destruct (dkeys (s_indexers s) ++ dkeys fs') eqn:Hd; [|simpl; by rewrite ?Hit]. simpl.
      apply app_eq_nil in Hd as [_ Hd]. unfold dkeys in Hd. apply fmap_nil_inv in Hd as ->. rewrite app_nil_r. done.
  Qed.
  Lemma II_exec fs h s : good_indexers fs → exec sstep (store_init fs) h s → s_indexers s = fs ∧ II fs (s_items s) (s_indices s).
  Proof.
    intros Hg Hex. enough (CI h s ∧ s_indexers s = fs ∧ II fs (s_items s) (s_indices s)) by tauto. revert Hex.
    apply (exec_trace_inv sstep (λ h s, CI h s ∧ s_indexers s = fs ∧ II fs (s_items s) (s_indices s))); [split; [apply CI_init|]; split; [done|apply II_nil]|].
    clear h s. intros h s c _ (HC & Hf & HI). split; [by apply CI_step|]. pose proof HC as [Hwf _ _]. destruct (II_step fs s c Hf Hwf Hg HI) as (? & ? & _). done.
  Qed.

  Lemma fetch_spec (items : dict K O) ks : (∀ k, k ∈ ks → is_Some (dget k items)) → fetch items ks = Some (omap (λ k, dget k items) ks).
  Proof.
    induction ks as [|k ks IH]; intros Hall; simpl; [done|]. destruct (Hall k ltac:(left)) as [o Ho]. rewrite Ho.
    rewrite IH; [done|]. intros k' ?. apply Hall. by right.
  Qed.
  Lemma omap_content h s (ks : list K) fs : exec sstep (store_init fs) h s → omap (λ k, dget k (s_items s)) ks = omap (λ k, content k (reverse h)) ks.
  Proof.
    intros [_ Hg _]%CI_exec. induction ks as [|k ks IH]; [done|]. csimpl. rewrite Hg. by rewrite IH.
  Qed.
  Lemma set_of_nodup ix R v : idx_rel ix R → NoDup (set_of v ix).
  Proof.
    intros [_ H2 _]. unfold set_of. destruct (dget v ix) as [set|] eqn:Hs; simpl; [by apply (H2 v)|apply NoDup_nil_2].
  Qed.
  Lemma foldl_sadd (l acc : list K) : NoDup acc → NoDup (foldl (λ acc k, sadd k acc) acc l) ∧
    ∀ k, k ∈ foldl (λ acc k, sadd k acc) acc l ↔ k ∈ acc ∨ k ∈ l.
  Proof.
    revert acc. induction l as [|x l IH]; intros acc Hnd; simpl.
    - split; [done|]. intros k. rewrite elem_of_nil. naive_solver.
    - destruct (IH (sadd x acc)) as [H1 H2]; [by apply NoDup_sadd|]. split; [done|]. intros k.
      rewrite H2, elem_of_sadd, elem_of_cons. naive_solver.
  Qed.
  Lemma elem_of_list_In_concat (l : list (list K)) k : (∃ set, k ∈ set ∧ set ∈ l) ↔ k ∈ concat l.
  Proof.
    rewrite elem_of_list_In, in_concat. split; intros (set & H1 & H2); exists set.
    - split; by apply elem_of_list_In.
    - split; by apply elem_of_list_In.
  Qed.
  Lemma union_of_spec ix R vs : idx_rel ix R → NoDup (union_of vs ix) ∧ ∀ k, k ∈ union_of vs ix ↔ ∃ v, v ∈ vs ∧ R k v.
  Proof.
    intros HR. assert (Hgen : NoDup (foldl (λ acc k, sadd k acc) [] (concat ((λ v, set_of v ix) <$> vs))) ∧
      ∀ k, k ∈ foldl (λ acc k, sadd k acc) [] (concat ((λ v, set_of v ix) <$> vs)) ↔ ∃ v, v ∈ vs ∧ R k v).
    { destruct (foldl_sadd (concat ((λ v, set_of v ix) <$> vs)) [] (NoDup_nil_2)) as [H1 H2]. split; [done|]. intros k. rewrite H2, elem_of_nil.
      rewrite <-elem_of_list_In_concat. split.
      - intros [?|(set & Hk & Hset)]; [done|]. apply elem_of_list_fmap in Hset as (v & -> & Hv). exists v. split; [done|]. by apply (ir_rel _ _ HR).
      - intros (v & Hv & Hr). right. exists (set_of v ix). split; [by apply (ir_rel _ _ HR)|]. apply elem_of_list_fmap. by exists v. }
    unfold union_of. destruct vs as [|v [|v' vs]]; [done| |done]. split; [by eapply set_of_nodup|].
    intros k. rewrite (ir_rel _ _ HR). split; [intros ?; exists v; split; [left|done]|]. by intros (v' & ->%elem_of_list_singleton & ?).
  Qed.

  (** key [k] has value [v], recomputed from the history *)
  Notation indexed h f k v := (∃ o, content k (reverse h) = Some o ∧ has_value f o v).
  Lemma store_index_queries fs h s n f : good_indexers fs → exec sstep (store_init fs) h s → (n, f) ∈ fs →
    (∀ v, ∃ ks, (sstep s (SIndexKeys n v)).2 = SKeys ks ∧ NoDup ks ∧ (∀ k, k ∈ ks ↔ indexed h f k v) ∧
          (sstep s (SByIndex n v)).2 = SObjs (omap (λ k, content k (reverse h)) ks)) ∧
    (∃ vs, (sstep s (SListIndexFuncValues n)).2 = SValues vs ∧ NoDup vs ∧ ∀ v, v ∈ vs ↔ ∃ k, indexed h f k v) ∧
    (∀ o, ∃ ks, NoDup ks ∧ (∀ k, k ∈ ks ↔ ∃ v, has_value f o v ∧ indexed h f k v) ∧
          (sstep s (SIndex n o)).2 = SObjs (omap (λ k, content k (reverse h)) ks)).
  Proof.
    intros Hg Hex Hnf. destruct (II_exec fs h s Hg Hex) as [Hf HI]. pose proof (CI_exec _ _ _ Hex) as [Hwf Hc _].
    pose proof (HI n f Hnf) as HR. change (ixof n (s_indices s)) with (index_of n s) in HR.
    assert (Hn : dget n (s_indexers s) = Some f) by (rewrite Hf; apply elem_of_dget; [apply Hg|done]).
    assert (Hv : ∀ k v, vrel f (s_items s) k v ↔ indexed h f k v).
    { intros k v. unfold vrel. by rewrite Hc. }
    assert (Hfetch : ∀ ks, (∀ k, k ∈ ks → ∃ v, vrel f (s_items s) k v) → (fetched (s_items s) ks : sres) = SObjs (omap (λ k, content k (reverse h)) ks)).
    { intros ks Hks. unfold fetched. rewrite fetch_spec; [by rewrite (omap_content h s ks fs Hex)|].
      intros k Hk. destruct (Hks k Hk) as (v & o & ? & _). eauto. }
    split; [|split].
    - intros v. exists (set_of v (index_of n s)). simpl. rewrite Hn. split; [done|]. split; [by eapply set_of_nodup|]. split.
      + intros k. by rewrite (ir_rel _ _ HR), Hv.
      + apply Hfetch. intros k Hk. exists v. by apply (ir_rel _ _ HR).
    - exists (dkeys (index_of n s)). split; [done|]. split; [apply HR|]. intros v. rewrite elem_of_dkeys. split.
      + intros [set Hs]. destruct (ir_set _ _ HR v set Hs) as [Hne _]. destruct set as [|k set]; [done|]. exists k. apply Hv, (ir_rel _ _ HR).
        unfold set_of. rewrite Hs. left.
      + intros [k Hk]. apply Hv, (ir_rel _ _ HR) in Hk. unfold set_of in Hk. destruct (dget v (index_of n s)); [eauto|]. by apply elem_of_nil in Hk.
    - intros o. destruct Hg as [_ Hg]. destruct (Hg n f Hnf o) as (vs & Hvs & _). destruct (union_of_spec (index_of n s) _ vs HR) as [Hnd Hu].
      exists (union_of vs (index_of n s)). split; [done|]. split.
      + intros k. rewrite Hu. split.
        * intros (v & Hin & Hr). exists v. split; [by exists vs|]. by apply Hv.
        * intros (v & (vs' & Hvs' & Hin) & Hr). simplify_eq. exists v. split; [done|]. by apply Hv.
      + simpl. rewrite Hn, Hvs. apply Hfetch. intros k Hk. apply Hu in Hk as (v & _ & ?). eauto.
  Qed.
  Lemma store_no_error fs h s c : good_indexers fs → exec sstep (store_init fs) h s →
    match c with
    | SAdd o | SUpdate o | SDelete o => is_Some (keyf o) → (sstep s c).2 = SNone
    | SReplace l => (∀ o, o ∈ l → is_Some (keyf o)) → (sstep s c).2 = SNone
    | _ => True
    end.
  Proof.
    intros Hg Hex. destruct (II_exec fs h s Hg Hex) as [Hf HI]. pose proof (CI_exec _ _ _ Hex) as [Hwf Hc _].
    destruct (II_step fs s c Hf Hwf Hg HI) as (_ & _ & Hr). destruct c as [x|x|x| | |x|k|l| |n x|n v|n|n v| |fs']; try done.
    intros Hall. simpl. destruct (store_items keyf l []) as [items|o] eqn:Hs.
    - destruct (store_items_spec _ _ _ Hs dwf_nil) as [Hwf' _].
      destruct (II_reindex fs items [] [] Hg (II_nil fs) Hwf') as (ixs' & He & HI'). unfold ts_replace. rewrite Hf, He. done.
    - apply store_items_error in Hs as [Hin Hn]. destruct (Hall o Hin). congruence.
  Qed.

  (** ** C35 *)
  Lemma add_indexers_exact s fs : (sstep s (SAddIndexers fs)).2 = SNone ↔ s_items s = [] ∧ s_indexers s = [] ∧ fs = [].
  Proof.
    simpl. destruct (s_items s) as [|x xs]; simpl; [|naive_solver]. unfold dkeys. split.
    - intros Hr. destruct (_ ++ _) eqn:Hd; [|done]. apply app_eq_nil in Hd as [H1%fmap_nil_inv H2%fmap_nil_inv]. done.
    - intros (_ & -> & ->). done.
  Qed.
  Lemma indexers_fixed fs h s : exec sstep (store_init fs) h s → s_indexers s = fs.
  Proof.
    apply (exec_inv sstep (λ s, s_indexers s = fs)); [|done]. clear h s. intros s c Hf. destruct c as [x|x|x| | |x|k|l| |n x|n v|n|n v| |fs']; simpl; try done.
    1,2: destruct (keyf x) as [k|]; [|done]; by destruct (ts_add_items k x s) as (_ & -> & _).
    - destruct (keyf x) as [k|]; [|done]. by destruct (ts_delete_items k s) as (-> & _).
    - by destruct (keyf x).
    - destruct (store_items keyf l []); [|done]. unfold ts_replace. by destruct (reindex _ _ _).
    - destruct (dget n (s_indexers s)) as [f|]; [|done]. by destruct (f x).
    - by destruct (dget n (s_indexers s)).
    - by destruct (dget n (s_indexers s)).
    - destruct (s_items s) as [|y ys]; [|done]. destruct (dkeys (s_indexers s) ++ dkeys fs') eqn:Hd; [|done]. simpl.
      apply app_eq_nil in Hd as [_ Hd]. unfold dkeys in Hd. apply fmap_nil_inv in Hd as ->. by rewrite app_nil_r.
  Qed.
  Lemma add_indexers_accepts fs0 h s fs : exec sstep (store_init fs0) h s →
    (sstep s (SAddIndexers fs)).2 = SNone ↔ (∀ k, content k (reverse h) = None) ∧ fs0 = [] ∧ fs = [].
  Proof.
    intros Hex. rewrite add_indexers_exact, (indexers_fixed _ _ _ Hex). pose proof (CI_exec _ _ _ Hex) as [Hwf Hc _].
    assert (s_items s = [] ↔ ∀ k, content k (reverse h) = None) as ->; [|done]. split.
    - intros He k. by rewrite <-Hc, He.
    - intros Hn. destruct (s_items s) as [|[k o] items]; [done|]. specialize (Hn k). rewrite <-Hc, dget_cons, decide_True in Hn by done. done.
  Qed.
  Lemma get_indexers_fixed fs h s : exec sstep (store_init fs) h s → (sstep s SGetIndexers).2 = SNames (dkeys fs).
  Proof. intros Hex. simpl. by rewrite (indexers_fixed _ _ _ Hex). Qed.
End proofs.

(** ** Concrete stores: an object is (key, index values); key 9 has no key; a single index [0] *)
Definition scase_key (o : nat * list nat) : option nat := if decide (o.1 = 9) then None else Some o.1.
Definition scase_index : index_func (nat * list nat) nat := λ o, Some o.2.
(** an index function that removes repetitions *)
Definition scase_uniq : index_func (nat * list nat) nat := λ o, Some (remove_dups o.2).
Notation sev := (sop nat (nat * list nat) nat nat * sres nat (nat * list nat) nat nat)%type.
Definition scase_run : list sev :=
  [(SAdd (1, [5; 6]), SNone); (SAdd (2, [6]), SNone); (SUpdate (1, [6]), SNone); (SAdd (9, []), SStoreKeyError (9, []));
   (SAdd (3, [7]), SNone); (SDelete (2, []), SNone); (SReplace [(4, [1]); (9, [])], SStoreKeyError (9, []))].
Definition scase_state : store nat (nat * list nat) nat nat :=
  Store [(1, (1, [6])); (3, (3, [7]))] [(0, scase_uniq)] [(0, [(6, [1]); (7, [3])])].
Lemma scase_good : good_indexers [(0, scase_uniq)].
Proof.
  split; [apply NoDup_cons; split; [by intros ?%elem_of_nil|apply NoDup_nil_2]|].
  intros n f Hin o. apply elem_of_list_singleton in Hin. simplify_eq. exists (remove_dups o.2). split; [done|apply NoDup_remove_dups].
Qed.
Lemma scase_runs : exec (sstep scase_key) (store_init [(0, scase_uniq)]) scase_run scase_state.
Proof. apply exec_check. vm_compute. reflexivity. Qed.
Lemma scase_content : content scase_key 1 (reverse scase_run) = Some (1, [6]) ∧ content scase_key 3 (reverse scase_run) = Some (3, [7]) ∧
  content scase_key 2 (reverse scase_run) = None ∧ (sstep scase_key scase_state (SByIndex 0 6)).2 = SObjs [(1, [6])].
Proof. vm_compute. done. Qed.

Definition sbad_run : list sev := [(SAdd (1, [5]), SNone); (SAdd (2, [5; 5]), SNone); (SDelete (2, [5; 5]), SKeyError)].
Definition sbad_state : store nat (nat * list nat) nat nat :=
  Store [(1, (1, [5])); (2, (2, [5; 5]))] [(0, scase_index)] [(0, [(5, [1])])].
Lemma sbad_runs : exec (sstep scase_key) (store_init [(0, scase_index)]) sbad_run sbad_state.
Proof. apply exec_check. vm_compute. reflexivity. Qed.
Lemma sbad_forever : sstep scase_key sbad_state (SDelete (2, [5; 5])) = (sbad_state, SKeyError).
Proof. vm_compute. reflexivity. Qed.
Lemma sbad_stuck h s : exec (sstep scase_key) sbad_state h s → (∀ c, c ∈ h.*1 → c = SDelete (2, [5; 5])) →
  s = sbad_state ∧ ∀ r, r ∈ h.*2 → r = SKeyError.
Proof.
  intros Hex Hall. revert Hex. induction h as [|[c r] h IH]; intros Hex.
  - apply exec_nil_iff in Hex as ->. split; [done|]. by intros r ?%elem_of_nil.
  - apply exec_cons_iff in Hex as (s1 & Hs & Hex). assert (c = SDelete (2, [5; 5])) as -> by (apply Hall; left).
    rewrite sbad_forever in Hs. simplify_eq. destruct IH as [-> Hr]; [intros c ?; apply Hall; by right|done|].
    split; [done|]. intros r'. csimpl. intros [->|?]%elem_of_cons; [done|]. by apply Hr.
Qed.
Lemma store_repeated_values_refuted :
  ∃ s, exec (sstep scase_key) (store_init [(0, scase_index)]) sbad_run s ∧
    (∀ h s', exec (sstep scase_key) s h s' → (∀ c, c ∈ h.*1 → c = SDelete (2, [5; 5])) →
       (∀ r, r ∈ h.*2 → r = SKeyError) ∧
       (sstep scase_key s' (SGetByKey 2)).2 = SOpt (Some (2, [5; 5])) ∧
       (sstep scase_key s' (SIndexKeys 0 5)).2 = SKeys [1]).
Proof.
  exists sbad_state. split; [apply sbad_runs|]. intros h s' Hex Hall. destruct (sbad_stuck _ _ Hex Hall) as [-> Hr].
  split; [done|]. vm_compute. done.
Qed.
Lemma store_repeated_update_refuted :
  ∃ s, exec (sstep scase_key) (store_init [(0, scase_index)])
    [(SAdd (1, [5]), SNone); (SAdd (2, [5; 5]), SNone); (SUpdate (2, [6]), SKeyError)] s ∧
    (sstep scase_key s (SGetByKey 2)).2 = SOpt (Some (2, [6])) ∧ (sstep scase_key s (SIndexKeys 0 6)).2 = SKeys [].
Proof. eexists. split; [apply exec_check; vm_compute; reflexivity|]. vm_compute. done. Qed.
Lemma add_indexers_refuted :
  ∃ (fs : dict nat (index_func (nat * list nat) nat)), fs ≠ [] ∧ dwf fs ∧
    (sstep scase_key (store_init []) (SAddIndexers fs)).2 = SConflictError ∧ (sstep (V:=nat) (N:=nat) scase_key (store_init []) SGetIndexers).2 = SNames [].
Proof. exists [(0, scase_uniq)]. split; [done|]. split; [apply scase_good|]. done. Qed.
