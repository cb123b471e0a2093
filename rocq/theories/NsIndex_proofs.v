(** Proofs for C78. *)
From Verif Require Import Base KeyFunc_model KeyFunc_spec KeyFunc_proofs Store_model Store_spec Store_proofs NsIndex_model NsIndex_spec.
From Coq Require Import Strings.String.
From stdpp Require Import strings.

(** ** Index functions that may fail, on a store that never holds such an object,
    behave like ones that do not fail *)
Section total.
  Context {K O V N : Type} `{EqDecision K} `{EqDecision V} `{EqDecision N} (keyf : O → option K).
  Context (fs : dict N (index_func O V)) (P : O → Prop).
  Hypothesis Hwf : dwf fs.
  Hypothesis Hnd : ∀ n f o vs, (n, f) ∈ fs → f o = Some vs → NoDup vs.
  Hypothesis HP : ∀ n f o, (n, f) ∈ fs → P o → is_Some (f o).
  Notation sstep := (sstep keyf).

  Definition total_func (f : index_func O V) : index_func O V := λ o, match f o with Some vs => Some vs | None => Some [] end.
  Definition total (l : dict N (index_func O V)) : dict N (index_func O V) := (λ x, (x.1, total_func x.2)) <$> l.
  Lemma total_keys l : dkeys (total l) = dkeys l.
  Proof. unfold dkeys, total. rewrite <-list_fmap_compose. by apply list_fmap_ext. Qed.
  Lemma total_good : good_indexers (total fs).
  Proof.
    split; [unfold dwf; by rewrite total_keys|]. intros n f ((n' & f') & Heq & Hin)%elem_of_list_fmap o. simplify_eq/=.
    unfold total_func. destruct (f' o) eqn:E; [eauto|]. eexists; split; [done|constructor].
  Qed.
  Lemma total_in n f : (n, f) ∈ fs → (n, total_func f) ∈ total fs.
  Proof. intros. apply elem_of_list_fmap. by exists (n, f). Qed.
  Lemma total_at f o : is_Some (f o) → total_func f o = f o.
  Proof. intros [? E]. unfold total_func. by rewrite E. Qed.

  Lemma total_insert l o (k : K) ixs : l ⊆ fs → P o → insert_indices (total l) o k ixs = insert_indices l o k ixs.
  Proof.
    intros Hl Ho. revert ixs Hl. induction l as [|[n f] l IH]; intros ixs Hl; [done|]. simpl.
    rewrite total_at by (apply (HP n); [apply Hl; left|done]). destruct (f o); [|done].
    apply IH. intros x ?. apply Hl. by right.
  Qed.
  Lemma total_delete l o (k : K) ixs : l ⊆ fs → P o → delete_indices (total l) o k ixs = delete_indices l o k ixs.
  Proof.
    intros Hl Ho. revert ixs Hl. induction l as [|[n f] l IH]; intros ixs Hl; [done|]. simpl.
    rewrite total_at by (apply (HP n); [apply Hl; left|done]). destruct (f o); [|done].
    assert (l ⊆ fs) by (intros x ?; apply Hl; by right).
    destruct (dget n ixs); [|auto]. destruct (index_remove k _ _) as [? []]; auto.
  Qed.
  Lemma total_update old o (k : K) ixs : (∀ o', old = Some o' → P o') → P o → update_indices (total fs) old o k ixs = update_indices fs old o k ixs.
  Proof.
    intros Hold Ho. unfold update_indices. destruct old as [o'|]; [|by apply total_insert].
    rewrite total_delete by auto. destruct (delete_indices _ _ _ _) as [? []]; [|done|done]. by apply total_insert.
  Qed.
  Lemma total_reindex (items : dict K O) ixs : (∀ k o, (k, o) ∈ items → P o) → reindex (total fs) items ixs = reindex fs items ixs.
  Proof.
    revert ixs. induction items as [|[k o] items IH]; intros ixs Hi; [done|]. cbn [reindex].
    rewrite total_update; [|done|apply (Hi k); left]. destruct (update_indices _ _ _ _ _) as [? []]; [|done|done].
    apply IH. intros. eapply Hi. by right.
  Qed.
  Lemma store_items_all l items items' : store_items keyf l items = inl items' → Forall P l →
    (∀ k o, dget k items = Some o → P o) → dwf items → (∀ k o, dget k items' = Some o → P o) ∧ dwf items'.
  Proof.
    revert items. induction l as [|o l IH]; intros items E Hl Hi Hw; simpl in E; [by simplify_eq|].
    inversion_clear Hl. destruct (keyf o) as [k|]; [|done]. eapply IH; [done|done| |by apply dwf_dset].
    intros k' o'. rewrite dget_dset. case_decide; [by intros [= <-]|eauto].
  Qed.
  Definition sim (s s' : store K O V N) : Prop :=
    s_items s = s_items s' ∧ s_indices s = s_indices s' ∧ s_indexers s = fs ∧ s_indexers s' = total fs ∧
    dwf (s_items s) ∧ ∀ k o, dget k (s_items s) = Some o → P o.
  Definition asks_index (c : sop K O V N) : bool := match c with SIndex _ _ => true | _ => false end.

  Lemma dget_total n : dget n (total fs) = total_func <$> dget n fs.
  Proof.
    clear. induction fs as [|[n' f] l IH]; [done|]. simpl. rewrite !dget_cons. by case_decide.
  Qed.
  Lemma sim_add s s' k o : sim s s' → P o → sim (ts_add k o s).1 (ts_add k o s').1 ∧ (ts_add k o s).2 = (ts_add k o s').2.
  Proof.
    intros (Hi & Hx & Hf & Hf' & Hw & Hp) Ho. unfold ts_add. rewrite Hf, Hf', <-Hi, <-Hx.
    rewrite total_update by eauto. destruct (update_indices _ _ _ _ _) as [ixs e]; simpl. split; [|done].
    repeat split; simpl; try done; [by apply dwf_dset|]. intros k' o'. rewrite dget_dset. case_decide; [by intros [= <-]|eauto].
  Qed.
  Lemma sim_delete s s' k : sim s s' → sim (ts_delete k s).1 (ts_delete k s').1 ∧ (ts_delete k s).2 = (ts_delete k s').2.
  Proof.
    intros (Hi & Hx & Hf & Hf' & Hw & Hp). unfold ts_delete. rewrite Hf, Hf', <-Hi, <-Hx.
    destruct (dget k (s_items s)) as [o|] eqn:E; [|by repeat split].
    rewrite total_delete by eauto. destruct (delete_indices _ _ _ _) as [ixs []]; simpl; (split; [|done]); repeat split; simpl; try done.
    - by apply dwf_ddel.
    - intros k' o'. rewrite dget_ddel by done. case_decide; [done|eauto].
  Qed.
  Lemma sim_step s s' c : sim s s' → Forall P (puts c) →
    sim (sstep s c).1 (sstep s' c).1 ∧ (asks_index c = false → (sstep s c).2 = (sstep s' c).2).
  Proof.
    intros Hs Hp. pose proof Hs as (Hi & Hx & Hf & Hf' & Hw & Hps). destruct c; simpl in *; rewrite ?Hi; unfold index_of; rewrite ?Hx.
    - destruct (keyf o); [|done]. inversion_clear Hp. destruct (sim_add s s' k o Hs); [done|]. by split.
    - destruct (keyf o); [|done]. inversion_clear Hp. destruct (sim_add s s' k o Hs); [done|]. by split.
    - destruct (keyf o); [|done]. destruct (sim_delete s s' k Hs). by split.
    - done.
    - done.
    - destruct (keyf o); done.
    - done.
    - destruct (store_items keyf l []) as [items|] eqn:E; [|done].
      apply store_items_all in E as [Hpi Hwi]; [|done|intros ??; by rewrite dget_nil|apply dwf_nil].
      unfold ts_replace. rewrite Hf, Hf', total_reindex by (intros ???; eapply Hpi; by apply elem_of_dget).
      destruct (reindex _ _ _); simpl. split; [|done]. by repeat split.
    - done.
    - rewrite Hf, Hf', dget_total. split; [|done]. destruct (dget n fs); [|done]. simpl.
      destruct (i o), (total_func i o); done.
    - rewrite Hf, Hf', dget_total. destruct (dget n fs); done.
    - done.
    - rewrite Hf, Hf', dget_total. destruct (dget n fs); done.
    - rewrite Hf, Hf', total_keys. done.
    - destruct (s_items s') eqn:E; [|done]. rewrite Hf, Hf', total_keys. destruct (dkeys fs ++ dkeys fs0) eqn:E2; [|done].
      apply app_eq_nil in E2 as [E2 E3]. destruct fs0; [|done]. simpl. split; [|done].
      rewrite !app_nil_r. repeat split; simpl; try done; try apply dwf_nil; try (intros ??; by rewrite dget_nil).
  Qed.

  Lemma content_same_ops k h h' : h.*1 = h'.*1 →
    Forall2 (λ e e', asks_index e.1 = false → e.2 = e'.2) h h' → content keyf k h = content keyf k h'.
  Proof.
    revert h'. induction h as [|[c r] h IH]; intros [|[c' r'] h']; try done. intros [= <- E] HF.
    inversion_clear HF as [|???? Hr HF']. specialize (IH _ E HF'). simpl in *.
    destruct (asks_index c) eqn:Ei.
    - destruct c; try done. destruct r, r'; done.
    - rewrite <-Hr by done. by rewrite IH.
  Qed.
  Lemma sim_exec s h s2 s' : exec sstep s h s2 → sim s s' → (∀ c r o, (c, r) ∈ h → o ∈ puts c → P o) →
    ∃ h' s2', exec sstep s' h' s2' ∧ sim s2 s2' ∧ h.*1 = h'.*1 ∧ Forall2 (λ e e', asks_index e.1 = false → e.2 = e'.2) h h'.
  Proof.
    intros Hex. revert s'. induction Hex as [|s c r s1 h s2 E Hex IH]; intros s' Hs Hh.
    - exists [], s'. split; [constructor|]. split; [done|]. by split.
    - destruct (sim_step s s' c Hs) as [Hs1 Hr].
      { apply Forall_forall. intros. eapply (Hh c r); [by left|done]. }
      rewrite E in Hs1, Hr. simpl in Hs1, Hr. destruct (sstep s' c) as [s1' r'] eqn:E'.
      destruct (IH _ Hs1) as (h' & s2' & H1 & H2 & H3 & H4). { intros. eapply Hh; [by right|done]. }
      exists ((c, r') :: h'), s2'. split; [by econstructor|]. split; [done|]. split; [simpl; by f_equal|]. by constructor.
  Qed.

  Lemma sim_init : sim (store_init fs) (store_init (total fs)).
  Proof. repeat split; simpl; try done; try apply dwf_nil; try (intros ??; by rewrite dget_nil). Qed.
  (** the run of the store with total index functions *)
  Lemma total_run h s : exec sstep (store_init fs) h s → (∀ c r o, (c, r) ∈ h → o ∈ puts c → P o) →
    ∃ h' s', exec sstep (store_init (total fs)) h' s' ∧ sim s s' ∧ ∀ k, content keyf k (reverse h) = content keyf k (reverse h').
  Proof.
    intros Hex Hh. destruct (sim_exec _ _ _ _ Hex sim_init Hh) as (h' & s' & H1 & H2 & H3 & H4).
    exists h', s'. split; [done|]. split; [done|]. intros k. apply content_same_ops.
    - by rewrite !fmap_reverse, H3.
    - by apply Forall2_reverse.
  Qed.
  Lemma stored_P h s k o : exec sstep (store_init fs) h s → (∀ c r o, (c, r) ∈ h → o ∈ puts c → P o) →
    content keyf k (reverse h) = Some o → P o.
  Proof.
    intros Hex Hh Hc. destruct (total_run _ _ Hex Hh) as (h' & s' & _ & (_ & _ & _ & _ & _ & Hp) & _).
    apply (Hp k). pose proof (proj1 (store_is_map keyf fs h s Hex) k) as E. simpl in E. by injection E as ->.
  Qed.

  Notation indexed h f k v := (∃ o, content keyf k (reverse h) = Some o ∧ has_value f o v).
  Lemma has_value_total f o v : is_Some (f o) → has_value (total_func f) o v ↔ has_value f o v.
  Proof. intros Hf. unfold has_value. by rewrite total_at. Qed.
  Lemma partial_queries h s n f : exec sstep (store_init fs) h s → (∀ c r o, (c, r) ∈ h → o ∈ puts c → P o) → (n, f) ∈ fs →
    (∀ v, ∃ ks, (sstep s (SIndexKeys n v)).2 = SKeys ks ∧ NoDup ks ∧ (∀ k, k ∈ ks ↔ indexed h f k v) ∧
          (sstep s (SByIndex n v)).2 = SObjs (omap (λ k, content keyf k (reverse h)) ks)) ∧
    (∃ vs, (sstep s (SListIndexFuncValues n)).2 = SValues vs ∧ NoDup vs ∧ ∀ v, v ∈ vs ↔ ∃ k, indexed h f k v).
  Proof.
    intros Hex Hh Hin. destruct (total_run _ _ Hex Hh) as (h' & s' & Hex' & Hs & Hc).
    destruct (store_index_queries keyf _ _ _ n (total_func f) total_good Hex' (total_in _ _ Hin)) as (H1 & H2 & _).
    assert (Hx : ∀ k v, indexed h f k v ↔ ∃ o, content keyf k (reverse h') = Some o ∧ has_value (total_func f) o v).
    { intros k v. rewrite <-Hc. split; intros (o & Ho & Hv); exists o; (split; [done|]);
        apply has_value_total; try done; apply (HP n); try done; by eapply stored_P. }
    split.
    - intros v. destruct (H1 v) as (ks & E1 & Hn & Hk & E2). exists ks.
      rewrite (proj2 (sim_step _ _ (SIndexKeys n v) Hs ltac:(constructor)) eq_refl).
      rewrite (proj2 (sim_step _ _ (SByIndex n v) Hs ltac:(constructor)) eq_refl).
      split; [done|]. split; [done|]. split; [intros k; rewrite Hk; by rewrite Hx|]. rewrite E2. f_equal.
      apply list_omap_ext. apply Forall2_same_length_lookup. split; [done|]. intros i x y ??. simplify_eq. by rewrite Hc.
    - destruct H2 as (vs & E & Hn & Hv). exists vs.
      rewrite (proj2 (sim_step _ _ (SListIndexFuncValues n) Hs ltac:(constructor)) eq_refl).
      split; [done|]. split; [done|]. intros v. rewrite Hv. by setoid_rewrite Hx.
  Qed.
  Lemma partial_no_error h s c : exec sstep (store_init fs) h s → (∀ c r o, (c, r) ∈ h → o ∈ puts c → P o) →
    (∀ o, o ∈ puts c → P o) →
    match c with
    | SAdd o | SUpdate o | SDelete o => is_Some (keyf o) → (sstep s c).2 = SNone
    | SReplace l => (∀ o, o ∈ l → is_Some (keyf o)) → (sstep s c).2 = SNone
    | _ => True
    end.
  Proof.
    intros Hex Hh Hc. destruct (total_run _ _ Hex Hh) as (h' & s' & Hex' & Hs & _).
    pose proof (store_no_error keyf _ _ _ c total_good Hex') as H.
    pose proof (proj2 (sim_step _ _ c Hs ltac:(by apply Forall_forall))) as E.
    destruct c; try done; rewrite E by done; exact H.
  Qed.
End total.

(** ** The namespace index *)
Local Open Scope string_scope.
Lemma named_value o ns name : named o ns name → meta_namespace_index_func o = Some [ns].
Proof. intros [(x & ->)|(d & x & -> & E & _)]; simpl; [done|]. by rewrite E. Qed.
Lemma value_named o ns : api_object o → has_value meta_namespace_index_func o ns ↔ ∃ name, named o ns name.
Proof.
  intros (ns' & name & Hn). unfold has_value. rewrite (named_value _ _ _ Hn). split.
  - intros (vs & [= <-] & ->%elem_of_list_singleton). eauto.
  - intros (name' & Hn'%named_value). rewrite (named_value _ _ _ Hn) in Hn'. simplify_eq. eexists; split; [done|by left].
Qed.
Lemma informer_wf : dwf informer_indexers.
Proof. apply NoDup_cons. split; [by intros ?%elem_of_nil|apply NoDup_nil_2]. Qed.
Lemma informer_nodup (n : string) (f : index_func pyobj pystr) o vs : (n, f) ∈ informer_indexers → f o = Some vs → NoDup vs.
Proof.
  intros Hin%elem_of_list_singleton. simplify_eq. unfold meta_namespace_index_func. intros E.
  repeat case_match; simplify_eq; apply NoDup_singleton.
Qed.
Lemma informer_api (n : string) (f : index_func pyobj pystr) o : (n, f) ∈ informer_indexers → api_object o → is_Some (f o).
Proof. intros Hin%elem_of_list_singleton (ns & name & Hn). simplify_eq. rewrite (named_value _ _ _ Hn). eauto. Qed.
Lemma informer_ns : ("namespace", meta_namespace_index_func) ∈ informer_indexers.
Proof. by left. Qed.

Notation iev := (sop pystr pyobj pystr string * sres pystr pyobj pystr string)%type.
Lemma ns_indexed (h : list iev) s k ns : exec istep (store_init informer_indexers) h s → only_api_objects h →
  (∃ o, content store_key k (reverse h) = Some o ∧ has_value meta_namespace_index_func o ns) ↔
  ∃ o name, content store_key k (reverse h) = Some o ∧ named o ns name.
Proof.
  intros Hex Hh. assert (Hp : ∀ o, content store_key k (reverse h) = Some o → api_object o).
  { intros o. eapply (stored_P store_key informer_indexers api_object); eauto using informer_wf, informer_api. }
  split.
  - intros (o & Ho & (name & Hn)%value_named); eauto.
  - intros (o & name & Ho & Hn). exists o. split; [done|]. apply value_named; eauto.
Qed.
Lemma ns_keys (h : list iev) s ns : exec istep (store_init informer_indexers) h s → only_api_objects h →
  ∃ ks, (istep s (SIndexKeys "namespace" ns)).2 = SKeys ks ∧ NoDup ks ∧
    (∀ k, k ∈ ks ↔ ∃ o name, content store_key k (reverse h) = Some o ∧ named o ns name) ∧
    (istep s (SByIndex "namespace" ns)).2 = SObjs (omap (λ k, content store_key k (reverse h)) ks).
Proof.
  intros Hex Hh.
  destruct (partial_queries store_key informer_indexers api_object informer_wf informer_nodup informer_api h s _ _ Hex Hh informer_ns) as [H _].
  destruct (H ns) as (ks & E1 & Hn & Hk & E2). exists ks. split; [done|]. split; [done|]. split; [|done].
  intros k. rewrite Hk. by eapply ns_indexed.
Qed.
Lemma ns_values (h : list iev) s : exec istep (store_init informer_indexers) h s → only_api_objects h →
  ∃ vs, (istep s (SListIndexFuncValues "namespace")).2 = SValues vs ∧ NoDup vs ∧
    ∀ ns, ns ∈ vs ↔ ∃ k o name, content store_key k (reverse h) = Some o ∧ named o ns name.
Proof.
  intros Hex Hh.
  destruct (partial_queries store_key informer_indexers api_object informer_wf informer_nodup informer_api h s _ _ Hex Hh informer_ns) as [_ (vs & E & Hn & Hv)].
  exists vs. split; [done|]. split; [done|]. intros ns. rewrite Hv. split.
  - intros (k & Hk%(ns_indexed _ _ _ _ Hex Hh)). eauto.
  - intros (k & Hk). exists k. by eapply ns_indexed.
Qed.
(** every stored object is under exactly one namespace *)
Lemma ns_partition (h : list iev) s k o : exec istep (store_init informer_indexers) h s → only_api_objects h →
  (istep s (SGetByKey k)).2 = SOpt (Some o) →
  ∃ ns, (∃ name, named o ns name) ∧ ∀ ns' ks, (istep s (SIndexKeys "namespace" ns')).2 = SKeys ks → k ∈ ks ↔ ns' = ns.
Proof.
  intros Hex Hh Ho. unfold istep in Ho. rewrite (proj1 (store_is_map _ _ _ _ Hex) k) in Ho. injection Ho as Ho.
  assert (api_object o) as (ns & name & Hn).
  { eapply (stored_P store_key informer_indexers api_object); eauto using informer_wf, informer_api. }
  exists ns. split; [eauto|]. intros ns' ks E. destruct (ns_keys h s ns' Hex Hh) as (ks' & E' & _ & Hk & _).
  rewrite E in E'. injection E' as <-. rewrite Hk, Ho. split.
  - intros (? & ? & [= <-] & Hn'%named_value). apply named_value in Hn. rewrite Hn in Hn'. by injection Hn'.
  - intros ->. eauto.
Qed.
Lemma ns_no_error (h : list iev) s o : exec istep (store_init informer_indexers) h s → only_api_objects h → api_object o →
  (istep s (SAdd o)).2 = SNone ∧ (istep s (SUpdate o)).2 = SNone ∧ (istep s (SDelete o)).2 = SNone.
Proof.
  intros Hex Hh (ns & name & Hn).
  assert (is_Some (store_key o)) as Hk. { unfold store_key. rewrite (proj2 (reader_key _ _ _ Hn)). eauto. }
  assert (Hp : ∀ o', o' ∈ [o] → api_object o') by (intros ? ->%elem_of_list_singleton; unfold api_object; eauto).
  split; [|split]; [eapply (partial_no_error store_key informer_indexers api_object informer_wf informer_nodup informer_api h s (SAdd o))
    |eapply (partial_no_error store_key informer_indexers api_object informer_wf informer_nodup informer_api h s (SUpdate o))
    |eapply (partial_no_error store_key informer_indexers api_object informer_wf informer_nodup informer_api h s (SDelete o))]; eauto.
  by intros ? ?%elem_of_nil.
Qed.
Lemma ns_replace_no_error (h : list iev) s l : exec istep (store_init informer_indexers) h s → only_api_objects h → Forall api_object l →
  (istep s (SReplace l)).2 = SNone.
Proof.
  intros Hex Hh Hl. rewrite Forall_forall in Hl.
  eapply (partial_no_error store_key informer_indexers api_object informer_wf informer_nodup informer_api h s (SReplace l)); eauto.
  intros o (ns & name & Hn)%Hl. unfold store_key. rewrite (proj2 (reader_key _ _ _ Hn)). eauto.
Qed.

(** ** Objects the key function takes but the index function does not *)
Lemma explicit_add (h : list iev) s k : exec istep (store_init informer_indexers) h s →
  content store_key (Some k) (reverse h) = None →
  (istep s (SAdd (ExplicitKey k))).2 = SIndexError ∧
  (istep (istep s (SAdd (ExplicitKey k))).1 (SGetByKey (Some k))).2 = SOpt (Some (ExplicitKey k)) ∧
  ∀ ns, (istep (istep s (SAdd (ExplicitKey k))).1 (SIndexKeys "namespace" ns)).2 = (istep s (SIndexKeys "namespace" ns)).2.
Proof.
  intros Hex Hc. pose proof (proj1 (store_is_map _ _ _ _ Hex) (Some k)) as E. simpl in E. rewrite Hc in E. injection E as E.
  pose proof (indexers_fixed _ _ _ _ Hex) as Hf. unfold istep. simpl. unfold ts_add. rewrite E, Hf. simpl.
  split; [done|]. split; [by rewrite dget_dset_eq|]. done.
Qed.
(** stays: no delete removes it *)
Lemma explicit_stays (h : list iev) s k x o : exec istep (store_init informer_indexers) h s →
  content store_key k (reverse h) = Some (ExplicitKey x) → store_key o = Some k → istep s (SDelete o) = (s, SIndexError).
Proof.
  intros Hex Hc Hk. pose proof (proj1 (store_is_map _ _ _ _ Hex) k) as E. simpl in E. rewrite Hc in E. injection E as E.
  pose proof (indexers_fixed _ _ _ _ Hex) as Hf. unfold istep. simpl. rewrite Hk. unfold ts_delete. rewrite E, Hf. simpl. by destruct s; simpl in *; subst.
Qed.
(** and an object that replaces it is not in the index either *)
Lemma explicit_update (h : list iev) s k x o : exec istep (store_init informer_indexers) h s →
  content store_key k (reverse h) = Some (ExplicitKey x) → store_key o = Some k →
  (istep s (SAdd o)).2 = SIndexError ∧ (istep (istep s (SAdd o)).1 (SGetByKey k)).2 = SOpt (Some o) ∧
  ∀ ns, (istep (istep s (SAdd o)).1 (SIndexKeys "namespace" ns)).2 = (istep s (SIndexKeys "namespace" ns)).2.
Proof.
  intros Hex Hc Hk. pose proof (proj1 (store_is_map _ _ _ _ Hex) k) as E. simpl in E. rewrite Hc in E. injection E as E.
  pose proof (indexers_fixed _ _ _ _ Hex) as Hf. unfold istep. simpl. rewrite Hk. unfold ts_add. rewrite E, Hf. simpl.
  split; [done|]. split; [by rewrite dget_dset_eq|]. done.
Qed.

(** ** Concrete runs *)
Definition pod : pyobj := Typed (Some (Some (Some "a", Some "p"))) "".
Definition pod2 : pyobj := Unstructured (Some [("namespace", Some "b"); ("name", Some "q")]) "".
Definition node : pyobj := Typed (Some (Some (None, Some "n"))) "".
Definition node2 : pyobj := Typed (Some (Some (Some "", Some "m"))) "".
Definition ns_run : list iev := [(SAdd pod, SNone); (SReplace [pod; pod2; node], SNone); (SAdd node2, SNone); (SDelete (Tombstone (Some "a/p") pod), SNone)].
Lemma ns_run_ex : ∃ s, exec istep (store_init informer_indexers) ns_run s ∧ only_api_objects ns_run ∧
  (istep s (SByIndex "namespace" (Some "b"))).2 = SObjs [pod2] ∧ (istep s (SByIndex "namespace" (Some "a"))).2 = SObjs [] ∧
  (istep s (SByIndex "namespace" None)).2 = SObjs [node] ∧ (istep s (SByIndex "namespace" (Some ""))).2 = SObjs [node2] ∧
  (istep s (SListIndexFuncValues "namespace")).2 = SValues [Some "b"; None; Some ""].
Proof.
  eexists. split; [|split].
  - repeat (eapply exec_cons; [vm_compute; reflexivity|]). apply exec_nil.
  - intros c r o Hin Ho. unfold ns_run in Hin.
    assert (o ∈ [pod; pod2; node; node2]) as Hoo.
    { repeat (apply elem_of_cons in Hin as [Hin|Hin]; [simplify_eq/=; set_solver|]). by apply elem_of_nil in Hin. }
    repeat (apply elem_of_cons in Hoo as [->|Hoo]); [..|by apply elem_of_nil in Hoo].
    + eexists _, _. left. by eexists.
    + exists (Some "b"), (Some "q"). right. eexists _, _. split; [done|]. split; vm_compute; reflexivity.
    + eexists _, _. left. by eexists.
    + eexists _, _. left. by eexists.
  - vm_compute. done.
Qed.
(** the store takes no and an empty namespace for the same, the index does not *)
Lemma ns_empty_refuted : ∃ o1 o2 name, named o1 None name ∧ named o2 (Some "") name ∧ store_key o1 = store_key o2 ∧
  ∃ s, exec istep (store_init informer_indexers) [(SAdd o2, SNone)] s ∧
    (istep s (SGet o1)).2 = SOpt (Some o2) ∧ (istep s (SIndex "namespace" o1)).2 = SObjs [].
Proof.
  exists (Typed (Some (Some (None, Some "n"))) ""), (Typed (Some (Some (Some "", Some "n"))) ""), (Some "n").
  split; [left; by eexists|]. split; [left; by eexists|]. split; [done|]. eexists. split; [eapply exec_cons; [vm_compute; reflexivity|apply exec_nil]|].
  vm_compute. done.
Qed.
Lemma explicit_refuted : ∃ s, exec istep (store_init informer_indexers) [(SAdd (ExplicitKey "a/p"), SIndexError); (SAdd pod, SIndexError)] s ∧
  (istep s (SGet pod)).2 = SOpt (Some pod) ∧ (istep s (SByIndex "namespace" (Some "a"))).2 = SObjs [].
Proof.
  eexists. split; [repeat (eapply exec_cons; [vm_compute; reflexivity|]); apply exec_nil|]. vm_compute. done.
Qed.
