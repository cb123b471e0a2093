From Verif Require Import Base Store_model Store_spec Store_proofs Alias_model Alias_spec.

Section proofs.
  Context {K R O V N : Type} `{EqDecision K} `{EqDecision R} `{EqDecision V} `{EqDecision N}.
  Context (keyf : O → option K) (fs : dict N (index_func O V)).
  Notation astate := (astate K R O V N).
  Notation event := (aop K R O V N * sres K R V N)%type.
  Notation astep := (astep (R:=R) keyf fs).
  Notation holder := (holder keyf).
  Notation aindexers := (aindexers (R:=R) fs).
  Implicit Types (s : astate) (k : K) (r : R) (o : O) (v : V) (n : N) (h : list event) (hp : R → O).

  Lemma last_keyed_ext (g1 g2 : R → option K) k (l : list R) : (∀ r, g1 r = g2 r) → last_keyed g1 k l = last_keyed g2 k l.
  Proof. intros Hx. induction l as [|r l IH]; simpl; [done|]. by rewrite IH, Hx. Qed.

  (** ** what a key holds *)
  Record AI hp h s : Prop := {
    ai_heap : ∀ r, a_heap s r = value hp (reverse h) r;
    ai_wf : dwf (a_items s);
    ai_get : ∀ k, dget k (a_items s) = holder hp k (reverse h)
  }.
  Lemma AI_init hp : AI hp [] (alias_init hp).
  Proof. split; simpl; [done|apply dwf_nil|done]. Qed.
  Lemma AI_step hp h s c : AI hp h s → AI hp (h ++ [(c, (astep s c).2)]) (astep s c).1.
  Proof.
    intros [Hh Hwf Hg]. destruct c as [c|r o].
    2:{ split; simpl; rewrite ?reverse_snoc; simpl; [|done|done].
        intros r'. unfold edit. destruct (decide (r' = r)); [done|apply Hh]. }
    assert (Hk : ∀ r, akey keyf (a_heap s) r = keyf (value hp (reverse h) r)) by (intros r; unfold akey; by rewrite Hh).
    simpl. destruct (sstep (akey keyf (a_heap s)) (astore fs s) c) as [t x] eqn:Hs. simpl.
    split; simpl; rewrite ?reverse_snoc; simpl; [done| |].
    - destruct c as [r|r|r| | |r|k0|l| |n r|n v|n|n v| |fs']; simpl in Hs; simplify_eq; try done;
        try (destruct (akey keyf (a_heap s) r) as [k0|]; [|by simplify_eq]); try (by simplify_eq).
      1,2: pose proof (ts_add_items k0 r (astore fs s)) as (Hi & _); rewrite Hs in Hi; simpl in Hi; rewrite Hi; by apply dwf_dset.
      + pose proof (ts_delete_items k0 (astore fs s)) as (_ & _ & _ & Hi). rewrite Hs in Hi. by apply Hi.
      + destruct (store_items _ l []) as [items|] eqn:Hl; [|by simplify_eq].
        apply store_items_spec in Hl as [Hl _]; [|apply dwf_nil]. unfold ts_replace in Hs. destruct (reindex _ _ _) as [? []]; by simplify_eq.
      + destruct (dget n (aindexers (a_heap s))) as [f|]; [|by simplify_eq]. destruct (f r); by simplify_eq.
      + destruct (dget n (aindexers (a_heap s))); by simplify_eq.
      + destruct (dget n (aindexers (a_heap s))); by simplify_eq.
      + destruct (a_items s) eqn:Hi; [|simplify_eq; simpl; by rewrite Hi]. destruct (dkeys _ ++ _); simplify_eq; simpl; rewrite ?Hi; apply dwf_nil.
    - intros k. destruct c as [r|r|r| | |r|k0|l| |n r|n v|n|n v| |fs']; simpl in Hs; simplify_eq; try apply Hg.
      1,2: rewrite Hk in Hs; destruct (keyf (value hp (reverse h) r)) as [k0|] eqn:Hr; [|simplify_eq; apply Hg];
        pose proof (ts_add_items k0 r (astore fs s)) as (Hi & _ & Hne); rewrite Hs in Hi, Hne; simpl in Hi, Hne;
        assert (Hd : dget k (s_items t) = if decide (Some k0 = Some k) then Some r else holder hp k (reverse h))
          by (rewrite Hi, dget_dset; repeat case_decide; simplify_eq; try done; apply Hg);
        rewrite Hd; destruct x; try done; by destruct (Hne o).
      + rewrite Hk in Hs. destruct (keyf (value hp (reverse h) r)) as [k0|] eqn:Hr; [|simplify_eq; apply Hg].
        pose proof (ts_delete_items k0 (astore fs s)) as (_ & Hne & Hi & _). rewrite Hs in Hi, Hne. simpl in Hi, Hne.
        destruct Hi as [[-> Hi]|[Hx Hi]].
        * rewrite Hi. repeat case_decide; simplify_eq; try done; try apply Hg.
        * rewrite Hi. destruct x; done || apply Hg.
      + rewrite Hk in Hs. destruct (keyf (value hp (reverse h) r)); simplify_eq; apply Hg.
      + destruct (store_items _ l []) as [items|] eqn:Hl; [|simplify_eq; apply Hg].
        apply store_items_spec in Hl as [_ Hl]; [|apply dwf_nil]. unfold ts_replace in Hs. destruct (reindex _ _ _) as [ixs e]; simplify_eq. simpl.
        assert (He : dget k items = last_keyed (λ r, keyf (value hp (reverse h) r)) k l).
        { rewrite Hl. rewrite <-(last_keyed_ext _ _ k l Hk). by destruct (last_keyed _ k l). }
        by destruct e.
      + destruct (dget n (aindexers (a_heap s))) as [f|]; [|simplify_eq; apply Hg]. destruct (f r); simplify_eq; [|apply Hg].
        unfold fetched. destruct (fetch _ _); apply Hg.
      + destruct (dget n (aindexers (a_heap s))); simplify_eq; apply Hg.
      + destruct (dget n (aindexers (a_heap s))); simplify_eq; [|apply Hg]. unfold fetched. destruct (fetch _ _); apply Hg.
      + rewrite <-Hg. destruct (a_items s) eqn:Hi; [|simplify_eq; simpl; by rewrite Hi]. destruct (dkeys _ ++ _); simplify_eq; simpl; by rewrite ?Hi.
  Qed.
  Lemma AI_exec hp h s : exec astep (alias_init hp) h s → AI hp h s.
  Proof. apply (exec_trace_inv astep (AI hp)); [apply AI_init|]. intros; by apply AI_step. Qed.

  Lemma alias_by_key hp h s : exec astep (alias_init hp) h s →
    (∀ k, (astep s (ACall (SGetByKey k))).2 = SOpt (holder hp k (reverse h))) ∧
    ∃ ks, (astep s (ACall SListKeys)).2 = SKeys ks ∧ NoDup ks ∧ (∀ k, k ∈ ks ↔ is_Some (holder hp k (reverse h))) ∧
      (astep s (ACall SList)).2 = SObjs (omap (λ k, holder hp k (reverse h)) ks).
  Proof.
    intros [Hh Hwf Hg]%AI_exec. split; [intros k; simpl; by rewrite Hg|].
    exists (dkeys (a_items s)). simpl. split; [done|]. split; [done|]. split; [intros k; by rewrite elem_of_dkeys, Hg|].
    f_equal. assert (He : ∀ k r, (k, r) ∈ a_items s → holder hp k (reverse h) = Some r).
    { intros k r Hin. rewrite <-Hg. by apply elem_of_dget. }
    clear Hg Hwf. unfold dvals, dkeys. induction (a_items s) as [|[k r] d IH]; [done|]. csimpl. rewrite (He k r) by left. f_equal.
    apply IH. intros k' r' ?. apply He. by right.
  Qed.

  (** ** the indices of a careful history *)
  Lemma elem_of_aindexers hp n (g : index_func R V) : (n, g) ∈ aindexers hp ↔ ∃ f, (n, f) ∈ fs ∧ g = λ r, f (hp r).
  Proof.
    unfold aindexers. rewrite elem_of_list_fmap. split.
    - intros ([n' f] & [=-> ->] & Hin). by exists f.
    - intros (f & Hin & ->). by exists (n, f).
  Qed.
  Lemma aindexers_good hp : good_indexers fs → good_indexers (aindexers hp).
  Proof.
    intros [Hwf Hg]. split.
    - unfold dwf, dkeys, aindexers in *. rewrite <-list_fmap_compose. exact Hwf.
    - intros n g (f & Hin & ->)%elem_of_aindexers r. by apply (Hg n).
  Qed.
  Lemma edit_other r o hp r' : r' ≠ r → edit r o hp r' = hp r'.
  Proof. intros. unfold edit. by rewrite decide_False. Qed.
  Lemma II_heap hp hp' (items : dict K R) ixs : (∀ k r, dget k items = Some r → ∀ n f, (n, f) ∈ fs → f (hp r) = f (hp' r)) →
    II (aindexers hp) items ixs → II (aindexers hp') items ixs.
  Proof.
    intros Heq HI n g (f & Hin & ->)%elem_of_aindexers.
    eapply idx_rel_ext; [|apply (HI n (λ r, f (hp r))); apply elem_of_aindexers; eauto].
    intros k v. unfold vrel, has_value. split; intros (r & Hr & vs & Hvs & Hv); exists r; split; try done; exists vs; split; try done.
    - by rewrite <-(Heq _ _ Hr n f Hin).
    - by rewrite (Heq _ _ Hr n f Hin).
  Qed.
  Lemma alias_indices hp h s : good_indexers fs → exec astep (alias_init hp) h s →
    careful keyf fs hp (reverse h) → II (aindexers (a_heap s)) (a_items s) (a_indices s).
  Proof.
    intros Hgood Hex. enough (AI hp h s ∧ (careful keyf fs hp (reverse h) → II (aindexers (a_heap s)) (a_items s) (a_indices s))) by tauto.
    revert Hex. apply (exec_trace_inv astep (λ h s, AI hp h s ∧ (careful keyf fs hp (reverse h) → II (aindexers (a_heap s)) (a_items s) (a_indices s)))).
    { split; [apply AI_init|]. intros _. simpl. apply II_nil. }
    clear h s. intros h s c _ [HA HI]. split; [by apply AI_step|]. destruct HA as [Hh Hwf Hg]. rewrite reverse_snoc.
    destruct c as [c|r o]; cycle 1.
    { simpl. intros [Hc Hh2]. eapply II_heap; [|by apply HI]. intros k r' Hr' n f Hnf. unfold edit. destruct (decide (r' = r)) as [->|]; [|done].
      destruct Hc as [Hc|Hc]; [by rewrite Hg in Hr'; destruct (Hc k)|]. by rewrite (Hc n f Hnf), Hh. }
    simpl. destruct (sstep (akey keyf (a_heap s)) (astore fs s) c) as [t x] eqn:Hs. simpl.
    assert (Hstep : II (aindexers (a_heap s)) (a_items s) (a_indices s) → II (aindexers (a_heap s)) (s_items t) (s_indices t)).
    { intros HI'. pose proof (II_step (akey keyf (a_heap s)) (aindexers (a_heap s)) (astore fs s) c eq_refl Hwf (aindexers_good _ Hgood) HI') as (_ & HI2 & _).
      by rewrite Hs in HI2. }
    destruct c as [r|r|r| | |r|k0|l| |n r|n v|n|n v| |fs']; try (intros Hc; by apply Hstep, HI).
    simpl in Hs. destruct (store_items _ l []) as [items|o] eqn:Hl.
    - intros _. apply store_items_spec in Hl as [Hl _]; [|apply dwf_nil]. unfold ts_replace in Hs. simpl in Hs.
      destruct (II_reindex (aindexers (a_heap s)) items [] [] (aindexers_good _ Hgood) (II_nil _) Hl) as (ixs' & He & HI').
      rewrite He in Hs. by simplify_eq.
    - simplify_eq. intros Hc. by apply HI.
  Qed.

  (** an object with key [k] and value [v] is stored *)
  Notation indexed hp h f k v := (∃ r, holder hp k (reverse h) = Some r ∧ has_value f (value hp (reverse h) r) v).
  Lemma alias_careful hp h s n f : good_indexers fs → exec astep (alias_init hp) h s → careful keyf fs hp (reverse h) → (n, f) ∈ fs →
    (∀ v, ∃ ks, (astep s (ACall (SIndexKeys n v))).2 = SKeys ks ∧ NoDup ks ∧ (∀ k, k ∈ ks ↔ indexed hp h f k v) ∧
          (astep s (ACall (SByIndex n v))).2 = SObjs (omap (λ k, holder hp k (reverse h)) ks)) ∧
    (∃ vs, (astep s (ACall (SListIndexFuncValues n))).2 = SValues vs ∧ NoDup vs ∧ ∀ v, v ∈ vs ↔ ∃ k, indexed hp h f k v).
  Proof.
    intros Hgood Hex Hc Hnf. pose proof (alias_indices hp h s Hgood Hex Hc) as HI. destruct (AI_exec _ _ _ Hex) as [Hh Hwf Hg].
    assert (Hin : (n, λ r, f (a_heap s r)) ∈ aindexers (a_heap s)) by (apply elem_of_aindexers; eauto).
    pose proof (HI _ _ Hin) as HR. change (ixof n (a_indices s)) with (index_of n (astore fs s)) in HR.
    assert (Hn : dget n (aindexers (a_heap s)) = Some (λ r, f (a_heap s r))) by (apply elem_of_dget; [apply (aindexers_good _ Hgood)|done]).
    assert (Hv : ∀ k v, vrel (λ r, f (a_heap s r)) (a_items s) k v ↔ indexed hp h f k v).
    { intros k v. unfold vrel, has_value. rewrite Hg. split; intros (r & Hr & Hx); exists r; split; try done; [by rewrite <-Hh|by rewrite Hh]. }
    split.
    - intros v. exists (set_of v (index_of n (astore fs s))). cbn -[fetched set_of index_of aindexers]. rewrite Hn. split; [done|]. split; [by eapply set_of_nodup|]. split.
      + intros k. by rewrite (ir_rel _ _ HR), Hv.
      + cbn [snd]. unfold fetched. rewrite fetch_spec.
        * f_equal. clear -Hg. induction (set_of v (index_of n (astore fs s))) as [|k ks IH]; [done|]. csimpl. rewrite Hg. by rewrite IH.
        * intros k Hk. apply (ir_rel _ _ HR) in Hk as (r & ? & _). eauto.
    - exists (dkeys (index_of n (astore fs s))). split; [done|]. split; [apply HR|]. intros v. rewrite elem_of_dkeys. split.
      + intros [set Hs]. destruct (ir_set _ _ HR v set Hs) as [Hne _]. destruct set as [|k set]; [done|]. exists k. apply Hv, (ir_rel _ _ HR).
        unfold set_of. rewrite Hs. left.
      + intros [k Hk]. apply Hv, (ir_rel _ _ HR) in Hk. unfold set_of in Hk. destruct (dget v (index_of n (astore fs s))); [eauto|]. by apply elem_of_nil in Hk.
  Qed.
  Lemma alias_no_error hp h s r c : good_indexers fs → exec astep (alias_init hp) h s → careful keyf fs hp (reverse h) →
    is_Some (keyf (value hp (reverse h) r)) → c = SAdd r ∨ c = SUpdate r ∨ c = SDelete r → (astep s (ACall c)).2 = SNone.
  Proof.
    intros Hgood Hex Hc Hk Hcc. pose proof (alias_indices hp h s Hgood Hex Hc) as HI. destruct (AI_exec _ _ _ Hex) as [Hh Hwf _].
    pose proof (II_step (akey keyf (a_heap s)) (aindexers (a_heap s)) (astore fs s) c eq_refl Hwf (aindexers_good _ Hgood) HI) as (_ & _ & Hr).
    rewrite <-Hh in Hk. cbn [Alias_model.astep]. destruct (sstep _ _ _) as [t x]. simpl in Hr |- *. destruct Hcc as [->|[->| ->]]; by apply Hr.
  Qed.
  (** editing only copies is careful *)
  Lemma holder_given hp k h r : holder hp k h = Some r → r ∈ given h.
  Proof.
    induction h as [|[[c|r' o] x] h IH]; simpl; [done| |done].
    destruct c as [r'|r'|r'| | |r'|k0|l| |n r'|n v|n|n v| |fs']; destruct x; try done; try (case_decide; [intros; simplify_eq; left|]); try (by right; apply IH); try done.
    all: try (intros ?; by right; apply IH).
    all: try (intros ?; apply elem_of_app; right; by apply IH).
    all: intros Hl; apply last_keyed_key in Hl as [? _]; apply elem_of_app; by left.
  Qed.
  Lemma copies_careful hp h : (∀ r, r ∈ edited h → r ∉ given h) → careful keyf fs hp h.
  Proof.
    induction h as [|[c x] h IH]; [done|]. intros Hd.
    assert (Hc : careful keyf fs hp h).
    { apply IH. intros r Hr Hg. destruct c as [c|r' o]; [|apply (Hd r); [by right|done]].
      apply (Hd r); [done|]. destruct c; simpl; try done; try (by right); try (apply elem_of_app; by right). }
    destruct c as [c|r' o]; simpl; [by destruct c; destruct x|]. split; [|done]. left. intros k Hk. apply holder_given in Hk.
    apply (Hd r'); [left|done].
  Qed.

  (** ** a key left behind in an index *)
  Definition inset k v (ix : dict V (list K)) : Prop := k ∈ set_of v ix.
  Lemma insert_keeps (gs : dict N (index_func R V)) r k k' n v ixs :
    inset k v (ixof n ixs) → inset k v (ixof n (insert_indices gs r k' ixs).1).
  Proof.
    revert ixs. induction gs as [|[n' g] gs IH]; intros ixs Hi; simpl; [done|]. destruct (g r) as [vs|]; [|done]. apply IH.
    rewrite ixof_dset. destruct (decide (n = n')) as [->|]; [|done]. unfold ixof in Hi. revert Hi. generalize (default [] (dget n' ixs)).
    induction vs as [|v' vs IHv]; intros ix Hi; simpl; [done|]. apply IHv. unfold inset, index_add. rewrite set_of_dset.
    destruct (decide (v = v')) as [->|]; [|done]. apply elem_of_sadd. by right.
  Qed.
  Lemma remove_keeps k k' v vs (ix : dict V (list K)) : k ≠ k' → inset k v ix → inset k v (index_remove k' vs ix).1.
  Proof.
    intros Hne. revert ix. induction vs as [|v' vs IH]; intros ix Hi; simpl; [done|].
    destruct (dget v' ix) as [[|y ys]|] eqn:Hv; [by apply IH| |by apply IH]. case_decide; [|done].
    assert (Hin : v = v' → k ∈ srem k' (y :: ys)).
    { intros ->. apply elem_of_srem. split; [|done]. unfold inset, set_of in Hi. by rewrite Hv in Hi. }
    destruct (srem k' (y :: ys)) as [|z zs] eqn:Hr.
    - apply IH. unfold inset. rewrite set_of_ddel. case_decide; [|done]. by apply Hin.
    - apply IH. unfold inset. rewrite set_of_dset. case_decide; [|done]. by apply Hin.
  Qed.
  Lemma delete_keeps (gs : dict N (index_func R V)) r k k' n v ixs : k ≠ k' →
    inset k v (ixof n ixs) → inset k v (ixof n (delete_indices gs r k' ixs).1).
  Proof.
    intros Hne. revert ixs. induction gs as [|[n' g] gs IH]; intros ixs Hi; simpl; [done|]. destruct (g r) as [vs|]; [|done].
    destruct (dget n' ixs) as [ix|] eqn:Hx; [|by apply IH]. pose proof (remove_keeps k k' v vs ix Hne) as Hk.
    destruct (index_remove k' vs ix) as [ix' ok]. simpl in Hk.
    assert (Hi' : inset k v (ixof n (dset n' ix' ixs))).
    { rewrite ixof_dset. case_decide; [|done]. subst n'. apply Hk. unfold ixof in Hi. by rewrite Hx in Hi. }
    destruct ok; [by apply IH|done].
  Qed.
  Lemma ghost_step s c k n v :
    match c with
    | ACall (SAdd r) | ACall (SUpdate r) => keyf (a_heap s r) ≠ Some k
    | ACall (SReplace _) => False
    | _ => True
    end → dget k (a_items s) = None → inset k v (ixof n (a_indices s)) →
    dget k (a_items (astep s c).1) = None ∧ inset k v (ixof n (a_indices (astep s c).1)).
  Proof.
    intros Hc Hk Hi. destruct c as [c|r o]; [|done]. simpl. destruct (sstep (akey keyf (a_heap s)) (astore fs s) c) as [t x] eqn:Hs. simpl.
    destruct c as [r|r|r| | |r|k0|l| |n' r|n' v'|n'|n' v'| |fs']; simpl in Hs; simplify_eq; try done.
    1,2: unfold akey in Hs; destruct (keyf (a_heap s r)) as [k'|]; [|by simplify_eq]; assert (Hne : k ≠ k') by congruence;
      unfold ts_add, update_indices in Hs; simpl in Hs; destruct (dget k' (a_items s)) as [r'|];
      [pose proof (delete_keeps (aindexers (a_heap s)) r' k k' n v _ Hne Hi) as Hd; destruct (delete_indices _ _ _ _) as [ixs e]; simpl in Hd;
       pose proof (insert_keeps (aindexers (a_heap s)) r k k' n v _ Hd) as Ha; destruct e; [destruct (insert_indices _ _ _ _)| |];
       simplify_eq; simpl; rewrite dget_dset_ne by done; done
      |pose proof (insert_keeps (aindexers (a_heap s)) r k k' n v _ Hi) as Ha; destruct (insert_indices _ _ _ _);
       simplify_eq; simpl; rewrite dget_dset_ne by done; done].
    - destruct (akey keyf (a_heap s) r) as [k'|]; [|by simplify_eq]. unfold ts_delete in Hs. simpl in Hs.
      destruct (dget k' (a_items s)) as [r'|] eqn:Hr; [|by simplify_eq]. assert (Hne : k ≠ k') by congruence.
      pose proof (delete_keeps (aindexers (a_heap s)) r' k k' n v _ Hne Hi) as Hd. destruct (delete_indices _ _ _ _) as [ixs []]; simplify_eq; simpl; try done.
      by rewrite dget_ddel_ne.
    - destruct (akey keyf (a_heap s) r); by simplify_eq.
    - destruct (dget n' _) as [g|]; [|by simplify_eq]. destruct (g r); by simplify_eq.
    - destruct (dget n' _); by simplify_eq.
    - destruct (dget n' _); by simplify_eq.
    - destruct (a_items s) eqn:Hit; [|simplify_eq; simpl; by rewrite Hit]. destruct (dkeys _ ++ _); simplify_eq; simpl; rewrite ?Hit; done.
  Qed.
  Lemma ghost_exec hp h h' s s' k n v : AI hp h s → exec astep s h' s' → spared keyf hp k (reverse h) h' →
    dget k (a_items s) = None → inset k v (ixof n (a_indices s)) →
    dget k (a_items s') = None ∧ inset k v (ixof n (a_indices s')).
  Proof.
    intros HA Hex. revert h HA. induction Hex as [s|s c x s1 h' s2 Hs Hex IH]; intros h HA Hsp Hk Hi; [done|].
    simpl in Hsp. destruct Hsp as [Hc Hsp]. pose proof (AI_step hp h s c HA) as HA1. rewrite Hs in HA1. simpl in HA1.
    destruct (ghost_step s c k n v) as [Hk1 Hi1]; [|done|done|].
    - destruct c as [c|]; [|done]. destruct c; try done; by rewrite (ai_heap _ _ _ HA).
    - rewrite Hs in Hk1, Hi1. simpl in Hk1, Hi1. apply (IH _ HA1); [by rewrite reverse_snoc|done|done].
  Qed.
  Lemma fetch_missing (items : dict K R) ks k : k ∈ ks → dget k items = None → fetch items ks = None.
  Proof.
    intros Hin Hk. induction ks as [|k' ks IH]; [by apply elem_of_nil in Hin|]. simpl. apply elem_of_cons in Hin as [<-|Hin]; [by rewrite Hk|].
    rewrite (IH Hin). by destruct (dget k' items).
  Qed.
  Lemma ghost_stays hp h s h' s' k n v ks : exec astep (alias_init hp) h s →
    (astep s (ACall (SIndexKeys n v))).2 = SKeys ks → k ∈ ks → (astep s (ACall (SGetByKey k))).2 = SOpt None →
    exec astep s h' s' → spared keyf hp k (reverse h) h' → (astep s' (ACall (SByIndex n v))).2 = SKeyError.
  Proof.
    intros Hex Hks Hin Hk Hex' Hsp. cbn -[set_of index_of aindexers] in Hks. destruct (dget n (aindexers (a_heap s))) as [g|] eqn:Hn; [|done].
    simpl in Hks. simplify_eq. simpl in Hk. simplify_eq.
    destruct (ghost_exec hp h h' s s' k n v (AI_exec _ _ _ Hex) Hex' Hsp) as [Hk' Hi']; [congruence|done|].
    cbn -[fetched set_of index_of aindexers]. destruct (dget n (aindexers (a_heap s'))) as [g'|] eqn:Hn'; [|done].
    simpl. unfold fetched. by rewrite (fetch_missing _ _ k).
  Qed.
End proofs.

(** ** cases: objects are a name and a label, the index is by label *)
Definition acase_key (o : nat * nat) : option nat := Some o.1.
Definition acase_fs : dict nat (index_func (nat * nat) nat) := [(0, λ o, Some [o.2])].
Definition acase_heap (r : nat) : nat * nat := match r with 0 => (1, 5) | 1 => (2, 6) | _ => (1, 7) end.
Notation acase_step := (astep (R:=nat) acase_key acase_fs).
Notation acase_event := (aop nat nat (nat * nat) nat nat * sres nat nat nat nat)%type.

Lemma acase_good : good_indexers acase_fs.
Proof.
  split; [apply NoDup_singleton|]. intros n f ?%elem_of_list_singleton o. simplify_eq. eexists. split; [done|apply NoDup_singleton].
Qed.

(** a label is edited, then the object deleted *)
Definition aghost_run : list acase_event := [(ACall (SAdd 0), SNone); (AEdit 0 (1, 6), SNone); (ACall (SDelete 0), SNone)].
Lemma alias_ghost_refuted : ∃ s, exec acase_step (alias_init acase_heap) aghost_run s ∧
  (acase_step s (ACall SList)).2 = SObjs [] ∧ (acase_step s (ACall (SIndexKeys 0 5))).2 = SKeys [1] ∧
  ∀ h' s', exec acase_step s h' s' → spared acase_key acase_heap 1 (reverse aghost_run) h' →
    (acase_step s' (ACall (SByIndex 0 5))).2 = SKeyError.
Proof.
  assert (Hex : ∃ s, exec acase_step (alias_init acase_heap) aghost_run s ∧ (acase_step s (ACall SList)).2 = SObjs [] ∧
    (acase_step s (ACall (SIndexKeys 0 5))).2 = SKeys [1] ∧ (acase_step s (ACall (SGetByKey 1))).2 = SOpt None).
  { eexists. split; [repeat (econstructor; [reflexivity|]); constructor|]. done. }
  destruct Hex as (s & Hex & H1 & H2 & H3). exists s.
  split; [exact Hex|]. split; [done|]. split; [done|]. intros h' s' Hex' Hsp.
  eapply (ghost_stays acase_key acase_fs acase_heap aghost_run _ h' s' 1 0 5 [1]); [exact Hex|done|left|done|exact Hex'|exact Hsp].
Qed.

(** a label is edited to one another object has *)
Definition astuck_run : list acase_event := [(ACall (SAdd 0), SNone); (ACall (SAdd 1), SNone); (AEdit 0 (1, 6), SNone)].
Lemma alias_stuck_refuted : ∃ s, exec acase_step (alias_init acase_heap) astuck_run s ∧
  (acase_step s (ACall (SUpdate 2))).2 = SKeyError ∧
  ∀ h' s', exec acase_step s h' s' → (∀ c, c ∈ h'.*1 → c = ACall (SDelete 0)) →
    (∀ x, x ∈ h'.*2 → x = SKeyError) ∧ (acase_step s' (ACall (SGetByKey 1))).2 = SOpt (Some 0) ∧
    (acase_step s' (ACall (SIndexKeys 0 6))).2 = SKeys [2] ∧ (acase_step s' (ACall (SIndexKeys 0 5))).2 = SKeys [1].
Proof.
  assert (Hs : ∃ s, exec acase_step (alias_init acase_heap) astuck_run s ∧ (acase_step s (ACall (SUpdate 2))).2 = SKeyError ∧
    acase_step s (ACall (SDelete 0)) = (s, SKeyError) ∧ (acase_step s (ACall (SGetByKey 1))).2 = SOpt (Some 0) ∧
    (acase_step s (ACall (SIndexKeys 0 6))).2 = SKeys [2] ∧ (acase_step s (ACall (SIndexKeys 0 5))).2 = SKeys [1]).
  { eexists. split; [repeat (econstructor; [reflexivity|]); constructor|]. done. }
  destruct Hs as (s & Hex0 & Hu & Hd & Hq). exists s. split; [exact Hex0|]. split; [exact Hu|]. clear Hex0 Hu.
  intros h'. induction h' as [|[c x] h' IH]; intros s' Hex Hall.
  - apply exec_nil_iff in Hex as <-. split; [by intros ? ?%elem_of_nil|]. exact Hq.
  - apply exec_cons_iff in Hex as (m & Hs & Hex). rewrite (Hall c) in Hs by left. rewrite Hd in Hs. injection Hs as <- <-.
    destruct (IH s' Hex) as (H1 & H2); [intros; apply Hall; by right|]. split; [|exact H2].
    intros y [->|Hy]%elem_of_cons; [done|]. by apply H1.
Qed.
(** the name is edited: the object stays under its old key *)
Lemma alias_rename_refuted : ∃ s, exec acase_step (alias_init acase_heap) [(ACall (SAdd 0), SNone); (AEdit 0 (3, 5), SNone); (ACall (SDelete 0), SNone)] s ∧
  (acase_step s (ACall SList)).2 = SObjs [0] ∧ (acase_step s (ACall (SGetByKey 1))).2 = SOpt (Some 0) ∧ (acase_step s (ACall (SGet 0))).2 = SOpt None.
Proof. eexists. split; [repeat (econstructor; [reflexivity|]); constructor|]. done. Qed.

(** a careless edit, a replace, and edits that change no label *)
Definition acase_run : list acase_event :=
  [(ACall (SAdd 0), SNone); (AEdit 0 (1, 6), SNone); (ACall (SReplace [0; 1]), SNone); (AEdit 2 (2, 8), SNone); (ACall (SUpdate 2), SNone);
   (AEdit 0 (4, 6), SNone)].
Lemma alias_case : ∃ s, exec acase_step (alias_init acase_heap) acase_run s ∧ careful acase_key acase_fs acase_heap (reverse acase_run) ∧
  (acase_step s (ACall (SByIndex 0 6))).2 = SObjs [0] ∧ (acase_step s (ACall (SByIndex 0 8))).2 = SObjs [2] ∧
  holder acase_key acase_heap 1 (reverse acase_run) = Some 0 ∧ value acase_heap (reverse acase_run) 0 = (4, 6).
Proof.
  exists (run acase_step (alias_init acase_heap) (acase_run.*1)).1. split.
  { pose proof (run_exec acase_step (alias_init acase_heap) acase_run.*1) as Hr.
    assert (He : (run acase_step (alias_init acase_heap) acase_run.*1).2 = acase_run) by (vm_compute; reflexivity).
    rewrite He in Hr. exact Hr. }
  split; [|by vm_compute].
  unfold acase_run. cbn [reverse rev_append careful]. split; [right; intros n f ?%elem_of_list_singleton; by simplify_eq|]. split; [|done]. left.
  intros k. cbn. repeat case_decide; done.
Qed.
