From Verif Require Import Base DeltaFifo_model DeltaFifo_spec DeltaFifo_proofs DeltaFifo_proofs2 Store_model Store_spec Store_proofs
  Reflector_model Reflector_spec Informer_model Informer_spec Informer_proofs.

Section proofs.
  Context {K O V N : Type} `{EqDecision K} `{EqDecision V} `{EqDecision N} (keyf : O → option K) (fs : dict N (index_func (dobj K O) V)).
  Hypothesis Hfs : good_indexers fs.
  Notation dobj := (dobj K O).
  Notation delta := (delta K O).
  Notation inf := (inf K O V N).
  Notation cstore := (store K dobj V N).
  Notation istep := (istep (V:=V) (N:=N) keyf).
  Notation INV := (INV keyf fs).
  Notation effect := (effect keyf).
  Implicit Types (s : inf) (k : K) (p : list delta) (d : delta) (st : cstore).

  (** ** Effect of the calls on the eventual content *)
  Lemma settle_absorb c p e : settle c (absorb p e) =
    if is_deletion e then None else if is_sync e && ends_deleted p then settle c p else Some e.2.
  Proof.
    destruct p as [|b p _] using rev_ind.
    { unfold absorb, settle, ends_deleted. simpl. rewrite andb_false_r. done. }
    rewrite absorb_snoc. unfold settle, ends_deleted. rewrite !last_snoc.
    destruct (is_deletion b) eqn:Hb, (is_sync e) eqn:He; simpl; rewrite ?last_snoc, ?Hb.
    - destruct e as [[] ?]; done.
    - destruct (is_deletion e) eqn:Hd; rewrite last_snoc; [|by rewrite Hd]. destruct (is_tomb b.2); by rewrite ?Hd, ?Hb.
    - by destruct e as [[] ?].
    - by destruct (is_deletion e).
  Qed.
  Lemma settle_ends c p : ends_deleted p = true → settle c p = None.
  Proof. unfold settle, ends_deleted. by destruct (last p) as [d|]; [intros ->|]. Qed.
  Lemma absorb_syncs p (l : list dobj) : ends_deleted p = true → foldl absorb p ((λ o, (DtSync, o)) <$> l) = p.
  Proof.
    intros Hp. induction l as [|o l IH]; [done|]. csimpl.
    assert (absorb p (DtSync, o) = p) as ->; [|done]. unfold ends_deleted in Hp. unfold absorb. destruct (last p) as [b|]; [|done]. by rewrite Hp.
  Qed.
  Lemma absorb_sync_ends p o : ends_deleted p = false → ends_deleted (absorb p (DtSync, o)) = false.
  Proof.
    unfold ends_deleted, absorb. destruct (last p) as [b|] eqn:Hl; [|done]. intros ->. simpl. by rewrite last_snoc.
  Qed.
  Lemma settle_syncs c p (l : list dobj) : ends_deleted p = false →
    settle c (foldl absorb p ((λ o, (DtSync, o)) <$> l)) = match last l with Some o => Some o | None => settle c p end.
  Proof.
    intros Hp. destruct l as [|o l _] using rev_ind; [done|]. rewrite fmap_app, foldl_app, last_snoc. simpl.
    assert (He : ∀ p (l : list dobj), ends_deleted p = false → ends_deleted (foldl absorb p ((λ o, (DtSync, o)) <$> l)) = false).
    { clear. intros p l. revert p. induction l as [|o l IH]; intros p Hp; [done|]. csimpl. by apply IH, absorb_sync_ends. }
    rewrite settle_absorb, He by done. done.
  Qed.

  Lemma last_keyed_filter k (l : list O) : last (filter (has_key keyf k) (DObj <$> l)) = DObj <$> last_keyed keyf k l.
  Proof.
    induction l as [|o l IH]; [done|]. csimpl. rewrite filter_cons. destruct (decide (has_key keyf k (DObj o))) as [Hk|Hk].
    - rewrite last_cons, IH. destruct (last_keyed keyf k l); [done|]. simpl. unfold has_key in Hk. simpl in Hk. by rewrite decide_True.
    - rewrite IH. destruct (last_keyed keyf k l); [done|]. simpl. rewrite decide_False; done.
  Qed.
  Lemma last_keyed_none k (l : list O) : last_keyed keyf k l = None ↔ k ∉ omap (key_of keyf) (DObj (K:=K) <$> l).
  Proof.
    split.
    - intros Hn (x & Hx & Hk)%elem_of_list_omap. apply elem_of_list_fmap in Hx as (o & -> & Ho). simpl in Hk.
      induction l as [|o' l IH]; [by apply elem_of_nil in Ho|]. simpl in Hn. destruct (last_keyed keyf k l); [done|].
      apply elem_of_cons in Ho as [->|Ho]; [by rewrite decide_True in Hn|by apply IH].
    - intros Hn. destruct (last_keyed keyf k l) as [o|] eqn:Hl; [|done]. apply last_keyed_key in Hl as [Ho Hk]. destruct Hn.
      apply elem_of_list_omap. exists (DObj o). split; [apply elem_of_list_fmap; by exists o|done].
  Qed.
  Lemma keyed_prefix_full (l : list dobj) : length (keyed_prefix keyf l) = length l → keyed_prefix keyf l = l.
  Proof. induction l as [|o l IH]; [done|]. simpl. destruct (key_of keyf o); [|done]. simpl. intros. f_equal. apply IH. lia. Qed.
  Lemma keyed_prefix_all (l : list dobj) : (∀ o, o ∈ l → is_Some (key_of keyf o)) → keyed_prefix keyf l = l.
  Proof.
    induction l as [|o l IH]; [done|]. intros Hall. simpl. destruct (Hall o) as [k ->]; [left|]. f_equal. apply IH. intros o' ?. apply Hall. by right.
  Qed.
  Lemma replace_keyed (q q' : dfifo K O) kn l : DI keyf q → d_busy q = None → dstep keyf q (DReplace kn l) = (q', DNone) → keyed_prefix keyf l = l.
  Proof.
    intros HD Hb. unfold dstep, dcall. rewrite Hb. simpl. unfold df_replace. destruct (sync_all keyf l q false) as [[q1 n1] [o|]] eqn:Hs; [done|].
    destruct (sync_all_spec keyf _ _ _ _ _ _ HD Hb Hs) as (_ & _ & _ & [Hx _] & _). intros _. by apply keyed_prefix_full, Hx.
  Qed.
  Lemma replace_ok (q : dfifo K O) kn l : DI keyf q → d_busy q = None → (∀ o, o ∈ l → is_Some (key_of keyf o)) → (dstep keyf q (DReplace kn l)).2 = DNone.
  Proof.
    intros HD Hb Hl. unfold dstep, dcall. rewrite Hb. simpl. unfold df_replace. destruct (sync_all keyf l q false) as [[q1 n1] err] eqn:Hs.
    destruct (sync_all_spec keyf _ _ _ _ _ _ HD Hb Hs) as (_ & _ & _ & [_ Hx] & _). rewrite (keyed_prefix_all _ Hl) in Hx. rewrite Hx by done.
    by destruct (delete_all _ _ _).
  Qed.

  Lemma settle_deletions c p (l : list (K * option dobj)) : settle c (foldl absorb p ((λ x, (DtDeleted, DTomb x.1 x.2)) <$> l)) = match l with [] => settle c p | _ => None end.
  Proof.
    destruct l as [|x l _] using rev_ind; [done|]. rewrite fmap_app, foldl_app. simpl. rewrite settle_absorb. simpl. by destruct l.
  Qed.

  Lemma eventual_replace s l s' : INV s → d_busy (i_q s) = None → istep s (QReplace l) = (s', IQ DNone) → ∀ k, eventual k s' = replaced keyf k l (pend k (i_q s)) (cont k s).
  Proof.
    intros HI Hb Hst k. destruct (INV_step keyf fs Hfs _ _ _ _ HI Hst) as [HI' He].
    simpl in Hst. unfold call_q in Hst. destruct (dstep keyf (i_q s) (DReplace (Some (known_of (i_st s))) (DObj <$> l))) as [q' r] eqn:Hd.
    injection Hst as <- ->. pose proof (replace_keyed _ _ _ _ (iv_di _ _ _ HI) Hb Hd) as Hkp.
    assert (Hp : pend k q' = foldl absorb (pend k (i_q s)) (offers keyf k (pend k (i_q s)) (DReplace (Some (known_of (i_st s))) (DObj <$> l)))).
    { unfold dstep, dcall in Hd. rewrite Hb in Hd. destruct (dcall_free keyf (i_q s) _) as [[q1 r1] n1] eqn:Hf. simpl in Hd. injection Hd as <- ->.
      by destruct (change_call keyf _ (DReplace _ _) _ _ _ (iv_di _ _ _ HI) Hb eq_refl Hf) as (_ & _ & _ & Hx & _). }
    assert (Hb' : d_busy q' = None).
    { unfold dstep, dcall in Hd. rewrite Hb in Hd. destruct (dcall_free keyf (i_q s) _) as [[q1 r1] n1] eqn:Hf. simpl in Hd. injection Hd as <- ->.
      by destruct (change_call keyf _ (DReplace _ _) _ _ _ (iv_di _ _ _ HI) Hb eq_refl Hf) as (_ & Hx & _). }
    unfold eventual. rewrite idle_work by done. simpl. rewrite Hp. unfold cont at 1. simpl. fold (cont k s). unfold offers. rewrite Hkp, foldl_app.
    set (p := pend k (i_q s)) in *. set (c := cont k s) in *. unfold replaced. pose proof (last_keyed_filter k l) as Hlf. pose proof (last_keyed_none k l) as Hln.
    destruct (last_keyed keyf k l) as [o|] eqn:Hlk.
    - rewrite decide_False; [|intros [_ Hx]; by apply Hln in Hx]. simpl. destruct (ends_deleted p) eqn:Hed.
      + rewrite absorb_syncs by done. by apply settle_ends.
      + rewrite settle_syncs by done. by rewrite Hlf.
    - rewrite decide_True by (split; [done|by apply Hln]). assert (filter (has_key keyf k) (DObj <$> l) = []) as ->.
      { simpl in Hlf. by apply last_None in Hlf. }
      simpl. destruct c as [o|] eqn:Hc.
      + destruct (filter (.= k) (dkeys (s_items (i_st s)))) as [|k1 ks] eqn:Hf.
        { exfalso. unfold c, cont in Hc. assert (k ∈ filter (.= k) (dkeys (s_items (i_st s)))) as Hx by (apply elem_of_list_filter; split; [done|apply elem_of_dkeys; by eexists]).
          rewrite Hf in Hx. by apply elem_of_nil in Hx. }
        pose proof (settle_deletions (Some o) p ((λ k, (k, lookup_obj (match dget k (s_items (i_st s)) with Some o => LFound o | None => LMissing end))) <$> (k1 :: ks))) as Hx.
        rewrite <-list_fmap_compose in Hx. exact Hx.
      + assert (filter (.= k) (dkeys (s_items (i_st s))) = []) as ->; [|done].
        apply elem_of_nil_inv. intros x [-> Hx]%elem_of_list_filter. apply elem_of_dkeys in Hx as [o Ho]. unfold c, cont in Hc. congruence.
  Qed.

  Lemma found_all st : SG keyf fs st → found_objs keyf (known_of st) = omap (λ k, dget k (s_items st)) (dkeys (s_items st)).
  Proof.
    intros HG. unfold found_objs. simpl. rewrite keyed_prefix_all.
    - generalize (dkeys (s_items st)). intros ks. induction ks as [|k ks IH]; [done|]. csimpl. rewrite IH. by destruct (dget k (s_items st)).
    - intros o (k & Hk & Ho)%elem_of_list_omap. destruct (dget k (s_items st)) as [o'|] eqn:Hg; simpl in Ho; [|done]. simplify_eq. exists k. by apply (sg_key _ _ _ HG).
  Qed.
  Lemma found_at st k : SG keyf fs st → take 1 (filter (has_key keyf k) (found_objs keyf (known_of st))) = match dget k (s_items st) with Some o => [o] | None => [] end.
  Proof.
    intros HG. rewrite (found_all _ HG). set (l := filter _ _). assert (Hl : ∀ o, o ∈ l → dget k (s_items st) = Some o).
    { intros o [Hk Ho]%elem_of_list_filter. apply elem_of_list_omap in Ho as (k' & _ & Hg). pose proof (sg_key _ _ _ HG _ _ Hg) as Hk'. unfold has_key in Hk. congruence. }
    destruct l as [|o l'] eqn:Hx.
    - destruct (dget k (s_items st)) as [o|] eqn:Hg; [|done]. exfalso. assert (o ∈ l) as Ho; [|rewrite Hx in Ho; by apply elem_of_nil in Ho].
      apply elem_of_list_filter. split; [by apply (sg_key _ _ _ HG)|]. apply elem_of_list_omap. exists k. split; [apply elem_of_dkeys; by eexists|done].
    - rewrite (Hl o) by left. simpl. by rewrite take_0.
  Qed.
  Lemma eventual_resync s s' r : INV s → istep s QResync = (s', r) → ∀ k, eventual k s' = eventual k s.
  Proof.
    intros HI Hst k. destruct (INV_step keyf fs Hfs _ _ _ _ HI Hst) as [HI' He]. destruct He as [Hs Hw _|dc res Hch Hb Hb' Hs Hp _ _ _|k0 ds d rest Hc| k0 ds Hc| k0 ds cause Hc]; [..|destruct Hc; done|done].
    - unfold eventual, cont. by rewrite Hs, Hw.
    - simpl in Hch. injection Hch as <-. unfold eventual. rewrite !idle_work by done. rewrite Hp. unfold cont. rewrite Hs. simpl.
      case_decide as Hpe; [|done]. rewrite (found_at _ _ (iv_sg _ _ _ HI)), Hpe. destruct (dget k (s_items (i_st s))); done.
    - done.
  Qed.

  (** steps that keep the eventual content *)
  Definition keeps (c : iop K O) : Prop :=
    match c with
    | QResync | QHasSynced | QGetByKey _ | QClose | PPop | PDelta | PRaise (Some _) | PDone | SLook _ => True
    | _ => False
    end.
  Lemma eventual_keeps s c s' r : INV s → istep s c = (s', r) → keeps c → ∀ k, eventual k s' = eventual k s.
  Proof.
    intros HI Hst Hk k. destruct (INV_step keyf fs Hfs _ _ _ _ HI Hst) as [HI' He].
    destruct He as [Hs Hw _|dc res Hch Hb Hb' Hs Hp _ _ _|k0 ds d rest -> Hb _ Hd Hw Hw' Ho Hc| k0 ds Hc| k0 ds cause -> Hs Hb Hw Ho Hse _].
    - unfold eventual, cont. by rewrite Hs, Hw.
    - destruct c; try done. by apply (eventual_resync s s' r).
    - unfold eventual. rewrite Hc. case_decide as Hj; [subst k; by rewrite Hw, Hw', <-settle_cons|by rewrite Ho].
    - destruct Hc; by subst.
    - unfold eventual. destruct (decide (k = k0)) as [->|Hj].
      + unfold cont in *. by rewrite Hw, Hs.
      + rewrite Ho by done. unfold cont. by rewrite Hs.
  Qed.
  Lemma eventual_keeps_exec s h s' : INV s → exec istep s h s' → (∀ e, e ∈ h → keeps e.1) → INV s' ∧ ∀ k, eventual k s' = eventual k s.
  Proof.
    intros HI Hex. induction Hex as [s|s c r s1 h s2 Hst Hex IH]; intros Hall; [done|].
    destruct (IH) as [HI2 He]; [by eapply INV_step|intros e ?; apply Hall; by right|]. split; [done|]. intros k. rewrite He.
    eapply eventual_keeps; try done. apply (Hall (c, r)). left.
  Qed.
  Lemma drained_work s k : drained s → work k s = [].
  Proof. intros [Hit Hb]. rewrite idle_work by done. unfold pend. rewrite Hit. by rewrite dget_nil. Qed.
  Lemma drained_eventual s k : drained s → cont k s = eventual k s.
  Proof. intros Hd. unfold eventual. by rewrite drained_work. Qed.
End proofs.
