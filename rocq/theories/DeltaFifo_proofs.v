From Verif Require Import Base DeltaFifo_model DeltaFifo_spec.

Section proofs.
  Context {K O : Type} `{EqDecision K} (keyf : O → option K).
  Notation hist := (list (dop K O * dres K O)).
  Notation delta := (delta K O).
  Implicit Types (s : dfifo K O) (h : hist) (k j : K) (p ds : list delta) (o : dobj K O).
  Notation deltas_key := (deltas_key keyf).
  Notation offers := (offers keyf).
  Notation replay := (replay keyf).
  Notation dstep := (dstep keyf).

  (** ** Lists of deltas *)
  Lemma dedup_snoc p (e : delta) : dedup_deltas (p ++ [e]) =
    match last p with
    | Some b => if is_deletion b && is_deletion e then removelast p ++ [if is_tomb b.2 then e else b] else p ++ [e]
    | None => p ++ [e]
    end.
  Proof.
    destruct p as [|b p _] using rev_ind; [done|]. unfold dedup_deltas. rewrite last_snoc, removelast_last, !reverse_snoc.
    unfold is_dup, is_deletion. destruct b as [tb ob], e as [te oe]; simpl.
    destruct tb, te; try done. simpl. by rewrite reverse_involutive.
  Qed.
  Lemma absorb_snoc p b e : absorb (p ++ [b]) e =
    if is_deletion b && is_sync e then p ++ [b]
    else if is_deletion b && is_deletion e then p ++ [if is_tomb b.2 then e else b] else (p ++ [b]) ++ [e].
  Proof. unfold absorb. by rewrite last_snoc, removelast_last. Qed.
  Lemma absorb_nonempty p e : absorb p e ≠ [].
  Proof.
    destruct p as [|b p _] using rev_ind; [done|]. rewrite absorb_snoc.
    destruct (is_deletion b && is_sync e), (is_deletion b && is_deletion e); by destruct p.
  Qed.
  Lemma absorb_key k p e : (p ≠ [] → deltas_key p = Some k) → key_of keyf e.2 = Some k → deltas_key (absorb p e) = Some k.
  Proof.
    intros Hp He. destruct p as [|b p _] using rev_ind; [done|].
    assert (key_of keyf b.2 = Some k) as Hb.
    { unfold DeltaFifo_spec.deltas_key in Hp. rewrite last_snoc in Hp. apply Hp. by destruct p. }
    rewrite absorb_snoc. unfold DeltaFifo_spec.deltas_key.
    destruct (is_deletion b && is_sync e), (is_deletion b && is_deletion e); rewrite ?app_assoc, ?last_snoc; simpl; try done.
    by destruct (is_tomb b.2).
  Qed.
  Lemma deltas_key_nonempty k ds : deltas_key ds = Some k → ds ≠ [].
  Proof. by intros ? ->. Qed.

  (** ** State invariant *)
  Definition pend k s : list delta := default [] (dget k (d_items s)).
  Record DI s : Prop := {
    di_queue : d_queue s = dkeys (d_items s);
    di_wf : dwf (d_items s);
    di_items k ds : dget k (d_items s) = Some ds → deltas_key ds = Some k;
    di_busy k ds : d_busy s = Some (k, ds) → deltas_key ds = Some k ∧ k ∉ dkeys (d_items s)
  }.
  Lemma DI_init : DI dfifo_init.
  Proof. split; simpl; try done. apply dwf_nil. Qed.
  Lemma pend_key k s : DI s → pend k s ≠ [] → deltas_key (pend k s) = Some k.
  Proof. intros HD. unfold pend. destruct (dget k (d_items s)) eqn:Hk; [|done]. intros _. by apply (di_items _ HD). Qed.
  Lemma pend_dkeys k s : DI s → k ∈ dkeys (d_items s) ↔ pend k s ≠ [].
  Proof.
    intros HD. rewrite elem_of_dkeys. unfold pend. destruct (dget k (d_items s)) as [ds|] eqn:Hk; simpl.
    - split; [|by eexists]. intros _. by eapply deltas_key_nonempty, (di_items _ HD).
    - split; [by intros [??]|done].
  Qed.
  Lemma pend_dget k s : DI s → dget k (d_items s) = match pend k s with [] => None | ds => Some ds end.
  Proof.
    intros HD. unfold pend. destruct (dget k (d_items s)) as [ds|] eqn:Hk; simpl; [|done].
    pose proof (deltas_key_nonempty _ _ (di_items _ HD _ _ Hk)). by destruct ds.
  Qed.

  Definition frame s s' : Prop :=
    d_populated s' = d_populated s ∧ d_count s' = d_count s ∧ d_closed s' = d_closed s ∧ d_busy s' = d_busy s.
  Lemma frame_refl s : frame s s.
  Proof. done. Qed.
  Lemma frame_trans s1 s2 s3 : frame s1 s2 → frame s2 s3 → frame s1 s3.
  Proof. intros (?&?&?&?) (?&?&?&?). repeat split; congruence. Qed.

  Lemma queue_action_spec t k o s s' n : DI s → d_busy s = None → key_of keyf o = Some k → queue_action t k o s = (s', n) →
    DI s' ∧ frame s s' ∧ (∀ j, pend j s' = if decide (j = k) then absorb (pend j s) (t, o) else pend j s) ∧
    dkeys (d_items s') = dkeys (d_items s) ++ (if decide (k ∈ dkeys (d_items s)) then [] else [k]) ∧
    (n = false → s' = s).
  Proof.
    intros HD Hb Hk Hq. unfold queue_action in Hq.
    assert (Hwd : will_be_deleted k s = match last (pend k s) with Some d => is_deletion d | None => false end).
    { unfold will_be_deleted, pend. destruct (dget k (d_items s)); [|done]. simpl. destruct (last _) as [[[] ?]|]; done. }
    destruct (bool_decide (t = DtSync) && will_be_deleted k s) eqn:Hskip.
    - simplify_eq. apply andb_true_iff in Hskip as [Ht%bool_decide_eq_true Hwd']. subst t. rewrite Hwd in Hwd'.
      split; [done|]. split; [done|].
      destruct (last (pend k s')) as [b|] eqn:Hl; [|done]. split.
      + intros j. case_decide; [subst|done]. unfold absorb. by rewrite Hl, Hwd'.
      + split; [|done]. rewrite decide_True; [by rewrite app_nil_r|]. apply pend_dkeys; [done|]. intros Hn. by rewrite Hn in Hl.
    - assert (Hnew : dedup_deltas (default [] (dget k (d_items s)) ++ [(t, o)]) = absorb (pend k s) (t, o)).
      { fold (pend k s). rewrite dedup_snoc. unfold absorb. destruct (last (pend k s)) as [b|] eqn:Hl.
        - destruct (is_deletion b && is_sync (t, o)) eqn:Hs; [|done]. exfalso. apply andb_true_iff in Hs as [? Hs].
          rewrite Hwd in Hskip. unfold is_sync in Hs; simpl in Hs. destruct t; try done. simpl in Hskip. congruence.
        - apply last_None in Hl. by rewrite Hl. }
      rewrite Hnew in Hq. pose proof (absorb_nonempty (pend k s) (t, o)) as Hne.
      destruct (absorb (pend k s) (t, o)) as [|d0 ds0] eqn:Ha; [done|]. simplify_eq. simpl.
      assert (HP : ∀ j, pend j (DFIFO (dset k (d0 :: ds0) (d_items s)) (if decide (k ∈ dkeys (d_items s)) then d_queue s else d_queue s ++ [k])
         (d_populated s) (d_count s) (d_closed s) (d_busy s)) = if decide (j = k) then absorb (pend j s) (t, o) else pend j s).
      { intros j. unfold pend at 1. simpl. rewrite dget_dset. destruct (decide (j = k)) as [->|]; [|done]. simpl. by rewrite Ha. }
      split; [|split; [done|split; [done|split; [|done]]]].
      + split; simpl.
        * rewrite dkeys_dset, (di_queue _ HD). done.
        * apply dwf_dset, HD.
        * intros j ds. rewrite dget_dset. destruct (decide (j = k)) as [->|]; [|apply (di_items _ HD)]. intros; simplify_eq. rewrite <-Ha.
          apply absorb_key; [|done]. by apply pend_key.
        * by rewrite Hb.
      + rewrite dkeys_dset. case_decide; [by rewrite app_nil_r|done].
  Qed.

  Lemma foldl_if_absorb (j k : K) p e : foldl absorb p (if decide (j = k) then [e] else []) = if decide (j = k) then absorb p e else p.
  Proof. by case_decide. Qed.

  Lemma has_key_some k o k' : key_of keyf o = Some k' → has_key keyf k o ↔ k = k'.
  Proof. unfold has_key. intros ->. naive_solver. Qed.

  Lemma filter_has_key_cons k o k' l : key_of keyf o = Some k' →
    filter (has_key keyf k) (o :: l) = (if decide (k = k') then [o] else []) ++ filter (has_key keyf k) l.
  Proof.
    intros Hk. rewrite filter_cons. pose proof (has_key_some k o k' Hk) as Hi.
    destruct (decide (has_key keyf k o)) as [Hh|Hh], (decide (k = k')); try done; exfalso; tauto.
  Qed.

  Definition grows s s' : Prop := ∃ new, dkeys (d_items s') = dkeys (d_items s) ++ new.
  Lemma grows_trans s1 s2 s3 : grows s1 s2 → grows s2 s3 → grows s1 s3.
  Proof. intros [n1 H1] [n2 H2]. exists (n1 ++ n2). by rewrite H2, H1, app_assoc. Qed.

  Lemma sync_all_spec l s n s' n' err : DI s → d_busy s = None → sync_all keyf l s n = (s', n', err) →
    DI s' ∧ frame s s' ∧
    (∀ j, pend j s' = foldl absorb (pend j s) ((λ o, (DtSync, o)) <$> filter (has_key keyf j) (keyed_prefix keyf l))) ∧
    (err = None ↔ length (keyed_prefix keyf l) = length l) ∧ grows s s' ∧ (n' = false → n = false ∧ s' = s).
  Proof.
    revert s n. induction l as [|o l IH]; intros s n HD Hb; simpl.
    - intros; simplify_eq. split; [done|]. split; [done|]. split; [done|]. split; [done|]. split; [exists []; by rewrite app_nil_r|done].
    - destruct (key_of keyf o) as [k|] eqn:Hk.
      + destruct (queue_action DtSync k o s) as [s1 n1] eqn:Hq. intros Hs.
        destruct (queue_action_spec _ _ _ _ _ _ HD Hb Hk Hq) as (HD1 & Hf1 & Hp1 & Hk1 & Hn1).
        assert (Hb1 : d_busy s1 = None) by (destruct Hf1 as (_&_&_&->); done).
        destruct (IH _ _ HD1 Hb1 Hs) as (HD' & Hf' & Hp' & He' & Hg' & Hn'). split; [done|].
        split; [by eapply frame_trans|]. split; [|split; [|split]].
        * intros j. rewrite Hp', Hp1, (filter_has_key_cons _ _ _ _ Hk). by destruct (decide (j = k)).
        * rewrite He'. simpl. lia.
        * eapply grows_trans; [|done]. eexists. exact Hk1.
        * intros Hz. destruct (Hn' Hz) as [Ho ->]. apply orb_false_iff in Ho as [-> Hx]. split; [done|]. by apply Hn1.
      + intros; simplify_eq. split; [done|]. split; [done|]. split; [done|]. split; [done|]. split; [exists []; by rewrite app_nil_r|done].
  Qed.

  Lemma delete_all_spec (l : list (K * option (dobj K O))) s n s' n' : DI s → d_busy s = None → delete_all l s n = (s', n') →
    DI s' ∧ frame s s' ∧
    (∀ j, pend j s' = foldl absorb (pend j s) ((λ x, (DtDeleted, DTomb x.1 x.2)) <$> filter (λ x, x.1 = j) l)) ∧
    grows s s' ∧ (n' = false → n = false ∧ s' = s).
  Proof.
    revert s n. induction l as [|[k o] l IH]; intros s n HD Hb; simpl.
    - intros; simplify_eq. split; [done|]. split; [done|]. split; [done|]. split; [exists []; by rewrite app_nil_r|done].
    - destruct (queue_action DtDeleted k (DTomb k o) s) as [s1 n1] eqn:Hq. intros Hs.
      destruct (queue_action_spec DtDeleted k (DTomb k o) _ _ _ HD Hb eq_refl Hq) as (HD1 & Hf1 & Hp1 & Hk1 & Hn1).
      assert (Hb1 : d_busy s1 = None) by (destruct Hf1 as (_&_&_&->); done).
      destruct (IH _ _ HD1 Hb1 Hs) as (HD' & Hf' & Hp' & Hg' & Hn'). split; [done|].
      split; [by eapply frame_trans|]. split; [|split].
      + intros j. rewrite Hp', Hp1, filter_cons. simpl. destruct (decide (k = j)) as [->|]; [by rewrite decide_True|]. by rewrite decide_False.
      + eapply grows_trans; [|done]. eexists. exact Hk1.
      + intros Hz. destruct (Hn' Hz) as [Ho ->]. apply orb_false_iff in Ho as [-> Hx]. split; [done|]. by apply Hn1.
  Qed.

  Lemma resync_keys_spec kn ks s n s' r n' : DI s → d_busy s = None → resync_keys keyf kn ks s n = (s', r, n') →
    DI s' ∧ frame s s' ∧
    (∀ j, pend j s' = if decide (pend j s = [])
      then (λ o, (DtSync, o)) <$> take 1 (filter (has_key keyf j) (keyed_prefix keyf (omap (λ k, lookup_obj (kn_get kn k)) ks)))
      else pend j s) ∧
    grows s s' ∧ (n' = false → n = false ∧ s' = s) ∧ (r = DNone ∨ ∃ o, r = DKeyFuncError o).
  Proof.
    revert s n. induction ks as [|k ks IH]; intros s n HD Hb; simpl.
    - intros; simplify_eq. split; [done|]. split; [done|]. split; [|split; [exists []; by rewrite app_nil_r|by eauto]].
      intros j. by case_decide.
    - unfold sync_key. csimpl. destruct (kn_get kn k) as [o| |] eqn:Hk; simpl.
      2,3: intros Hs; rewrite orb_false_r in Hs; by apply IH.
      destruct (key_of keyf o) as [id|] eqn:Hid.
      + destruct (dget id (d_items s)) as [[|d0 ds0]|] eqn:Hg.
        * by destruct (deltas_key_nonempty _ _ (di_items _ HD _ _ Hg)).
        * rewrite orb_false_r. intros Hs. destruct (IH _ _ HD Hb Hs) as (HD' & Hf' & Hp' & Hg' & Hn').
          split; [done|]. split; [done|]. split; [|done]. intros j. rewrite Hp', (filter_has_key_cons _ _ _ _ Hid).
          case_decide as Hj; [|done]. rewrite decide_False; [done|]. intros ->. unfold pend in Hj. by rewrite Hg in Hj.
        * destruct (queue_action DtSync id o s) as [s1 n1] eqn:Hq. intros Hs.
          destruct (queue_action_spec _ _ _ _ _ _ HD Hb Hid Hq) as (HD1 & Hf1 & Hp1 & Hk1 & Hn1).
          assert (Hb1 : d_busy s1 = None) by (destruct Hf1 as (_&_&_&->); done).
          destruct (IH _ _ HD1 Hb1 Hs) as (HD' & Hf' & Hp' & Hg' & Hn' & Hr'). split; [done|].
          split; [by eapply frame_trans|]. split; [|split; [|split; [|done]]].
          -- intros j. rewrite Hp', Hp1, (filter_has_key_cons _ _ _ _ Hid). destruct (decide (j = id)) as [->|]; [|done].
             assert (pend id s = []) as Hpe by (unfold pend; by rewrite Hg). rewrite Hpe. rewrite decide_False by done. by rewrite decide_True.
          -- eapply grows_trans; [|done]. eexists. exact Hk1.
          -- intros Hz. destruct (Hn' Hz) as [Ho ->]. apply orb_false_iff in Ho as [-> Hx]. split; [done|]. by apply Hn1.
      + intros; simplify_eq. split; [done|]. split; [done|]. split; [|split; [exists []; by rewrite app_nil_r|]].
        * intros j. by case_decide.
        * rewrite orb_false_r. by eauto.
  Qed.

  (** the calls that queue changes *)
  Definition changes (c : dop K O) : bool :=
    match c with DAdd _ | DUpdate _ | DDelete _ _ | DReplace _ _ | DResync _ => true | _ => false end.

  Lemma set_populated_DI s : DI s → DI (set_populated s).
  Proof. intros []. by split. Qed.

  Lemma deletions_spec kn l s j : DI s →
    (λ x, (DtDeleted, DTomb x.1 x.2)) <$> filter (λ x, x.1 = j) (deletions kn l s) =
    if decide (j ∈ l) then [] else
    match kn with
    | None => match last (pend j s) with Some d => [(DtDeleted, DTomb j (Some d.2))] | None => [] end
    | Some kn => (λ k, (DtDeleted, DTomb k (lookup_obj (kn_get kn k)))) <$> filter (.= j) (kn_keys kn)
    end.
  Proof.
    intros HD. destruct kn as [kn|]; unfold deletions.
    - induction (kn_keys kn) as [|k ks IH]; [by case_decide|]. rewrite filter_cons. destruct (decide (k ∉ l)) as [Hk|Hk].
      + csimpl. rewrite filter_cons. simpl. destruct (decide (k = j)) as [->|Hne].
        * csimpl. rewrite decide_False in IH by done. rewrite decide_False by done. rewrite filter_cons, decide_True by done. csimpl. by rewrite IH.
        * rewrite IH. case_decide; [done|]. by rewrite filter_cons, decide_False.
      + rewrite IH. case_decide; [done|]. rewrite filter_cons, decide_False; [done|]. intros ->. by apply Hk.
    - pose proof (di_wf _ HD) as Hwf. unfold pend. assert (Hall : ∀ k ds, (k, ds) ∈ d_items s → ds ≠ []).
      { intros k ds Hin%elem_of_dget; [|done]. by eapply deltas_key_nonempty, (di_items _ HD). }
      clear HD. revert Hwf Hall. generalize (d_items s). intros items Hwf Hall.
      induction items as [|[k ds] items IH]; [by case_decide|].
      unfold dwf in Hwf. apply NoDup_cons in Hwf as [Hni Hwf]. fold (dkeys items) in Hni.
      specialize (IH Hwf). rewrite dget_cons. rewrite filter_cons. csimpl.
      assert (Hrest : ∀ k ds, (k, ds) ∈ items → ds ≠ []) by (intros ???; eapply Hall; by right).
      specialize (IH Hrest). apply not_elem_of_dkeys in Hni. simpl in Hni. destruct (decide (k ∉ l)) as [Hk|Hk].
      + csimpl. rewrite filter_cons. csimpl. destruct (decide (k = j)) as [->|Hne].
        * rewrite decide_False in IH by done. rewrite Hni in IH. simpl in IH. csimpl. rewrite IH. rewrite decide_False by done.
          rewrite decide_True by done. simpl. unfold newest_obj. destruct (last ds) as [d|] eqn:Hl; [done|].
          apply last_None in Hl. subst ds. by destruct (Hall j [] ltac:(left)).
        * rewrite IH. by rewrite (decide_False (P:=j = k)).
      + rewrite IH. case_decide; [done|]. rewrite decide_False; [done|]. intros ->. by apply Hk.
  Qed.
  Lemma not_busy_frame s s' : frame s s' → d_busy s = None → d_busy s' = None.
  Proof. by intros (_&_&_&->). Qed.

  (** every call that queues changes acts on each key as [offers]/[absorb] say *)
  Lemma change_call s c s' r n : DI s → d_busy s = None → changes c = true → dcall_free keyf s c = (s', r, n) →
    DI s' ∧ d_busy s' = None ∧ d_closed s' = d_closed s ∧
    (∀ j, pend j s' = foldl absorb (pend j s) (offers j (pend j s) c)) ∧ grows s s' ∧
    (n = false → d_queue s' = d_queue s) ∧ (r = DNone ∨ ∃ o, r = DKeyFuncError o).
  Proof.
    intros HD Hb Hc Hcall.
    assert (Hadd : ∀ t o, df_add keyf t o s = (s', r, n) → DI s' ∧ d_busy s' = None ∧ d_closed s' = d_closed s ∧
      (∀ j, pend j s' = foldl absorb (pend j s) (if decide (has_key keyf j o) then [(t, o)] else [])) ∧ grows s s' ∧
      (n = false → d_queue s' = d_queue s) ∧ (r = DNone ∨ ∃ o, r = DKeyFuncError o)).
    { intros t o Ha. unfold df_add in Ha. destruct (key_of keyf o) as [k|] eqn:Hk.
      - destruct (queue_action t k o (set_populated s)) as [s1 n1] eqn:Hq. simplify_eq.
        destruct (queue_action_spec _ _ _ (set_populated s) _ _ (set_populated_DI _ HD) Hb Hk Hq) as (HD' & Hf & Hp & Hks & Hn).
        split; [done|]. split; [by eapply not_busy_frame|]. split; [by destruct Hf as (_&_&->&_)|]. split; [|split; [|split]].
        + intros j. rewrite Hp. pose proof (has_key_some j o k Hk) as Hi. change (pend j (set_populated s)) with (pend j s).
          destruct (decide (j = k)), (decide (has_key keyf j o)); try done; exfalso; tauto.
        + by eexists.
        + intros Hz. by rewrite (Hn Hz).
        + by left.
      - simplify_eq. split; [by apply set_populated_DI|]. split; [done|]. split; [done|]. split; [|split; [exists []; by rewrite app_nil_r|by eauto]].
        intros j. rewrite decide_False; [done|]. unfold has_key. by rewrite Hk. }
    destruct c as [o|o|kn o| | |o|k|kn l|kn| |out|ds| | |]; try done; simpl in Hcall; simpl.
    - by apply Hadd.
    - by apply Hadd.
    - unfold df_delete in Hcall. destruct (key_of keyf o) as [k|] eqn:Hk.
      2: { simplify_eq. split; [done|]. split; [done|]. split; [done|]. split; [|split; [exists []; by rewrite app_nil_r|by eauto]].
           intros j. rewrite decide_False; [done|]. unfold has_key. rewrite Hk. by intros [??]. }
      match type of Hcall with (if ?b then _ else _) = _ => destruct b eqn:Hskip end.
      + simplify_eq. split; [by apply set_populated_DI|]. split; [done|]. split; [done|].
        split; [|split; [exists []; by rewrite app_nil_r|by eauto]]. intros j. change (pend j (set_populated s)) with (pend j s).
        rewrite decide_False; [done|]. rewrite (has_key_some j o k Hk). intros [-> Hor].
        assert (bool_decide (k ∈ dkeys (d_items s)) = false ∧ ¬ known_to kn k) as [Hnp Hnk].
        { destruct kn as [kn|]; simpl; [|apply negb_true_iff in Hskip; tauto]. destruct (kn_get kn k); try done.
          apply negb_true_iff in Hskip. split; [done|]. intros Hx. by apply Hx. }
        apply bool_decide_eq_false in Hnp. rewrite (pend_dkeys _ _ HD) in Hnp. tauto.
      + destruct (queue_action DtDeleted k o (set_populated s)) as [s1 n1] eqn:Hq. simplify_eq.
        destruct (queue_action_spec _ _ _ (set_populated s) _ _ (set_populated_DI _ HD) Hb Hk Hq) as (HD' & Hf & Hp & Hks & Hn).
        split; [done|]. split; [by eapply not_busy_frame|]. split; [by destruct Hf as (_&_&->&_)|]. split; [|split; [|split]].
        * intros j. rewrite Hp. pose proof (has_key_some j o k Hk) as Hi. change (pend j (set_populated s)) with (pend j s).
          destruct (decide (j = k)) as [->|].
          -- rewrite decide_True; [done|]. split; [tauto|].
             assert (bool_decide (k ∈ dkeys (d_items s)) = true ∨ known_to kn k) as [Hx|Hx]; [| |by right].
             { destruct kn as [kn|]; simpl; [|left; by apply negb_false_iff in Hskip]. destruct (kn_get kn k); try (by right).
               left. by apply negb_false_iff in Hskip. }
             left. apply bool_decide_eq_true in Hx. by rewrite (pend_dkeys _ _ HD) in Hx.
          -- rewrite decide_False; [done|]. tauto.
        * by eexists.
        * intros Hz. by rewrite (Hn Hz).
        * by left.
    - unfold df_replace in Hcall. destruct (sync_all keyf l s false) as [[s1 n1] err] eqn:Hs.
      destruct (sync_all_spec _ _ _ _ _ _ HD Hb Hs) as (HD1 & Hf1 & Hp1 & He1 & Hg1 & Hn1).
      assert (Hb1 := not_busy_frame _ _ Hf1 Hb). destruct err as [o|].
      + simplify_eq. split; [done|]. split; [done|]. split; [by destruct Hf1 as (_&_&->&_)|]. split; [|split; [done|split]].
        * intros j. rewrite Hp1, decide_False; [by rewrite app_nil_r|]. intros [He2 _]. by apply He1 in He2.
        * intros Hz. by destruct (Hn1 Hz) as [_ ->].
        * by eauto.
      + destruct (delete_all (deletions kn (omap (key_of keyf) l) s1) s1 n1) as [s2 n2] eqn:Hd. simplify_eq.
        destruct (delete_all_spec _ _ _ _ _ HD1 Hb1 Hd) as (HD2 & Hf2 & Hp2 & Hg2 & Hn2).
        assert (HI : ∀ m, DI (set_initial m s2) ∧ d_busy (set_initial m s2) = None ∧ d_closed (set_initial m s2) = d_closed s2 ∧ (∀ j, pend j (set_initial m s2) = pend j s2) ∧
          dkeys (d_items (set_initial m s2)) = dkeys (d_items s2) ∧ d_queue (set_initial m s2) = d_queue s2).
        { intros m. assert (Hb2 := not_busy_frame _ _ Hf2 Hb1). unfold set_initial. destruct (d_populated s2); [done|].
          split; [destruct HD2; by split|]. done. }
        destruct (HI (length l + length (deletions kn (omap (key_of keyf) l) s1))) as (HI1 & HI2 & HIc & HI3 & HI4 & HI5).
        split; [done|]. split; [done|]. split; [rewrite HIc; destruct Hf2 as (_&_&->&_); by destruct Hf1 as (_&_&->&_)|]. split; [|split; [|split]].
        * intros j. rewrite HI3, Hp2, (deletions_spec _ _ _ _ HD1), foldl_app, <-Hp1.
          assert (Hlen : length (keyed_prefix keyf l) = length l) by (by apply He1).
          destruct (decide (j ∈ omap (key_of keyf) l)) as [Hj|Hj]; [by rewrite decide_False by tauto|].
          rewrite decide_True by done. f_equal. destruct kn as [kn|]; [done|]. rewrite Hp1.
          replace (filter (has_key keyf j) (keyed_prefix keyf l)) with (@nil (dobj K O)); [done|]. symmetry.
          destruct (filter _ (keyed_prefix keyf l)) as [|o fl] eqn:Hfl; [done|]. exfalso. apply Hj.
          assert (o ∈ filter (has_key keyf j) (keyed_prefix keyf l)) as Hin by (rewrite Hfl; left).
          apply elem_of_list_filter in Hin as [Hh Hin]. apply elem_of_list_omap. exists o. split; [|done].
          clear -Hin. induction l as [|o' l IH]; simpl in Hin; [by apply elem_of_nil in Hin|].
          destruct (key_of keyf o'); [|by apply elem_of_nil in Hin]. apply elem_of_cons in Hin as [->|Hin]; [left|right; by apply IH].
        * destruct (grows_trans _ _ _ Hg1 Hg2) as [new Hnew]. exists new. by rewrite HI4.
        * intros Hz. destruct (Hn2 Hz) as [Hz1 Heq]. destruct (Hn1 Hz1) as [_ ->]. rewrite HI5. by rewrite Heq.
        * by left.
    - unfold df_resync in Hcall. destruct kn as [kn|].
      + destruct (resync_keys_spec _ _ _ _ _ _ _ HD Hb Hcall) as (HD' & Hf & Hp & Hg & Hn & Hr).
        split; [done|]. split; [by eapply not_busy_frame|]. split; [by destruct Hf as (_&_&->&_)|]. split; [|split; [done|split; [|done]]].
        * intros j. rewrite Hp. unfold found_objs. case_decide as Hj; [|done]. rewrite Hj.
          by destruct (filter _ _) as [|x fl].
        * intros Hz. by destruct (Hn Hz) as [_ ->].
      + simplify_eq. split; [done|]. split; [done|]. split; [done|]. split; [done|]. split; [exists []; by rewrite app_nil_r|by eauto].
  Qed.

  Lemma change_count s c s' r n : DI s → d_busy s = None → changes c = true → dcall_free keyf s c = (s', r, n) →
    d_populated s = true → d_populated s' = true ∧ d_count s' = d_count s.
  Proof.
    intros HD Hb Hc Hcall Hpop.
    assert (Hq : ∀ t k o s0 s1 n1, DI s0 → d_busy s0 = None → key_of keyf o = Some k → d_populated s0 = true → d_count s0 = d_count s →
      queue_action t k o s0 = (s1, n1) → d_populated s1 = true ∧ d_count s1 = d_count s).
    { intros t k o s0 s1 n1 HD0 Hb0 Hk H1 H2 Ha. destruct (queue_action_spec _ _ _ _ _ _ HD0 Hb0 Hk Ha) as (_ & (->&->&_&_) & _). done. }
    destruct c as [o|o|kn o| | |o|k|kn l|kn| |out|ds| | |]; try done; simpl in Hcall.
    1,2: unfold df_add in Hcall; destruct (key_of keyf o) as [k|] eqn:Hk; [|by simplify_eq];
      match type of Hcall with context [queue_action ?t ?k ?o ?s] => destruct (queue_action t k o s) as [s1 n1] eqn:Ha end; simplify_eq;
      eapply (Hq _ _ _ (set_populated s)); [by apply set_populated_DI|done..].
    - unfold df_delete in Hcall. destruct (key_of keyf o) as [k|] eqn:Hk; [|by simplify_eq].
      match type of Hcall with (if ?b then _ else _) = _ => destruct b end; [by simplify_eq|].
      match type of Hcall with context [queue_action ?t ?k ?o ?s] => destruct (queue_action t k o s) as [s1 n1] eqn:Ha end; simplify_eq.
      eapply (Hq _ _ _ (set_populated s)); [by apply set_populated_DI|done..].
    - unfold df_replace in Hcall. destruct (sync_all keyf l s false) as [[s1 n1] err] eqn:Hs.
      destruct (sync_all_spec _ _ _ _ _ _ HD Hb Hs) as (HD1 & Hf1 & Hp1 & He1 & Hg1 & Hn1).
      assert (Hb1 := not_busy_frame _ _ Hf1 Hb). destruct Hf1 as (Hfp&Hfc&_&_).
      destruct err as [o|]; simplify_eq; [split; congruence|].
      destruct (delete_all (deletions kn (omap (key_of keyf) l) s1) s1 n1) as [s2 n2] eqn:Hd. simplify_eq.
      destruct (delete_all_spec _ _ _ _ _ HD1 Hb1 Hd) as (_ & (Hfp2&Hfc2&_&_) & _).
      unfold set_initial. rewrite Hfp2, Hfp, Hpop. split; congruence.
    - unfold df_resync in Hcall. destruct kn as [kn|]; [|by simplify_eq].
      destruct (resync_keys_spec _ _ _ _ _ _ _ HD Hb Hcall) as (HD' & (Hfp&Hfc&_&_) & _). split; congruence.
  Qed.

  Lemma pop_spec s : DI s → df_pop s =
    match d_items s with
    | [] => (DFIFO [] [] (d_populated s) (d_count s) (d_closed s) None, if d_closed s then DClosedError else DBlocked, false)
    | (k, ds) :: rest => (DFIFO rest (dkeys rest) (d_populated s) (pred (d_count s)) (d_closed s) (Some (k, ds)), DPopped ds, false)
    end.
  Proof.
    intros HD. unfold df_pop. rewrite (di_queue _ HD). pose proof (di_wf _ HD) as Hwf.
    destruct (d_items s) as [|[k ds] rest]; [done|]. simpl. rewrite dget_cons, decide_True by done.
    f_equal. f_equal. f_equal. unfold ddel. rewrite filter_cons. simpl. rewrite decide_False by (by intros []).
    unfold dwf in Hwf. apply NoDup_cons in Hwf as [Hni _]. clear -Hni.
    induction rest as [|[k' v] rest IH]; [done|]. csimpl in Hni. apply not_elem_of_cons in Hni as [??].
    rewrite filter_cons, decide_True by done. f_equal. by apply IH.
  Qed.

  Lemma DI_pop s k ds rest : DI s → d_items s = (k, ds) :: rest →
    ∀ b c cl, DI (DFIFO rest (dkeys rest) b c cl (Some (k, ds))) ∧
      (∀ j, pend j (DFIFO rest (dkeys rest) b c cl (Some (k, ds))) = if decide (j = k) then [] else pend j s) ∧
      pend k s = ds ∧ deltas_key ds = Some k.
  Proof.
    intros HD Hit b c cl. pose proof (di_wf _ HD) as Hwf. rewrite Hit in Hwf. unfold dwf in Hwf.
    apply NoDup_cons in Hwf as [Hni Hwf]. change (k ∉ dkeys rest) in Hni.
    assert (Hg : dget k (d_items s) = Some ds) by (rewrite Hit, dget_cons; by rewrite decide_True).
    assert (Hk : deltas_key ds = Some k) by (by apply (di_items _ HD)).
    split; [|split; [|split]].
    - split; simpl; try done; [|by intros; simplify_eq].
      intros j dj Hj. apply (di_items _ HD). rewrite Hit, dget_cons, decide_False; [done|].
      intros ->. apply Hni. rewrite elem_of_dkeys. by rewrite Hj.
    - intros j. unfold pend. simpl. rewrite Hit, dget_cons. destruct (decide (j = k)) as [->|]; [|done].
      apply not_elem_of_dkeys in Hni. by rewrite Hni.
    - unfold pend. by rewrite Hg.
    - done.
  Qed.

  Lemma put_spec k ds s s' n : DI s → d_busy s = None → deltas_key ds = Some k → put_if_absent k ds s = (s', n) →
    DI s' ∧ d_busy s' = None ∧ d_closed s' = d_closed s ∧ d_populated s' = true ∧ d_count s' = d_count s ∧
    (∀ j, pend j s' = if decide (j = k ∧ pend j s = []) then ds else pend j s) ∧
    dkeys (d_items s') = dkeys (d_items s) ++ (if decide (k ∈ dkeys (d_items s)) then [] else [k]) ∧
    (n = false → d_queue s' = d_queue s).
  Proof.
    intros HD Hb Hk. unfold put_if_absent. destruct (decide (k ∈ dkeys (d_items s))) as [Hin|Hin]; intros; simplify_eq.
    - split; [by apply set_populated_DI|]. do 4 (split; [done|]). split; [|split; [by rewrite app_nil_r|done]].
      intros j. rewrite decide_False; [done|]. intros [-> ?]. by apply (pend_dkeys _ _ HD) in Hin.
    - split.
      { split; simpl.
        - rewrite dkeys_dset, decide_False by done. by rewrite (di_queue _ HD).
        - apply dwf_dset, HD.
        - intros j dj. rewrite dget_dset. destruct (decide (j = k)) as [->|]; [intros; by simplify_eq|apply (di_items _ HD)].
        - by rewrite Hb. }
      do 4 (split; [done|]). split; [|split; [|done]].
      + intros j. unfold pend at 1. simpl. rewrite dget_dset. destruct (decide (j = k)) as [->|].
        * rewrite decide_True; [done|]. split; [done|]. rewrite (pend_dkeys _ _ HD) in Hin.
          destruct (pend k s); [done|]. by destruct Hin.
        * rewrite decide_False; [done|]. tauto.
      + simpl. by rewrite dkeys_dset, decide_False by done.
  Qed.

  (** ** The history determines every key's lists *)
  Definition proc k s : list delta := match d_busy s with Some (j, ds) => if decide (k = j) then ds else [] | None => [] end.
  Definition RI h s : Prop := DI s ∧ ∀ k, k_pend (replay k h) = pend k s ∧ k_proc (replay k h) = proc k s.

  Lemma RI_init : RI [] dfifo_init.
  Proof. split; [apply DI_init|done]. Qed.
  Lemma replay_snoc k h e : replay k (h ++ [e]) = kevent keyf k (replay k h) e.
  Proof. unfold DeltaFifo_spec.replay. by rewrite foldl_app. Qed.

  Lemma RI_step h s c : RI h s → RI (h ++ [(c, (dstep s c).2)]) (dstep s c).1.
  Proof.
    intros [HD HR]. unfold RI. setoid_rewrite replay_snoc. unfold DeltaFifo_model.dstep, dcall.
    destruct (d_busy s) as [[k0 ds0]|] eqn:Hb.
    - destruct (needs_lock c) eqn:Hl.
      { simpl. split; [done|]. intros k. destruct c; simpl; apply HR. }
      destruct c as [o|o|kn o| | |o|k|kn l|kn| |out|ds| | |]; try done; simpl.
      1: destruct (key_of keyf o); (split; [done|]; intros k'; simpl; rewrite ?app_nil_r; apply HR).
      unfold df_finish. rewrite Hb. destruct (di_busy _ HD _ _ Hb) as [Hk0 Hni].
      pose proof (deltas_key_nonempty _ _ Hk0) as Hne.
      set (s1 := DFIFO (d_items s) (d_queue s) (d_populated s) (d_count s) (d_closed s) None).
      assert (HD1 : DI s1) by (destruct HD; by split).
      assert (Hdrop : ∀ r, out ≠ DRequeue true → out ≠ DRequeue false → ∀ k,
        k_pend (kevent keyf k (replay k h) (DFinish out, r)) = pend k s1 ∧ (r ≠ DLockWait → k_proc (kevent keyf k (replay k h) (DFinish out, r)) = proc k s1)).
      { intros r H1 H2 k. destruct (HR k) as [HRp HRc].
        assert (Hx : ∀ st, k_pend st = pend k s → k_pend (match k_proc st, out with
          | [], _ => st | ds, DRequeue _ => KSt (k_offered st) (k_done st) [] ds
          | ds, _ => KSt (k_offered st) (k_done st ++ ds) [] (k_pend st) end) = pend k s1 ∧
          k_proc (match k_proc st, out with
          | [], _ => st | ds, DRequeue _ => KSt (k_offered st) (k_done st) [] ds
          | ds, _ => KSt (k_offered st) (k_done st ++ ds) [] (k_pend st) end) = proc k s1).
        { intros st Hst. change (pend k s1) with (pend k s). change (proc k s1) with (@nil delta).
          destruct (k_proc st) eqn:Hp; [done|]. destruct out as [|[]| |]; done. }
        destruct (Hx _ HRp) as [Hx1 Hx2]. destruct r; try (by split). }
      destruct out as [|cause| |]; simpl; fold s1.
      + split; [done|]. intros k. destruct (Hdrop (DItem ds0) ltac:(done) ltac:(done) k) as [Ha Hb']. split; [exact Ha|by apply Hb'].
      + destruct (put_if_absent k0 ds0 s1) as [s2 n2] eqn:Hput.
        destruct (put_spec _ _ s1 _ _ HD1 eq_refl Hk0 Hput) as (HD2 & Hb2 & _ & _ & _ & Hp2 & _). simpl. split; [done|].
        intros k. destruct (HR k) as [HRp HRc]. unfold proc in HRc. rewrite Hb in HRc.
        assert (Hx : ∀ r, r ≠ DLockWait → k_pend (kevent keyf k (replay k h) (DFinish (DRequeue cause), r)) = pend k s2 ∧
          k_proc (kevent keyf k (replay k h) (DFinish (DRequeue cause), r)) = proc k s2).
        { intros r Hr. unfold proc. rewrite Hb2, Hp2. change (pend k s1) with (pend k s). unfold kevent. destruct r; try done; rewrite HRc;
            (destruct (decide (k = k0)) as [->|]; [|rewrite decide_False by tauto; done]);
            (rewrite decide_True; [|split; [done|]; rewrite (pend_dkeys _ _ HD) in Hni; destruct (pend k0 s); [done|by destruct Hni]]);
            (destruct ds0; done). }
        destruct cause; [exact (Hx (DProcessError ds0) ltac:(done))|exact (Hx (DItem ds0) ltac:(done))].
      + split; [done|]. intros k. destruct (Hdrop (DProcessError ds0) ltac:(done) ltac:(done) k) as [Ha Hb']. split; [exact Ha|by apply Hb'].
      + split; [done|]. intros k. destruct (Hdrop DCancelled ltac:(done) ltac:(done) k) as [Ha Hb']. split; [exact Ha|by apply Hb'].
    - assert (HR' : ∀ k, k_proc (replay k h) = []).
      { intros k. destruct (HR k) as [_ ->]. unfold proc. by rewrite Hb. }
      destruct (changes c) eqn:Hc.
      + destruct (dcall_free keyf s c) as [[s' r] n] eqn:Hcall.
        destruct (change_call _ _ _ _ _ HD Hb Hc Hcall) as (HD' & Hb' & _ & Hp & _ & _ & Hr). simpl. split; [done|].
        intros k. destruct (HR k) as [HRp _]. rewrite Hp, <-HRp. unfold proc. rewrite Hb'.
        destruct Hr as [->|[o ->]]; destruct c; try done; simpl; by rewrite HR'.
      + destruct c as [o|o|kn o| | |o|k|kn l|kn| |out|ds| | |]; try done; simpl.
        * destruct (key_of keyf o); (split; [done|]; intros k'; simpl; rewrite ?app_nil_r; apply HR).
        * rewrite (pop_spec _ HD). destruct (d_items s) as [|[k ds] rest] eqn:Hit; simpl.
          -- split; [split; simpl; try done; apply dwf_nil|]. intros k. destruct (HR k) as [HRp HRc]. unfold pend in HRp. rewrite Hit in HRp.
             destruct (d_closed s); simpl; (split; [exact HRp|by rewrite HR']).
          -- destruct (DI_pop _ _ _ _ HD Hit (d_populated s) (pred (d_count s)) (d_closed s)) as (HD' & Hp & Hpk & Hk). split; [done|].
             intros j. rewrite Hp, Hk. unfold proc. simpl. destruct (decide (j = k)) as [->|].
             ++ rewrite decide_True by done. simpl. split; [done|]. destruct (HR k) as [-> _]. done.
             ++ rewrite decide_False by congruence. destruct (HR j) as [-> ->]. split; [done|]. unfold proc. by rewrite Hb.
        * unfold df_finish. rewrite Hb. simpl. split; [done|]. intros k. rewrite HR'. apply HR.
        * unfold df_add_if_not_present. destruct (last ds) as [d|] eqn:Hl.
          2: { simpl. split; [done|]. intros k. rewrite decide_False; [apply HR|]. unfold DeltaFifo_spec.deltas_key. rewrite Hl. by intros [??]. }
          destruct (key_of keyf d.2) as [k|] eqn:Hk.
          2: { simpl. split; [done|]. intros k. rewrite decide_False; [apply HR|]. unfold DeltaFifo_spec.deltas_key. rewrite Hl. simpl. rewrite Hk. by intros [??]. }
          assert (Hdk : deltas_key ds = Some k) by (unfold DeltaFifo_spec.deltas_key; rewrite Hl; done).
          destruct (put_if_absent k ds s) as [s2 n2] eqn:Hput.
          destruct (put_spec _ _ s _ _ HD Hb Hdk Hput) as (HD2 & Hb2 & _ & _ & _ & Hp2 & _). simpl. split; [done|].
          intros j. destruct (HR j) as [HRp HRc]. rewrite Hp2, Hdk, HRp. unfold proc. rewrite Hb2.
          destruct (decide (j = k ∧ pend j s = [])) as [[-> ?]|Hn].
          -- rewrite decide_True by done. simpl. by rewrite HR'.
          -- rewrite decide_False; [by rewrite HR'|]. intros [??]. apply Hn. by simplify_eq.
        * split; [destruct HD; by split|]. intros k'. simpl. apply HR.
  Qed.
  Lemma RI_exec h s : exec dstep dfifo_init h s → RI h s.
  Proof.
    apply (exec_trace_inv dstep RI); [apply RI_init|]. intros h' s' c _. apply RI_step.
  Qed.
  Lemma DI_exec h s : exec dstep dfifo_init h s → DI s.
  Proof. by intros [? _]%RI_exec. Qed.

  (** ** C24 *)
  Lemma df_readable h s k : exec dstep dfifo_init h s →
    (dstep s (DGetByKey k)).2 = DDeltas (match k_pend (replay k h) with [] => None | ds => Some ds end).
  Proof.
    intros [HD HR]%RI_exec. unfold DeltaFifo_model.dstep, dcall. destruct (HR k) as [-> _].
    rewrite <-(pend_dget _ _ HD). by destruct (d_busy s) as [[??]|].
  Qed.
  Lemma df_pop_delivers h s ds : exec dstep dfifo_init h s → (dstep s DPop).2 = DPopped ds →
    ∃ k, deltas_key ds = Some k ∧ k_pend (replay k h) = ds.
  Proof.
    intros [HD HR]%RI_exec. unfold DeltaFifo_model.dstep, dcall. destruct (d_busy s) as [[??]|] eqn:Hb; [done|]. simpl.
    rewrite (pop_spec _ HD). destruct (d_items s) as [|[k ds'] rest] eqn:Hit; simpl; [by destruct (d_closed s)|].
    intros; simplify_eq. destruct (DI_pop _ _ _ _ HD Hit true 0 true) as (_ & _ & Hp & Hk). exists k. split; [done|].
    by destruct (HR k) as [-> _].
  Qed.

  Lemma merged_app (E L l : list delta) : merged E L → merged (E ++ l) (L ++ l).
  Proof.
    intros HM. induction l as [|e l IH] using rev_ind; [by rewrite !app_nil_r|]. rewrite !app_assoc. by apply merged_keep.
  Qed.
  Lemma merged_absorb (E L : list delta) p e : merged E (L ++ p) → merged (E ++ [e]) (L ++ absorb p e).
  Proof.
    destruct p as [|b p _] using rev_ind; intros HM.
    - rewrite app_nil_r in HM. by apply merged_keep.
    - rewrite absorb_snoc. destruct (is_deletion b) eqn:Hb; simpl.
      + destruct (is_sync e) eqn:Hs; [rewrite app_assoc in *; by apply merged_sync|].
        destruct (is_deletion e) eqn:He; [rewrite app_assoc in *; by apply merged_delete|].
        rewrite !app_assoc in *. by apply merged_keep.
      + rewrite !app_assoc in *. by apply merged_keep.
  Qed.
  Lemma merged_absorb_all (E L : list delta) p l : merged E (L ++ p) → merged (E ++ l) (L ++ foldl absorb p l).
  Proof.
    revert E p. induction l as [|e l IH]; intros E p HM; simpl; [by rewrite app_nil_r|].
    specialize (IH (E ++ [e]) (absorb p e)). rewrite <-app_assoc in IH. apply IH. by apply merged_absorb.
  Qed.
  Definition total (st : kst K O) := k_done st ++ k_proc st ++ k_pend st.
  Lemma df_merged h s k : exec dstep dfifo_init h s → merged (k_offered (replay k h)) (total (replay k h)).
  Proof.
    intros Hex. revert s Hex. induction h as [|[c r] h IH] using rev_ind; intros s Hex; [apply merged_nil|].
    apply exec_snoc in Hex as (m & Hm & Hst). specialize (IH m Hm). destruct (RI_exec _ _ Hm) as [HD HR].
    rewrite replay_snoc. destruct (HR k) as [HRp HRc]. set (st := replay k h) in *. unfold total in *.
    assert (Hbusy : k_proc st ≠ [] → k_pend st = [] ∧ d_busy m ≠ None).
    { rewrite HRp, HRc. unfold proc. destruct (d_busy m) as [[j ds]|] eqn:Hb; [|done]. case_decide; [subst j|done].
      intros _. destruct (di_busy _ HD _ _ Hb) as [_ Hni]. rewrite (pend_dkeys _ _ HD) in Hni.
      destruct (pend k m); [done|]. by destruct Hni. }
    assert (Hrest : ∀ l, merged (k_offered st ++ l) (k_done st ++ k_proc st ++ foldl absorb (k_pend st) l)).
    { intros l. rewrite app_assoc. apply merged_absorb_all. by rewrite <-app_assoc. }
    assert (Hpop : ∀ ds, (c, r) = (DPop, DPopped ds) → k_proc st = []).
    { intros ds Heq. simplify_eq. destruct (k_proc st); [done|]. destruct Hbusy as [_ Hb]; [done|]. exfalso.
      unfold DeltaFifo_model.dstep, dcall in Hst. destruct (d_busy m) as [[??]|]; [|done]. simpl in Hst. by simplify_eq. }
    clear Hst. destruct c as [o|o|kn o| | |o|k'|kn l|kn| |out|ds| | |], r; simpl; try exact IH; try apply Hrest; try (rewrite app_nil_r; exact IH).
    all: try (case_decide as Hd; simpl; try exact IH).
    all: try (destruct Hd as [_ Hp]; rewrite Hp in IH; rewrite app_nil_r in IH; rewrite app_assoc; by apply merged_app).
    all: try (rewrite app_nil_r; erewrite Hpop in IH by done; exact IH).
    all: destruct (k_proc st) as [|d0 ds0] eqn:Hps; [simpl; rewrite ?Hps; exact IH|];
      destruct (Hbusy ltac:(done)) as [Hpe _]; rewrite Hpe in IH |- *; rewrite app_nil_r in IH;
      destruct out; simpl; rewrite ?app_nil_r; exact IH.
  Qed.
  Lemma merged_plain (E L : list delta) : merged E L → List.filter (is_plain (K:=K) (O:=O)) E = List.filter is_plain L.
  Proof.
    assert (Hdel : ∀ d : delta, is_deletion d = true → is_plain d = false) by (by intros [[] ?]).
    assert (Hsync : ∀ d : delta, is_sync d = true → is_plain d = false) by (by intros [[] ?]).
    induction 1 as [|E L e HM IH|E L b e HM IH Hb He|E L b e HM IH Hb He]; [done| | |];
      rewrite !List.filter_app in *; simpl in *.
    - by rewrite IH.
    - rewrite (Hdel _ He). rewrite (Hdel _ Hb) in IH. destruct (is_tomb b.2); rewrite ?(Hdel _ He), ?(Hdel _ Hb); by rewrite IH, app_nil_r.
    - rewrite (Hsync _ He). rewrite (Hdel _ Hb) in *. by rewrite IH, app_nil_r.
  Qed.
  Lemma df_plain h s k : exec dstep dfifo_init h s →
    List.filter is_plain (k_done (replay k h) ++ k_proc (replay k h) ++ k_pend (replay k h)) = List.filter is_plain (k_offered (replay k h)).
  Proof. intros Hex. symmetry. by eapply merged_plain, df_merged. Qed.

  (** ** C25 *)
  Lemma tidy_absorb k p e : (p = [] ∨ tidy keyf k p) → has_key keyf k e.2 → tidy keyf k (absorb p e).
  Proof.
    intros Hp He. split; [apply absorb_nonempty|]. destruct p as [|b p _] using rev_ind.
    { split.
      - intros d. unfold absorb; simpl. by intros ->%elem_of_list_singleton.
      - unfold absorb; simpl. intros l1 a b l2 Heq. exfalso. apply (f_equal length) in Heq. rewrite app_length in Heq. simpl in Heq. lia. }
    destruct Hp as [Hp|(_ & Hk & Hadj)]; [by destruct p|]. rewrite absorb_snoc.
    assert (Hkb : has_key keyf k b.2) by (apply Hk; apply elem_of_app; right; by apply elem_of_list_singleton).
    destruct (is_deletion b && is_sync e) eqn:H1; [done|].
    destruct (is_deletion b && is_deletion e) eqn:H2.
    - apply andb_true_iff in H2 as [Hb He']. set (x := if is_tomb b.2 then e else b).
      assert (Hx : has_key keyf k x.2 ∧ is_deletion x = true) by (unfold x; by destruct (is_tomb b.2)). split.
      + intros d [Hin| ->%elem_of_list_singleton]%elem_of_app; [apply Hk; apply elem_of_app; by left|apply Hx].
      + intros l1 a c l2 Heq [Ha Hc]. destruct l2 as [|y l2 _] using rev_ind.
        * change (l1 ++ [a; c]) with (l1 ++ [a] ++ [c]) in Heq. rewrite app_assoc in Heq. apply app_inj_tail in Heq as [-> _].
          rewrite <-app_assoc in Hadj. by destruct (Hadj l1 a b [] eq_refl).
        * replace (l1 ++ a :: c :: l2 ++ [y]) with ((l1 ++ a :: c :: l2) ++ [y]) in Heq by (by rewrite <-app_assoc).
          apply app_inj_tail in Heq as [-> _]. rewrite <-app_assoc in Hadj. simpl in Hadj. by destruct (Hadj l1 a c (l2 ++ [b]) eq_refl).
    - split.
      + intros d [Hin| ->%elem_of_list_singleton]%elem_of_app; [by apply Hk|done].
      + intros l1 a c l2 Heq [Ha Hc]. destruct l2 as [|y l2 _] using rev_ind.
        * change (l1 ++ [a; c]) with (l1 ++ [a] ++ [c]) in Heq. rewrite app_assoc in Heq. apply app_inj_tail in Heq as [Heq ->].
          apply app_inj_tail in Heq as [-> ->]. by rewrite Ha, Hc in H2.
        * replace (l1 ++ a :: c :: l2 ++ [y]) with ((l1 ++ a :: c :: l2) ++ [y]) in Heq by (by rewrite <-app_assoc).
          apply app_inj_tail in Heq as [Heq ->]. by destruct (Hadj l1 a c l2 Heq).
  Qed.
  Lemma tidy_absorb_all k p l : (p = [] ∨ tidy keyf k p) → (∀ e, e ∈ l → has_key keyf k e.2) →
    foldl absorb p l = [] ∨ tidy keyf k (foldl absorb p l).
  Proof.
    revert p. induction l as [|e l IH]; intros p Hp Hl; [done|]. simpl. apply IH.
    - right. apply tidy_absorb; [done|]. apply Hl. left.
    - intros e' ?. apply Hl. by right.
  Qed.
  Lemma keyed_prefix_elem o l : o ∈ keyed_prefix keyf l → o ∈ l.
  Proof.
    induction l as [|o' l IH]; simpl; [done|]. destruct (key_of keyf o'); [|by intros ?%elem_of_nil].
    intros [->|?]%elem_of_cons; [left|right; by apply IH].
  Qed.
  Lemma offers_key k p c e : e ∈ offers k p c → has_key keyf k e.2.
  Proof.
    destruct c as [o|o|kn o| | |o|k'|kn l|kn| |out|ds| | |]; simpl; try (by intros ?%elem_of_nil).
    1,2: case_decide; [by intros ->%elem_of_list_singleton|by intros ?%elem_of_nil].
    - case_decide as Hd; [|by intros ?%elem_of_nil]. intros ->%elem_of_list_singleton. tauto.
    - intros [Hin|Hin]%elem_of_app.
      + apply elem_of_list_fmap in Hin as (o & -> & Hin). by apply elem_of_list_filter in Hin as [? _].
      + case_decide; [|by apply elem_of_nil in Hin]. destruct kn as [kn|].
        * apply elem_of_list_fmap in Hin as (j & -> & Hin). apply elem_of_list_filter in Hin as [-> _]. done.
        * destruct (last p); [|by apply elem_of_nil in Hin]. apply elem_of_list_singleton in Hin as ->. done.
    - destruct kn as [kn|]; [|by intros ?%elem_of_nil]. case_decide; [|by intros ?%elem_of_nil].
      intros (o & -> & Hin)%elem_of_list_fmap. simpl. apply elem_of_take in Hin as (i & Hi & _).
      apply elem_of_list_lookup_2 in Hi. by apply elem_of_list_filter in Hi as [? _].
  Qed.
  Lemma df_tidy h s k : exec dstep dfifo_init h s → tidy_puts keyf h →
    (k_pend (replay k h) = [] ∨ tidy keyf k (k_pend (replay k h))) ∧ (k_proc (replay k h) = [] ∨ tidy keyf k (k_proc (replay k h))).
  Proof.
    intros Hex. revert s Hex. induction h as [|[c r] h IH] using rev_ind; intros s Hex Hti; [by split; left|].
    apply exec_snoc in Hex as (m & Hm & Hst). destruct (IH m Hm) as [IHp IHc].
    { intros ds r' Hin. apply (Hti ds r'). apply elem_of_app. by left. }
    rewrite replay_snoc. set (st := replay k h) in *.
    assert (Hall : foldl absorb (k_pend st) (offers k (k_pend st) c) = [] ∨ tidy keyf k (foldl absorb (k_pend st) (offers k (k_pend st) c))).
    { apply tidy_absorb_all; [done|]. intros e He. by eapply offers_key. }
    assert (Hput : ∀ ds, c = DAddIfNotPresent ds → deltas_key ds = Some k → tidy keyf k ds).
    { intros ds -> Hk. destruct (Hti ds r) as [j Hj]; [apply elem_of_app; right; by apply elem_of_list_singleton|].
      unfold DeltaFifo_spec.deltas_key in Hk. destruct (last ds) as [d|] eqn:Hl; [|done]. simpl in Hk.
      destruct Hj as (Hne & Hkj & Hadj). assert (d ∈ ds) as Hin by (by apply last_Some_elem_of).
      specialize (Hkj d Hin) as Hdj. unfold has_key in Hdj. assert (j = k) as -> by congruence. done. }
    clear Hst. destruct c as [o|o|kn o| | |o|k'|kn l|kn| |out|ds| | |], r; simpl; try (by split); try (by split; [exact Hall|]).
    all: try (case_decide as Hd; simpl; try (by split)).
    all: try (split; [right; apply Hput; [done|exact (proj1 Hd)]|done]).
    all: try (split; [by left|done]).
    all: destruct (k_proc st) as [|? ?] eqn:Hps; [simpl; rewrite ?Hps; split; auto|].
    all: try match goal with out : doutcome |- _ => destruct out; simpl; split; by auto end.
  Qed.
  Lemma df_pending_tidy h s k ds : exec dstep dfifo_init h s → tidy_puts keyf h →
    (dstep s (DGetByKey k)).2 = DDeltas (Some ds) → tidy keyf k ds.
  Proof.
    intros Hex Hti. rewrite (df_readable _ _ _ Hex). destruct (df_tidy _ _ k Hex Hti) as [[Hn|Ht] _].
    - by rewrite Hn.
    - intros Heq. destruct (k_pend (replay k h)); [done|]. by simplify_eq.
  Qed.
  Lemma df_popped_tidy h s ds : exec dstep dfifo_init h s → tidy_puts keyf h →
    (dstep s DPop).2 = DPopped ds → ∃ k, tidy keyf k ds.
  Proof.
    intros Hex Hti Hp. destruct (df_pop_delivers _ _ _ Hex Hp) as (k & Hk & Hpd). exists k.
    destruct (df_tidy _ _ k Hex Hti) as [[Hn|Ht] _]; [|by rewrite <-Hpd]. rewrite Hn in Hpd. by subst.
  Qed.

  (** one call changes what is pending as [offers] says *)
  Lemma df_change h s c k : exec dstep dfifo_init h s → changes c = true → (dstep s c).2 ≠ DLockWait →
    pend k (dstep s c).1 = foldl absorb (pend k s) (offers k (pend k s) c).
  Proof.
    intros HD%DI_exec Hc. unfold DeltaFifo_model.dstep, dcall. destruct (d_busy s) as [[??]|] eqn:Hb.
    - destruct (needs_lock c) eqn:Hl; [done|]. by destruct c.
    - intros _. destruct (dcall_free keyf s c) as [[s' r] n] eqn:Hcall.
      destruct (change_call _ _ _ _ _ HD Hb Hc Hcall) as (_ & _ & _ & Hp & _). apply Hp.
  Qed.
  Lemma df_get s k : DI s → (dstep s (DGetByKey k)).2 = DDeltas (match pend k s with [] => None | ds => Some ds end).
  Proof.
    intros HD. unfold DeltaFifo_model.dstep, dcall. rewrite <-(pend_dget _ _ HD). by destruct (d_busy s) as [[??]|].
  Qed.
End proofs.
