From Verif Require Import Base KeyFunc_model DeltaFifo_model DeltaFifo_spec DeltaFifo_proofs DeltaFifo_proofs2 Store_model Store_spec Store_proofs
  Reflector_model Reflector_spec Reflector_proofs World_model World_proofs
  Informer_model Informer_spec Informer_proofs Informer_proofs2 Informer_proofs3 InformerWorld_model.

(** relists only when the pending changes permit it *)
Definition careful {K O V N : Type} `{EqDecision K} (keyf : O → option K) (x : world O * inf K O V N) (l : ylabel K O) : Prop :=
  match l with YWorld (WInput (IList items _)) => calm_list keyf x.2 items | _ => True end.
(** no delivery for key [k] fails (other than by asking to be queued again) with
    deltas for it left to deliver *)
Definition intact {K O V N : Type} (k : K) (x : world O * inf K O V N) (l : ylabel K O) : Prop :=
  match l with YInf (PRaise None | PCancel) => ∀ ds, d_busy (i_q x.2) = Some (k, ds) → i_todo x.2 = [] | _ => True end.

Section proofs.
  Context {K O V N : Type} `{EqDecision K} `{EqDecision V} `{EqDecision N} (keyf : O → option K) (g : rcfg O nat) (fs : dict N (index_func (dobj K O) V)).
  Hypothesis Hfs : good_indexers fs.
  Notation inf := (inf K O V N).
  Notation INV := (INV keyf fs).
  Notation istep := (istep (V:=V) (N:=N) keyf).
  Notation ystep := (ystep (V:=V) (N:=N) keyf g).
  Notation ystep_c := (λ x l y, ystep x l y ∧ careful keyf x l).
  Implicit Types (w : world O) (s : inf).

  Lemma plain_call s c dc o k t : INV s → d_busy (i_q s) = None → change_of s c = Some dc → keyf o = Some k →
    (t = DtAdded ∧ c = QAdd o ∨ t = DtUpdated ∧ c = QUpdate o ∨ t = DtDeleted ∧ c = QDelete o) →
    ∀ s' r, istep s c = (s', r) → ∀ j, eventual j s' = if decide (j = k) then (if bool_decide (t = DtDeleted) then None else Some (DObj o)) else eventual j s.
  Proof.
    intros HI Hb Hch Hk Ht s' r Hst j. destruct (INV_step keyf fs Hfs _ _ _ _ HI Hst) as [HI' He].
    assert (Hp : ∀ j, pend j (i_q s') = foldl absorb (pend j (i_q s)) (offers keyf j (pend j (i_q s)) dc)).
    { intros j'. assert (Hcq : istep s c = call_q keyf s dc) by (destruct Ht as [[_ ->]|[[_ ->]|[_ ->]]]; simpl in Hch; by simplify_eq).
      rewrite Hcq in Hst. unfold call_q in Hst. assert (Hc : changes dc = true) by (destruct Ht as [[_ ->]|[[_ ->]|[_ ->]]]; simpl in Hch; by simplify_eq).
      unfold dstep, dcall in Hst. rewrite Hb in Hst. destruct (dcall_free keyf (i_q s) dc) as [[q1 r1] n1] eqn:Hf. simpl in Hst. injection Hst as <- _.
      by destruct (change_call keyf _ _ _ _ _ (iv_di _ _ _ HI) Hb Hc Hf) as (_ & _ & _ & Hx & _). }
    assert (Hst' : i_st s' = i_st s ∧ d_busy (i_q s') = None).
    { destruct He as [Hs Hw _|dc' res Hch' _ Hb' Hs _ _ _ _|k0 ds d rest Hc| k0 ds Hc| k0 ds cause Hc].
      - split; [done|]. assert (Hcq : istep s c = call_q keyf s dc) by (destruct Ht as [[_ ->]|[[_ ->]|[_ ->]]]; simpl in Hch; by simplify_eq).
        rewrite Hcq in Hst. unfold call_q in Hst. assert (Hc : changes dc = true) by (destruct Ht as [[_ ->]|[[_ ->]|[_ ->]]]; simpl in Hch; by simplify_eq).
        unfold dstep, dcall in Hst. rewrite Hb in Hst. destruct (dcall_free keyf (i_q s) dc) as [[q1 r1] n1] eqn:Hf. simpl in Hst. injection Hst as <- _.
        by destruct (change_call keyf _ _ _ _ _ (iv_di _ _ _ HI) Hb Hc Hf) as (_ & Hx & _).
      - done.
      - destruct Ht as [[_ ->]|[[_ ->]|[_ ->]]]; done.
      - destruct Ht as [[_ ->]|[[_ ->]|[_ ->]]]; destruct Hc; done.
      - destruct Ht as [[_ ->]|[[_ ->]|[_ ->]]]; done. }
    destruct Hst' as [Hs' Hb']. unfold eventual. rewrite !idle_work by done. rewrite Hp. unfold cont. rewrite Hs'.
    assert (Hhk : has_key keyf j (DObj o) ↔ j = k) by (unfold has_key; simpl; rewrite Hk; naive_solver).
    destruct Ht as [[-> ->]|[[-> ->]|[-> ->]]]; simpl in Hch; injection Hch as <-; simpl.
    - destruct (decide (has_key keyf j (DObj o))) as [Hj|Hj]; [rewrite decide_True by tauto|rewrite decide_False by tauto; done]. simpl. by rewrite settle_absorb.
    - destruct (decide (has_key keyf j (DObj o))) as [Hj|Hj]; [rewrite decide_True by tauto|rewrite decide_False by tauto; done]. simpl. by rewrite settle_absorb.
    - case_decide as Hj.
      + rewrite decide_True by tauto. simpl. by rewrite settle_absorb.
      + destruct (decide (j = k)) as [Hjk|]; [|done]. simpl. destruct (pend j (i_q s)) as [|d0 p0] eqn:Hpd; [|destruct Hj; split; [by apply Hhk|by left]].
        unfold settle. simpl. destruct (dget j (s_items (i_st s))) eqn:Hg; [|done]. destruct Hj. split; [by apply Hhk|]. right. simpl. by rewrite ?Hg.
  Qed.

  Lemma eventual_drop s c s' r k : INV s → istep s c = (s', r) → c = PRaise None ∨ c = PCancel → (∀ ds, d_busy (i_q s) = Some (k, ds) → i_todo s = []) →
    eventual k s' = eventual k s.
  Proof.
    intros HI Hst Hc Hin. destruct (INV_step keyf fs Hfs _ _ _ _ HI Hst) as [HI' He].
    destruct He as [Hs Hw _|dc res Hch|k0 ds d rest -> Hb _ Hd Hw Hw' Ho| k0 ds _ Hs Hb Hw Ho _| k0 ds cause ->].
    - unfold eventual, cont. by rewrite Hs, Hw.
    - by destruct Hc; subst.
    - by destruct Hc.
    - unfold eventual, cont. rewrite Hs. destruct (decide (k = k0)) as [->|Hne]; [|by rewrite Ho].
      by rewrite Hw, (busy_work keyf fs _ _ _ HI Hb), (Hin _ Hb).
    - by destruct Hc.
  Qed.

  Definition YI0 w s : Prop := INV s ∧ WInv keyf g w.
  Definition YI k w s : Prop := INV s ∧ WInv keyf g w ∧ ∀ v, r_last (w_refl w) = Some v → eventual k s = DObj <$> server_at keyf (w_changes w) v k.

  Lemma YI_apply k s e cs v s' out : INV s → d_busy (i_q s) = None → apply_event (RV:=nat) (inf_sops keyf) e s = (s', out) →
    (e_type e = EvAdded ∨ e_type e = EvModified ∨ e_type e = EvDeleted) → is_Some (keyf (e_obj e)) → cs !! v = Some e →
    eventual k s = DObj <$> server_at keyf cs v k → INV s' ∧ eventual k s' = DObj <$> server_at keyf cs (v + 1) k.
  Proof.
    intros HI Hb Hap Hty [k0 Hk] Hcs Hc.
    assert (Hsv : server_at keyf cs (v + 1) k = after_changes keyf k (e :: reverse (take v cs))).
    { unfold server_at. replace (v + 1) with (Datatypes.S v) by lia. by rewrite (take_S_r _ _ _ Hcs), reverse_app. }
    assert (Hfin : ∀ c t dc, change_of s c = Some dc → (t = DtAdded ∧ c = QAdd (e_obj e) ∨ t = DtUpdated ∧ c = QUpdate (e_obj e) ∨ t = DtDeleted ∧ c = QDelete (e_obj e)) →
      s' = (istep s c).1 → (bool_decide (t = DtDeleted) = bool_decide (e_type e = EvDeleted)) → INV s' ∧ eventual k s' = DObj <$> server_at keyf cs (v + 1) k).
    { intros c t dc Hch Ht -> Hdel. destruct (istep s c) as [s1 r1] eqn:Hst. split; [by eapply INV_step|]. simpl.
      rewrite (plain_call s c dc (e_obj e) k0 t HI Hb Hch Hk Ht s1 r1 Hst k), Hsv, Hdel. simpl. rewrite Hk. destruct (decide (k = k0)) as [->|Hne].
      - rewrite decide_True by done. destruct Hty as [Hty|[Hty|Hty]]; by rewrite Hty.
      - rewrite decide_False by congruence. apply Hc. }
    unfold apply_event in Hap. destruct e as [ty o]. simpl in *. destruct Hty as [->|[->| ->]]; simpl in Hap.
    - destruct (ok_of (istep s (QAdd o))) as [s1 ok1] eqn:Hok. unfold ok_of in Hok. injection Hap as <- _. injection Hok as <- _. by eapply (Hfin (QAdd o) DtAdded); [done|left|..].
    - destruct (ok_of (istep s (QUpdate o))) as [s1 ok1] eqn:Hok. unfold ok_of in Hok. injection Hap as <- _. injection Hok as <- _. by eapply (Hfin (QUpdate o) DtUpdated); [done|right; left|..].
    - destruct (ok_of (istep s (QDelete o))) as [s1 ok1] eqn:Hok. unfold ok_of in Hok. injection Hap as <- _. injection Hok as <- _. by eapply (Hfin (QDelete o) DtDeleted); [done|right; right|..].
  Qed.

  Lemma YI_step k w s l w' s' : YI k w s → ystep (w, s) l (w', s') → careful keyf (w, s) l → intact k (w, s) l → YI k w' s'.
  Proof.
    intros (HI & HW & Hc) Hst Hcare Hint. inversion Hst as [w0 s0 wl w1 s1 Hlock Hw|w0 s0 c s1 r Hloc Hi]; subst; clear Hst.
    2:{ split; [by eapply INV_step|]. split; [done|]. intros v Hv. rewrite <-(Hc v Hv).
        destruct c as [| | | | | | | | | |[]| | |]; try done; first [by eapply eventual_keeps|eapply eventual_drop; [done|done|tauto|exact Hint]]. }
    pose proof (WInv_step _ _ _ _ _ _ _ _ HW Hw) as HW'. pose proof HW as [Hg Hn Ho Hs]. unfold YI.
    inversion Hw as [w0 s0 e Hgc|w0 s0 e r s1 out Hcur Hr|w0 s0 i r s1 out Hsv Hr]; subst; clear Hw.
    - split; [done|]. split; [done|]. simpl. intros v Hv. rewrite (Hc v Hv). unfold server_at. rewrite take_app_le; [done|]. by apply Hs.
    - simpl in Hlock. destruct Hlock as [Hb|]; [|done].
      destruct (observe_changes w (w_cursor w + 1) r out) as [Hoc Hor]. rewrite Hoc, Hor.
      destruct (Hg _ _ Hcur) as (Hty & Hk & Hacc). apply (rstep_kind g _ w) in Hr. inversion Hr as [| |e' n rv s2 out' Hpc Hf Ha Hap| | |i r' out' He Hout Hrep Hl Hop Hac Hwa]; subst.
      + pose proof (accepted_fun _ _ _ _ Ha Hacc) as ->.
        destruct (r_last (w_refl w)) as [v|] eqn:Hlast; [|exfalso; apply Hn; [done|by rewrite Hpc]].
        destruct (Hs v eq_refl) as (H1 & H2 & H3 & H4). rewrite Hpc in H4. specialize (H4 I). rewrite H4 in *.
        destruct (YI_apply k _ _ _ _ _ _ HI Hb Hap Hty Hk Hcur (Hc v eq_refl)) as (HI' & Hc'). split; [done|]. split; [done|]. intros v' [= <-]. done.
      + split; [done|]. split; [done|]. by rewrite Hl.
    - destruct (observe_changes w (cursor_after w i) r out) as [Hoc Hor]. rewrite Hoc, Hor.
      apply (rstep_kind g _ w) in Hr. inversion Hr as [items v s2 Hpc Hrp|items v s2 Hpc Hrp|e n rv s2 out' Hpc Hf Ha Hap|due s2 ok Hac Hre|Hpc|i' r' out' He Hout Hrep Hl Hop Hac Hwa]; subst.
      + simpl in Hlock. destruct Hlock as [Hb|]; [|done]. destruct Hsv as (Hle & Hks & Hgl).
        change (ok_of (istep s (QReplace items)) = (s', true)) in Hrp. unfold ok_of in Hrp. destruct (istep s (QReplace items)) as [s3 r3] eqn:Hi. simpl in Hrp.
        assert (s3 = s' ∧ r3 = IQ DNone) as [-> ->] by (destruct r3 as [[]| | |]; by simplify_eq).
        split; [by eapply INV_step|]. split; [done|]. simpl. intros v' [= <-].
        rewrite (eventual_replace keyf fs Hfs _ _ _ HI Hb Hi k), <-Hgl. apply replaced_calm. apply (Hcare k).
      + exfalso. simpl in Hlock. destruct Hlock as [Hb|]; [|done]. destruct Hsv as (Hle & Hks & Hgl).
        change (ok_of (istep s (QReplace items)) = (s', false)) in Hrp. unfold ok_of in Hrp. injection Hrp as _ Hf.
        cbn [Informer_model.istep] in Hf. unfold call_q in Hf.
        pose proof (replace_ok keyf (i_q s) (Some (known_of (i_st s))) (DObj <$> items) (iv_di _ _ _ HI) Hb) as Hok.
        destruct (dstep keyf (i_q s) (DReplace (Some (known_of (i_st s))) (DObj <$> items))) as [q3 r3]. simpl in *. rewrite Hok in Hf; [done|].
        intros o (o' & -> & Ho')%elem_of_list_fmap. by apply Hks.
      + simpl in Hlock. destruct Hsv as [[Hty Hacc]|Hna]; [|by destruct (Hna rv)]. pose proof (accepted_fun _ _ _ _ Ha Hacc) as ->.
        destruct (r_last (w_refl w)) as [v|] eqn:Hlast; [|exfalso; apply Hn; [done|by rewrite Hpc]].
        destruct (Hs v eq_refl) as (H1 & H2 & H3 & H4). rewrite Hpc in H4. specialize (H4 I). rewrite H4 in *.
        unfold apply_event in Hap. assert (s' = s) as -> by (destruct Hty as [Hty|Hty]; rewrite Hty in Hap; by simplify_eq).
        split; [done|]. split; [done|]. simpl. intros v' [= <-]. by apply Hc.
      + change (ok_of (istep s QResync) = (s', ok)) in Hre. unfold ok_of in Hre. destruct (istep s QResync) as [s3 r3] eqn:Hi. simpl in Hre. injection Hre as -> _.
        split; [by eapply INV_step|]. split; [done|]. simpl. intros v Hv. rewrite (eventual_resync keyf fs Hfs _ _ _ HI Hi). by apply Hc.
      + done.
      + split; [done|]. split; [done|]. by rewrite Hl.
  Qed.
  Lemma YI_runs k x ls y : YI k x.1 x.2 → reach (λ x l y, ystep x l y ∧ careful keyf x l ∧ intact k x l) x ls y → YI k y.1 y.2.
  Proof.
    intros H0. apply (reach_inv _ (λ x, YI k x.1 x.2)); [|done]. intros [w1 s1] l [w2 s2] HY (Hst & Hca & Hin). by eapply YI_step.
  Qed.
  Lemma cache_is_server_state ls w s v k : reach (λ x l y, ystep x l y ∧ careful keyf x l ∧ intact k x l) (world_init, inf_init fs) ls (w, s) → r_last (w_refl w) = Some v → drained s →
    (istep s (SLook k)).2 = IObj (DObj <$> server_at keyf (w_changes w) v k).
  Proof.
    intros Hr Hv Hd. assert (YI k w s) as (HI & _ & Hc).
    { eapply (YI_runs k _ _ (w, s)); [|done]. split; [by apply INV_init|]. split; [apply WInv_init|done]. }
    rewrite look_cont, (drained_eventual _ _ Hd). f_equal. by apply Hc.
  Qed.

  (** whatever failed before, a list repairs every key *)
  Lemma YI0_step w s l w' s' : YI0 w s → ystep (w, s) l (w', s') → YI0 w' s'.
  Proof.
    intros (HI & HW) Hst. inversion Hst as [w0 s0 wl w1 s1 Hlock Hw|w0 s0 c s1 r Hloc Hi]; subst; clear Hst; [|split; [by eapply INV_step|done]].
    pose proof (WInv_step _ _ _ _ _ _ _ _ HW Hw) as HW'. split; [|done].
    assert (Hin : ∀ c s1 b, ok_of (istep s c) = (s1, b) → INV s1).
    { intros c s1 b Hok. unfold ok_of in Hok. destruct (istep s c) as [s2 r2] eqn:Hi. injection Hok as <- _. by eapply INV_step. }
    assert (Hkind : ∀ i r s2 out, rkind g (inf_sops keyf) w s i r s2 out → INV s2).
    { intros i r s2 out Hk. inversion Hk as [items v s3 Hpc Hrp|items v s3 Hpc Hrp|e n rv s3 out' Hpc Hf Ha Hap|due s3 ok Hac Hre|Hpc|i' r' out' He Hout Hrep Hl Hop Hac Hwa]; subst; try done.
      - by eapply (Hin (QReplace items)).
      - by eapply (Hin (QReplace items)).
      - unfold apply_event in Hap. destruct (e_type e); simpl in Hap; try (injection Hap as <- _; done).
        + injection Hap as <- _. exact (Hin (QAdd (e_obj e)) _ _ eq_refl).
        + injection Hap as <- _. exact (Hin (QUpdate (e_obj e)) _ _ eq_refl).
        + injection Hap as <- _. exact (Hin (QDelete (e_obj e)) _ _ eq_refl).
      - by eapply (Hin QResync). }
    inversion Hw as [w0 s0 e Hgc|w0 s0 e r s1 out Hcur Hr|w0 s0 i r s1 out Hsv Hr]; subst; clear Hw; [done|..]; apply (rstep_kind g _ w) in Hr; by eapply Hkind.
  Qed.
  Lemma YI_list w s items v w' s' k : YI0 w s → r_pc (w_refl w) = RIdle → ystep (w, s) (YWorld (WInput (IList items v))) (w', s') → calm keyf k items (default [] (dget k (d_items (i_q s)))) (dget k (s_items (i_st s))) → YI k w' s'.
  Proof.
    intros (HI & HW) Hpc Hst Hcalm. inversion Hst as [w0 s0 wl w1 s1 Hlock Hw|]; subst; clear Hst.
    pose proof (WInv_step _ _ _ _ _ _ _ _ HW Hw) as HW'. unfold YI.
    inversion Hw as [|w0 s0 e r s1 out Hcur Hr|w0 s0 i r s1 out Hsv Hr]; subst; clear Hw.
    destruct (observe_changes w (w_cursor w) r out) as [Hoc Hor]. rewrite Hoc, Hor.
    simpl in Hlock. destruct Hlock as [Hb|]; [|done]. destruct Hsv as (Hle & Hks & Hgl).
    unfold rstep in Hr. rewrite Hpc in Hr. cbn [so_replace inf_sops] in Hr. unfold ok_of in Hr.
    pose proof (replace_ok keyf (i_q s) (Some (known_of (i_st s))) (DObj <$> items) (iv_di _ _ _ HI) Hb) as Hok.
    destruct (istep s (QReplace items)) as [s3 r3] eqn:Hi. pose proof Hi as Hi'. cbn [Informer_model.istep] in Hi'. unfold call_q in Hi'.
    destruct (dstep keyf (i_q s) (DReplace (Some (known_of (i_st s))) (DObj <$> items))) as [q3 r4]. simpl in Hok. injection Hi' as _ <-.
    rewrite Hok in Hi, Hr. 2,3: intros o (o' & -> & Ho')%elem_of_list_fmap; by apply Hks.
    simpl in Hr. injection Hr as <- <- _. split; [by eapply INV_step|]. split; [done|]. simpl. intros v' [= <-].
    rewrite (eventual_replace keyf fs Hfs _ _ _ HI Hb Hi k), <-Hgl. by apply replaced_calm.
  Qed.
  Lemma cache_after_list ls1 w1 s1 items v1 w2 s2 ls2 w s v k : reach ystep (world_init, inf_init fs) ls1 (w1, s1) → r_pc (w_refl w1) = RIdle →
    ystep (w1, s1) (YWorld (WInput (IList items v1))) (w2, s2) → careful keyf (w1, s1) (YWorld (WInput (IList items v1))) →
    reach (λ x l y, ystep x l y ∧ careful keyf x l ∧ intact k x l) (w2, s2) ls2 (w, s) → r_last (w_refl w) = Some v → drained s →
    (istep s (SLook k)).2 = IObj (DObj <$> server_at keyf (w_changes w) v k).
  Proof.
    intros Hr1 Hpc Hst Hca Hr2 Hv Hd. assert (YI0 (w1, s1).1 (w1, s1).2) as H1.
    { revert Hr1. apply (reach_inv _ (λ x, YI0 x.1 x.2)); [intros [??] l [??]; apply YI0_step|]. split; [by apply INV_init|apply WInv_init]. }
    assert (YI k w s) as (HI & _ & Hc). { eapply (YI_runs k (w2, s2) _ (w, s)); [|done]. simpl. eapply YI_list; try done. }
    rewrite look_cont, (drained_eventual _ _ Hd). f_equal. by apply Hc.
  Qed.
  Lemma drained_calm s l : drained s → calm_list keyf s l.
  Proof.
    intros [Hit Hb] k. rewrite Hit, dget_nil. simpl. unfold calm. destruct (last_keyed keyf k l); [done|]. by left.
  Qed.
End proofs.
