From Verif Require Import Base DeltaFifo_model DeltaFifo_spec DeltaFifo_proofs DeltaFifo_proofs2 Store_model Store_spec Store_proofs
  Reflector_model Reflector_spec Informer_model Informer_spec Informer_proofs Informer_proofs2.

Section proofs.
  Context {K O V N : Type} `{EqDecision K} `{EqDecision V} `{EqDecision N} (keyf : O → option K) (fs : dict N (index_func (dobj K O) V)).
  Hypothesis Hfs : good_indexers fs.
  Notation dobj := (dobj K O).
  Notation delta := (delta K O).
  Notation inf := (inf K O V N).
  Notation cstore := (store K dobj V N).
  Notation istep := (istep (V:=V) (N:=N) keyf).
  Notation INV := (INV keyf fs).
  Notation effect := (effect keyf).
  Implicit Types (s : inf) (k : K) (p : list delta) (d : delta) (st : cstore).

  Lemma look_cont s k : (istep s (SLook k)).2 = IObj (cont k s).
  Proof. done. Qed.
  Lemma pend_of s k (p : option (list delta)) : INV s → (istep s (QGetByKey k)).2 = IQ (DDeltas p) → pend k (i_q s) = pending_of p.
  Proof.
    intros HI. cbn [Informer_model.istep]. unfold call_q. pose proof (df_get keyf (i_q s) k (iv_di _ _ _ HI)) as Hg.
    destruct (dstep keyf (i_q s) (DGetByKey k)) as [q r]. simpl in *. rewrite Hg. intros [= <-]. by destruct (pend k (i_q s)).
  Qed.
  Lemma processing_keeps (c : iop K O) : processing c → keeps c.
  Proof. by intros [->|[->| ->]]. Qed.

  (** ** C29, C30 *)
  Lemma replace_drain h0 s0 l s1 h1 s2 k (p : option (list delta)) c :
    exec istep (inf_init fs) h0 s0 → istep s0 (QReplace l) = (s1, IQ DNone) → exec istep s1 h1 s2 → (∀ e, e ∈ h1 → processing e.1) → drained s2 →
    (istep s0 (QGetByKey k)).2 = IQ (DDeltas p) → (istep s0 (SLook k)).2 = IObj c →
    (istep s2 (SLook k)).2 = IObj (replaced keyf k l (pending_of p) c).
  Proof.
    intros Hex0%(INV_exec keyf fs Hfs) Hst Hex1 Hall Hd Hp Hc. rewrite look_cont in *. injection Hc as <-. rewrite (drained_eventual _ _ Hd).
    rewrite <-(pend_of _ _ _ Hex0 Hp). assert (Hb : d_busy (i_q s0) = None).
    { destruct (d_busy (i_q s0)) as [[k0 ds0]|] eqn:Hb; [|done]. simpl in Hst. unfold call_q in Hst. by rewrite (busy_step_idle keyf _ (DReplace _ _) _ _ Hb) in Hst. }
    destruct (eventual_keeps_exec keyf fs Hfs s1 h1 s2) as [_ He]; [by eapply INV_step|done|intros e ?; by apply processing_keeps, Hall|].
    rewrite He. f_equal. by eapply eventual_replace.
  Qed.
  Lemma replaced_calm k l p c : calm keyf k l p c → replaced keyf k l p c = DObj <$> last_keyed keyf k l.
  Proof.
    unfold calm, replaced. destruct (last_keyed keyf k l); [by intros ->|]. destruct c; [done|]. intros [->|Hx]; [done|done|]. by apply settle_ends.
  Qed.
  Lemma resync_drain h0 s0 r s1 h1 s2 k (p : option (list delta)) c :
    exec istep (inf_init fs) h0 s0 → istep s0 QResync = (s1, IQ r) → r ≠ DLockWait → exec istep s1 h1 s2 → (∀ e, e ∈ h1 → processing e.1) → drained s2 →
    (istep s0 (QGetByKey k)).2 = IQ (DDeltas p) → (istep s0 (SLook k)).2 = IObj c →
    (istep s2 (SLook k)).2 = IObj (settle c (pending_of p)).
  Proof.
    intros Hex0%(INV_exec keyf fs Hfs) Hst Hlw Hex1 Hall Hd Hp Hc. rewrite look_cont in *. injection Hc as <-. rewrite (drained_eventual _ _ Hd).
    rewrite <-(pend_of _ _ _ Hex0 Hp). assert (Hb : d_busy (i_q s0) = None).
    { destruct (d_busy (i_q s0)) as [[k0 ds0]|] eqn:Hb; [|done]. simpl in Hst. unfold call_q in Hst. rewrite (busy_step_idle keyf _ (DResync _) _ _ Hb) in Hst by done. congruence. }
    destruct (eventual_keeps_exec keyf fs Hfs s1 h1 s2) as [_ He]; [by eapply INV_step|done|intros e ?; by apply processing_keeps, Hall|].
    rewrite He, (eventual_resync keyf fs Hfs s0 s1 _ Hex0 Hst). unfold eventual. by rewrite idle_work.
  Qed.

  (** everything pending can be processed *)
  Lemma drain_todo s k ds : INV s → d_busy (i_q s) = Some (k, ds) →
    ∃ h s', exec istep s h s' ∧ (∀ e, e ∈ h → processing e.1) ∧ INV s' ∧ d_busy (i_q s') = None ∧ d_items (i_q s') = d_items (i_q s).
  Proof.
    remember (i_todo s) as todo eqn:Ht. revert s Ht. induction todo as [|d rest IH]; intros s Ht HI Hb.
    - destruct (istep s PDone) as [s' r] eqn:Hst. pose proof (INV_step keyf fs Hfs _ _ _ _ HI Hst) as [HI' _]. exists [(PDone, r)], s'.
      split; [by econstructor; [done|constructor]|]. split; [intros e ->%elem_of_list_singleton; right; by right|]. split; [done|].
      simpl in Hst. rewrite Hb, <-Ht in Hst. unfold end_process, dstep, dcall in Hst. rewrite Hb in Hst. simpl in Hst. unfold df_finish in Hst. rewrite Hb in Hst. simpl in Hst. by simplify_eq.
    - destruct (istep s PDelta) as [s' r] eqn:Hst. pose proof (INV_step keyf fs Hfs _ _ _ _ HI Hst) as [HI' _].
      assert (Hs' : i_q s' = i_q s ∧ i_todo s' = rest).
      { simpl in Hst. rewrite Hb, <-Ht in Hst. assert (Hk : has_key keyf k d.2) by (apply (iv_keys _ _ _ HI); rewrite (busy_work keyf fs _ _ _ HI Hb), <-Ht; left).
        destruct (handle_delta_spec keyf fs Hfs _ _ _ (iv_sg _ _ _ HI) Hk) as (st' & Hh & _). rewrite Hh in Hst. by simplify_eq. }
      destruct Hs' as [Hq' Ht']. destruct (IH s') as (h & s2 & Hex & Hall & HI2 & Hb2 & Hit2); [done|done|by rewrite Hq'|].
      exists ((PDelta, r) :: h), s2. split; [by econstructor|]. split; [|by rewrite Hit2, Hq'].
      intros e [->|?]%elem_of_cons; [right; by left|by apply Hall].
  Qed.
  Lemma can_drain_INV s : INV s → ∃ h s', exec istep s h s' ∧ (∀ e, e ∈ h → processing e.1) ∧ drained s'.
  Proof.
    remember (length (d_items (i_q s))) as n eqn:Hn. revert s Hn. induction n as [|n IH]; intros s Hn HI.
    - destruct (d_busy (i_q s)) as [[k ds]|] eqn:Hb.
      + destruct (drain_todo _ _ _ HI Hb) as (h & s' & Hex & Hall & _ & Hb' & Hit). exists h, s'. split; [done|]. split; [done|]. split; [|done].
        rewrite Hit. by destruct (d_items (i_q s)).
      + exists [], s. split; [constructor|]. split; [by intros e ?%elem_of_nil|]. split; [by destruct (d_items (i_q s))|done].
    - assert (∃ h s1, exec istep s h s1 ∧ (∀ e, e ∈ h → processing e.1) ∧ INV s1 ∧ d_busy (i_q s1) = None ∧ d_items (i_q s1) = d_items (i_q s)) as (h1 & s1 & Hex1 & Hall1 & HI1 & Hb1 & Hit1).
      { destruct (d_busy (i_q s)) as [[k ds]|] eqn:Hb; [by eapply drain_todo|]. exists [], s. split; [constructor|]. split; [by intros e ?%elem_of_nil|done]. }
      destruct (istep s1 PPop) as [s2 r2] eqn:Hst. pose proof (INV_step keyf fs Hfs _ _ _ _ HI1 Hst) as [HI2 _].
      assert (∃ k ds, d_busy (i_q s2) = Some (k, ds) ∧ length (d_items (i_q s2)) = n) as (k & ds & Hb2 & Hn2).
      { simpl in Hst. unfold dstep, dcall in Hst. rewrite Hb1 in Hst. simpl in Hst. rewrite (pop_spec keyf _ (iv_di _ _ _ HI1)), Hit1 in Hst.
        destruct (d_items (i_q s)) as [|[k ds] rest]; [done|]. simpl in Hst. simplify_eq. exists k, ds. by simpl in *; simplify_eq. }
      destruct (drain_todo _ _ _ HI2 Hb2) as (h3 & s3 & Hex3 & Hall3 & HI3 & Hb3 & Hit3).
      destruct (IH s3) as (h4 & s4 & Hex4 & Hall4 & Hd); [by rewrite Hit3|done|].
      exists (h1 ++ (PPop, r2) :: h3 ++ h4), s4. split; [|split; [|done]].
      + apply exec_app. exists s1. split; [done|]. econstructor; [done|]. apply exec_app. by exists s3.
      + intros e [?|[->|[?|?]%elem_of_app]%elem_of_cons]%elem_of_app; [by apply Hall1|by left|by apply Hall3|by apply Hall4].
  Qed.
  Lemma can_drain h s : exec istep (inf_init fs) h s → ∃ h' s', exec istep s h' s' ∧ (∀ e, e ∈ h' → processing e.1) ∧ drained s'.
  Proof. intros Hex%(INV_exec keyf fs Hfs). by apply can_drain_INV. Qed.

  (** ** C43 *)
  Fixpoint sound (c : option dobj) (p : list delta) : Prop :=
    match p with [] => True | d :: p => (is_deletion d = true → c ≠ None) ∧ sound (settle c [d]) p end.
  Lemma sound_app c p1 p2 : sound c (p1 ++ p2) ↔ sound c p1 ∧ sound (settle c p1) p2.
  Proof.
    revert c. induction p1 as [|d p1 IH]; intros c; simpl; [split; [done|by intros [_ ?]]|]. rewrite IH, (settle_cons c d p1). tauto.
  Qed.
  Lemma sound_absorb c p e : sound c p → (is_deletion e = true → p ≠ [] ∨ c ≠ None) → sound c (absorb p e).
  Proof.
    intros Hs He. destruct p as [|b p _] using rev_ind.
    { unfold absorb. simpl. split; [|done]. intros Hd. by destruct (He Hd). }
    rewrite absorb_snoc. destruct (is_deletion b && is_sync e); [done|]. apply sound_app in Hs as [Hp [Hb _]].
    destruct (is_deletion b && is_deletion e) eqn:Hde.
    - apply andb_true_iff in Hde as [Hdb Hde]. apply sound_app. split; [done|]. simpl. split; [|done]. by intros _; apply Hb.
    - rewrite <-app_assoc. apply sound_app. split; [done|]. simpl. split; [done|]. split; [|done]. intros Hd. rewrite Hd, andb_true_r in Hde.
      unfold settle. simpl. by rewrite Hde.
  Qed.
  Lemma absorb_all_nonempty p (l : list delta) : p ≠ [] → foldl absorb p l ≠ [].
  Proof. revert p. induction l as [|e l IH]; intros p Hp; [done|]. simpl. apply IH, absorb_nonempty. Qed.
  Lemma sound_absorb_all c p (l : list delta) : sound c p → (∀ e, e ∈ l → is_deletion e = true → p ≠ [] ∨ c ≠ None) → sound c (foldl absorb p l).
  Proof.
    revert p. induction l as [|e l IH]; intros p Hs Hl; [done|]. simpl. apply IH.
    - apply sound_absorb; [done|]. apply Hl. left.
    - intros e' He' Hd. destruct (Hl e' ltac:(by right) Hd); [left; apply absorb_nonempty|by right].
  Qed.
  Lemma offers_sound s c dc k e : change_of s c = Some dc → e ∈ offers keyf k (pend k (i_q s)) dc → is_deletion e = true → pend k (i_q s) ≠ [] ∨ cont k s ≠ None.
  Proof.
    intros Hch He Hd. destruct c; simpl in Hch; try done; injection Hch as <-; simpl in He.
    - case_decide; [|by apply elem_of_nil in He]. by apply elem_of_list_singleton in He as ->.
    - case_decide; [|by apply elem_of_nil in He]. by apply elem_of_list_singleton in He as ->.
    - case_decide as Hx; [|by apply elem_of_nil in He]. destruct Hx as [_ [?|Hkn]]; [by left|right]. unfold cont. by destruct (dget k (s_items (i_st s))).
    - apply elem_of_app in He as [He|He].
      + apply elem_of_list_fmap in He as (o & -> & _). done.
      + case_decide; [|by apply elem_of_nil in He]. apply elem_of_list_fmap in He as (k' & _ & [-> Hk]%elem_of_list_filter). right.
        apply elem_of_dkeys in Hk as [o Ho]. unfold cont. by rewrite Ho.
    - case_decide; [|by apply elem_of_nil in He]. apply elem_of_list_fmap in He as (o & -> & _). done.
  Qed.
  Lemma callbacks_snoc (h : list (iop K O * ires K O)) e : callbacks (h ++ [e]) = callbacks h ++ match e.2 with ICallback n => [n] | _ => [] end.
  Proof. unfold callbacks. rewrite omap_app. csimpl. by destruct e as [c []]. Qed.

  Lemma life_exec h s : exec istep (inf_init fs) h s → no_requeue h → ∀ k, sound (cont k s) (work k s) ∧ life keyf k (callbacks h) (cont k s).
  Proof.
    apply (exec_trace_inv istep (λ h s, no_requeue h → ∀ k, sound (cont k s) (work k s) ∧ life keyf k (callbacks h) (cont k s))).
    - intros _ k. unfold cont, work, todo_of, pend. simpl. rewrite !dget_nil. split; [done|constructor].
    - clear h s. intros h s c Hex IH Hno k.
      assert (Hno' : no_requeue h) by (intros e cause He; apply Hno, elem_of_app; by left). specialize (IH Hno').
      pose proof (INV_exec keyf fs Hfs _ _ Hex) as HI. destruct (istep s c) as [s' r] eqn:Hst. destruct (INV_step keyf fs Hfs _ _ _ _ HI Hst) as [HI' He].
      simpl. rewrite callbacks_snoc. simpl. destruct (IH k) as [IHs IHl].
      destruct He as [Hs Hw Hn|dc res Hch Hb Hb' Hs Hp -> _ _|k0 ds d rest -> Hb -> Hd Hw Hw' Ho Hc| k0 ds Hc Hs Hb Hw Ho Hn| k0 ds cause -> Hs Hb Hw Ho Hse _].
      + unfold cont in *. rewrite Hs, Hw. destruct r; rewrite ?app_nil_r; try done. by destruct (Hn n).
      + unfold cont. rewrite Hs. fold (cont k s). rewrite idle_work by done. rewrite Hp, app_nil_r. split; [|done].
        rewrite idle_work in IHs by done. apply sound_absorb_all; [done|]. intros e. by eapply offers_sound.
      + rewrite Hc. case_decide as Hj.
        * subst k. rewrite Hw in IHs. simpl in IHs. rewrite Hw'. destruct IHs as [Hdel IHs]. split; [done|].
          unfold notif_of, settle. simpl. destruct d as [t o]. simpl in *. destruct t; simpl; [destruct (cont k0 s); by constructor| destruct (cont k0 s); by constructor| |destruct (cont k0 s); by constructor].
          destruct (cont k0 s); [by econstructor|]. by destruct Hdel.
        * rewrite Ho by done. split; [done|]. apply life_other; [|done]. intros Hk. apply Hj. unfold has_key in *.
          assert (notif_obj (notif_of (cont k0 s) d) = d.2) as Hx by (unfold notif_of; destruct d as [[] ?], (cont k0 s); done). rewrite Hx in Hk. congruence.
      + assert (match r with ICallback n => [n] | _ => [] end = []) as -> by (destruct r; try done; by destruct (Hn n)). rewrite app_nil_r.
        unfold cont. rewrite Hs. fold (cont k s). split; [|done]. destruct (decide (k = k0)) as [->|Hj]; [by rewrite Hw|by rewrite Ho].
      + exfalso. eapply (Hno (PRaise (Some cause), _)); [|done]. apply elem_of_app. right. by apply elem_of_list_singleton.
  Qed.
  Lemma life_cycle h s k : exec istep (inf_init fs) h s → no_requeue h → ∃ c, (istep s (SLook k)).2 = IObj c ∧ life keyf k (callbacks h) c.
  Proof. intros Hex Hno. exists (cont k s). split; [done|]. by apply life_exec. Qed.

  (** ** C44 *)
  Lemma raise_drops h s s' r k c : exec istep (inf_init fs) h s → istep s (PRaise None) = (s', IQ r) → (istep s (SLook k)).2 = IObj c →
    ∀ h1 s2, exec istep s' h1 s2 → (∀ e, e ∈ h1 → processing e.1) → drained s2 → ∃ k0 ds, d_busy (i_q s) = Some (k0, ds) ∧
      (istep s2 (SLook k)).2 = IObj (if decide (k = k0) then c else eventual k s).
  Proof.
    intros HI%(INV_exec keyf fs Hfs) Hst Hc h1 s2 Hex Hall Hd. rewrite look_cont in *. injection Hc as <-.
    destruct (INV_step keyf fs Hfs _ _ _ _ HI Hst) as [HI' He]. rewrite (drained_eventual _ _ Hd).
    destruct (eventual_keeps_exec keyf fs Hfs s' h1 s2 HI' Hex) as [_ Hke]; [intros e ?; by apply processing_keeps, Hall|]. rewrite Hke.
    destruct (d_busy (i_q s)) as [[k0 ds]|] eqn:Hb.
    2:{ destruct (iv_idle _ _ _ HI Hb) as [_ Hcb]. simpl in Hst. by rewrite Hcb in Hst. }
    exists k0, ds. split; [done|]. f_equal.
    simpl in Hst. destruct (i_cb s) eqn:Hcb; [|done]. destruct (finish_step keyf fs _ _ _ _ _ _ HI Hb Hst I) as (_ & Hs & _ & _ & Hw & Ho).
    unfold eventual, cont. rewrite Hs. case_decide as Hj; [subst k; by rewrite Hw|by rewrite Ho].
  Qed.
End proofs.
