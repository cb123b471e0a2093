From Verif Require Import Base DeltaFifo_model DeltaFifo_spec DeltaFifo_proofs DeltaFifo_proofs2 Store_model Store_spec Store_proofs
  Reflector_model Reflector_spec Informer_model Informer_spec Informer_proofs Informer_proofs2 Informer_proofs3.

Section proofs.
  Context {K O V N : Type} `{EqDecision K} `{EqDecision V} `{EqDecision N} (keyf : O → option K) (fs : dict N (index_func (dobj K O) V)).
  Hypothesis Hfs : good_indexers fs.
  Notation dobj := (dobj K O).
  Notation delta := (delta K O).
  Notation inf := (inf K O V N).
  Notation istep := (istep (V:=V) (N:=N) keyf).
  Notation INV := (INV keyf fs).
  Notation hist := (list (iop K O * ires K O)).
  Implicit Types (s : inf) (k : K) (p : list delta) (d : delta).

  (** ** C50 *)
  Lemma idle_exec (h : hist) s : exec istep (inf_init fs) h s → (∀ e, e ∈ h → idle e.1) → ∃ b, s = Inf (DFIFO [] [] false 0 b None) (store_init fs) [] false.
  Proof.
    intros Hex. assert (∃ b, inf_init fs = Inf (DFIFO [] [] false 0 b None) (store_init fs) [] false) as H0 by (by exists false).
    revert H0 Hex. generalize (inf_init fs). intros s0 H0 Hex. revert H0. induction Hex as [s|s c r s1 h s2 Hst Hex IH]; intros H0 Hno; [done|].
    apply IH; [|intros e He; apply Hno; by right]. specialize (Hno (c, r) ltac:(left)). destruct H0 as [b ->].
    destruct c as [o|o|o|l| | |k| | | |rq| | |k]; try done; simpl in Hst; unfold call_q, dstep, dcall in Hst; simpl in Hst; try (simplify_eq; by eexists).
    destruct b; simplify_eq; by eexists.
  Qed.

  (** where a delta is in a list: its first element, or anywhere *)
  Definition at_ (f : bool) d (p : list delta) : Prop := if f then head p = Some d else d ∈ p.
  (** the first list's object with key [k]: not popped, being popped, or delivered *)
  Definition stage f k (o : dobj) (hd : list (dop K O * dres K O)) (h : hist) s : Prop :=
    (∀ e, e ∈ hd → ¬ pops keyf k e) ∧ at_ f (DtSync, o) (pend k (i_q s)) ∨
    (∃ ds, d_busy (i_q s) = Some (k, ds) ∧ (f = true → ds = i_todo s)) ∧ at_ f (DtSync, o) (i_todo s) ∨
    delivered o (callbacks h).
  Lemma delivered_app o (l1 l2 : list (notif K O)) : delivered o l1 → delivered o (l1 ++ l2).
  Proof. intros (n & Hn & Hx). exists n. split; [apply elem_of_app; by left|done]. Qed.
  Lemma head_absorb p e d : head p = Some d → is_deletion d = false → head (absorb p e) = Some d.
  Proof.
    destruct p as [|b p _] using rev_ind; [done|]. intros Hh Hd. rewrite absorb_snoc. destruct (is_deletion b && is_sync e); [done|].
    destruct p as [|b0 p]; simpl in *; [|by destruct (is_deletion b && is_deletion e)]. simplify_eq. by rewrite Hd.
  Qed.
  Lemma head_absorb_all p (l : list delta) d : head p = Some d → is_deletion d = false → head (foldl absorb p l) = Some d.
  Proof. revert p. induction l as [|e l IH]; intros p Hh Hd; [done|]. simpl. apply IH; [|done]. by apply head_absorb. Qed.
  Lemma elem_absorb p e d : d ∈ p → is_deletion d = false → d ∈ absorb p e.
  Proof.
    destruct p as [|b p _] using rev_ind; [by intros ?%elem_of_nil|]. intros Hh Hd. rewrite absorb_snoc. destruct (is_deletion b && is_sync e); [done|].
    destruct (is_deletion b && is_deletion e) eqn:Hbe; [|apply elem_of_app; by left]. apply elem_of_app in Hh as [Hh| ->%elem_of_list_singleton]; [apply elem_of_app; by left|].
    by rewrite Hd in Hbe.
  Qed.
  Lemma at_absorb_all f p (l : list delta) d : at_ f d p → is_deletion d = false → at_ f d (foldl absorb p l).
  Proof. destruct f; simpl; [apply head_absorb_all|]. revert p. induction l as [|e l IH]; intros p Hh Hd; [done|]. simpl. apply IH; [|done]. by apply elem_absorb. Qed.
  Lemma at_nil f d : ¬ at_ f d [].
  Proof. destruct f; simpl; [done|by intros ?%elem_of_nil]. Qed.

  Lemma pops_snoc k (hd : list (dop K O * dres K O)) e : (∀ e', e' ∈ hd → ¬ pops keyf k e') → ¬ pops keyf k e → ∀ e', e' ∈ hd ++ [e] → ¬ pops keyf k e'.
  Proof. intros H1 H2 e' [?| ->%elem_of_list_singleton]%elem_of_app; [by apply H1|done]. Qed.

  Lemma busy_call (q : dfifo K O) dc q1 r1 b : d_busy q = Some b → (∀ out, dc = DFinish out → False) → dstep keyf q dc = (q1, r1) →
    d_items q1 = d_items q ∧ d_busy q1 = d_busy q.
  Proof.
    intros Hb Hnf Hd. unfold dstep, dcall in Hd. rewrite Hb in Hd. destruct dc; simpl in Hd; try (by destruct (Hnf out)); try (by injection Hd as <- _).
    destruct (key_of keyf o); by injection Hd as <- _.
  Qed.
  Lemma stage_step f c0 B hd h s c s' r : INV s → BI keyf c0 B hd (i_q s) → istep s c = (s', r) → f = true ∨ ¬ fails c →
    ∃ hd', BI keyf c0 B hd' (i_q s') ∧ ∀ k o, stage f k o hd h s → stage f k o hd' (h ++ [(c, r)]) s'.
  Proof.
    intros HI HB Hst Hnc. destruct (INV_step keyf fs Hfs _ _ _ _ HI Hst) as [HI' He].
    (* a step that is one call of the queue other than pop and finish *)
    assert (Hcall : ∀ dc, istep s c = call_q keyf s dc → (dc = DPop → False) → (∀ out, dc = DFinish out → False) →
       (∀ k, d_busy (i_q s) = None → ∀ d, at_ f d (pend k (i_q s)) → is_deletion d = false → at_ f d (pend k (i_q s'))) →
       ∃ hd', BI keyf c0 B hd' (i_q s') ∧ ∀ k o, stage f k o hd h s → stage f k o hd' (h ++ [(c, r)]) s').
    { intros dc Hcq Hnp Hnf Hhead. rewrite Hcq in Hst. unfold call_q in Hst. destruct (dstep keyf (i_q s) dc) as [q1 r1] eqn:Hd. injection Hst as <- <-. simpl in *.
      exists (hd ++ [(dc, r1)]). split; [by eapply BI_step|]. intros k o [[Hnp1 Hh]|[[(ds & Hb & Hds) Hh]|Hdl]].
      - left. simpl. split; [apply pops_snoc; [done|]; intros (ds & [= -> _] & _); by apply Hnp|].
        destruct (d_busy (i_q s)) as [[k0 ds0]|] eqn:Hb; [unfold pend; by destruct (busy_call _ _ _ _ _ Hb Hnf Hd) as [-> _]|].
        by apply Hhead.
      - right. left. simpl. destruct (busy_call _ _ _ _ _ Hb Hnf Hd) as [_ ->]. split; [by exists ds|done].
      - right. right. rewrite callbacks_snoc. by apply delivered_app. }
    assert (Hsame : s' = s → (∀ n, r ≠ ICallback n) → ∃ hd', BI keyf c0 B hd' (i_q s') ∧ ∀ k o, stage f k o hd h s → stage f k o hd' (h ++ [(c, r)]) s').
    { intros -> Hn. exists hd. split; [done|]. intros k o [?|[?|Hdl]]; [by left|by right; left|]. right. right. rewrite callbacks_snoc. by apply delivered_app. }
    (* a delivery that failed: the head of the deltas was delivered before *)
    assert (Hend : ∀ out, i_cb s = true → f = true → end_process keyf s out = (s', r) → ∃ hd', BI keyf c0 B hd' (i_q s') ∧ ∀ k o, stage f k o hd h s → stage f k o hd' (h ++ [(c, r)]) s').
    { clear Hst He. intros out Hcbs Hf Hst. destruct (d_busy (i_q s)) as [[k0 ds0]|] eqn:Hb; [|destruct (iv_idle _ _ _ HI Hb); congruence].
      unfold end_process in Hst. destruct (dstep keyf (i_q s) _) as [q1 r1] eqn:Hd. injection Hst as <- <-. pose proof (BI_step keyf _ _ _ _ _ _ _ HB Hd) as HB'.
      eexists. split; [exact HB'|]. simpl. intros k o [[Hnp Hh]|[[(ds & Hb2 & Hds) Hh2]|Hdl]].
      + left. simpl. split; [apply pops_snoc; [done|]; by intros (ds & ? & _)|].
        destruct (finish_step keyf fs s k0 ds0 out (Inf q1 (i_st s) [] false) (IQ r1) HI Hb) as (_ & _ & Hb' & _ & _ & Ho).
        { unfold end_process. by rewrite Hd. } { by destruct out. }
        assert (Hne : k ≠ k0) by (intros ->; rewrite (busy_pend keyf fs _ _ _ HI Hb) in Hh; by apply at_nil in Hh).
        specialize (Ho k Hne). rewrite idle_work in Ho by done. simpl in Ho. rewrite Ho. unfold work, todo_of. rewrite Hb, decide_False by done. done.
      + exfalso. rewrite Hb in Hb2. injection Hb2 as <- <-. rewrite (Hds Hf) in Hb. destruct (iv_busy _ _ _ HI _ _ Hb) as (_ & _ & l & Hl & Hcl & _).
        assert (l = []) as -> by (apply (f_equal length) in Hl; rewrite app_length in Hl; destruct l; simpl in Hl; [done|lia]). by apply Hcl.
      + right. right. rewrite callbacks_snoc. by apply delivered_app. }
    destruct (change_of s c) as [dc|] eqn:Hch.
    { apply (Hcall dc).
      - destruct c; simpl in Hch; by simplify_eq.
      - intros ->. by destruct c.
      - intros out ->. by destruct c.
      - intros k Hb d Hh Hd. destruct He as [Hs Hw _|dc' res Hch' _ _ _ Hp _ _ _|k0 ds d' rest ->| k0 ds [-> | ->]| k0 ds cause ->]; try done.
        + pose proof (Hw k) as Hwk. rewrite (idle_work _ _ Hb) in Hwk. unfold work, todo_of in Hwk.
          assert (d_busy (i_q s') = None) as Hb'.
          { destruct (d_busy (i_q s')) as [[]|] eqn:Hb'; [|done]. exfalso. assert (changes dc = true) by (destruct c; simpl in Hch; by simplify_eq).
            assert (Hcq : istep s c = call_q keyf s dc) by (destruct c; simpl in Hch; by simplify_eq). rewrite Hcq in Hst. unfold call_q, dstep, dcall in Hst. rewrite Hb in Hst.
            destruct (dcall_free keyf (i_q s) dc) as [[q1 r1] n1] eqn:Hf. simpl in Hst. injection Hst as <- _.
            destruct (change_call keyf _ _ _ _ _ (iv_di _ _ _ HI) Hb H Hf) as (_ & Hx & _). simpl in Hb'. congruence. }
          rewrite Hb' in Hwk. simpl in Hwk. by rewrite Hwk.
        + rewrite Hch in Hch'. injection Hch' as <-. rewrite Hp. by apply at_absorb_all. }
    destruct c as [o|o|o|l| | |k| | | |rq| | |k]; try done.
    - apply (Hcall DHasSynced); try done. intros k Hb d Hh _. simpl in Hst. unfold call_q, dstep, dcall in Hst. rewrite Hb in Hst. simpl in Hst. by injection Hst as <- _.
    - apply (Hcall (DGetByKey k)); try done. intros j Hb d Hh _. simpl in Hst. unfold call_q, dstep, dcall in Hst. rewrite Hb in Hst. simpl in Hst. by injection Hst as <- _.
    - apply (Hcall DClose); try done. intros k Hb d Hh _. simpl in Hst. unfold call_q, dstep, dcall in Hst. rewrite Hb in Hst. simpl in Hst. by injection Hst as <- _.
    - (* PPop *) simpl in Hst. destruct (dstep keyf (i_q s) DPop) as [q1 r1] eqn:Hd. pose proof (BI_step keyf _ _ _ _ _ _ _ HB Hd) as HB'. unfold dstep, dcall in Hd.
      destruct (d_busy (i_q s)) as [[k0 ds0]|] eqn:Hb; simpl in Hd.
      { injection Hd as <- <-. injection Hst as <- <-. apply Hsame; [by destruct s|done]. }
      rewrite (pop_spec keyf _ (iv_di _ _ _ HI)) in Hd. destruct (d_items (i_q s)) as [|[k0 ds0] rest] eqn:Hit; simpl in Hd.
      + injection Hd as <- <-. exists (hd ++ [(DPop, if d_closed (i_q s) then DClosedError else DBlocked)]).
        assert (Hr : (∃ b : dres K O, r = IQ b ∧ ∀ ds, b ≠ DPopped ds) ∧ i_q s' = DFIFO [] [] (d_populated (i_q s)) (d_count (i_q s)) (d_closed (i_q s)) None ∧ i_todo s' = i_todo s).
        { destruct (d_closed (i_q s)); injection Hst as <- <-; simpl; split; try done; by eexists. }
        destruct Hr as ((b & -> & _) & Hq' & Ht'). split; [by rewrite Hq'|]. intros k o [[Hnp Hh]|[[(ds & Hb2 & _) _]|Hdl]].
        * exfalso. unfold pend in Hh. rewrite Hit, dget_nil in Hh. by apply at_nil in Hh.
        * congruence.
        * right. right. rewrite callbacks_snoc. by apply delivered_app.
      + destruct (DI_pop keyf _ _ _ _ (iv_di _ _ _ HI) Hit (d_populated (i_q s)) (pred (d_count (i_q s))) (d_closed (i_q s))) as (_ & Hp & Hpk & Hdk).
        injection Hd as <- <-. injection Hst as <- <-. exists (hd ++ [(DPop, DPopped ds0)]). split; [done|]. intros k o [[Hnp Hh]|[[(ds & Hb2 & _) _]|Hdl]].
        * destruct (decide (k = k0)) as [->|Hne].
          -- right. left. simpl. split; [by exists ds0|]. by rewrite <-Hpk.
          -- left. simpl. split; [apply pops_snoc; [done|]; intros (ds & [= <-] & Hk); congruence|]. by rewrite Hp, decide_False.
        * congruence.
        * right. right. rewrite callbacks_snoc. by apply delivered_app.
    - (* PDelta *) simpl in Hst. destruct (d_busy (i_q s)) as [[k0 ds0]|] eqn:Hb; [|by injection Hst as <- <-; apply Hsame].
      destruct (i_todo s) as [|d rest] eqn:Ht; [by injection Hst as <- <-; apply Hsame|].
      assert (Hk : has_key keyf k0 d.2) by (apply (iv_keys _ _ _ HI); rewrite (busy_work keyf fs _ _ _ HI Hb), Ht; left).
      destruct (handle_delta_spec keyf fs Hfs _ _ _ (iv_sg _ _ _ HI) Hk) as (st' & Hh & _). rewrite Hh in Hst. injection Hst as <- <-.
      exists hd. split; [done|]. intros k o [?|[[(ds & Hb2 & Hds) Hh2]|Hdl]].
      + by left.
      + assert (Hnow : d = (DtSync, o) → delivered o (callbacks (h ++ [(PDelta, ICallback (notif_of (dget k0 (s_items (i_st s))) d))]))).
        { intros ->. rewrite callbacks_snoc. simpl. unfold notif_of. simpl.
          exists (match dget k0 (s_items (i_st s)) with Some o1 => NUpdate o1 o true | None => NAdd o true end). split; [apply elem_of_app; right; by apply elem_of_list_singleton|].
          destruct (dget k0 (s_items (i_st s))); [right; by eexists|by left]. }
        rewrite Ht in Hh2. destruct f; simpl in Hh2; [injection Hh2 as ->; right; right; by apply Hnow|].
        apply elem_of_cons in Hh2 as [<-|Hh2]; [right; right; by apply Hnow|]. right. left. simpl. split; [by exists ds|done].
      + right. right. rewrite callbacks_snoc. by apply delivered_app.
    - (* PRaise *) simpl in Hst. destruct (i_cb s) eqn:Hcbs; [|by injection Hst as <- <-; apply Hsame].
      destruct Hnc as [Hf|[]]; [|done]. eapply (Hend _ eq_refl Hf Hst).
    - (* PDone *) simpl in Hst. destruct (d_busy (i_q s)) as [[k0 ds0]|] eqn:Hb; [|by injection Hst as <- <-; apply Hsame].
      destruct (i_todo s) as [|d rest] eqn:Ht; [|by injection Hst as <- <-; apply Hsame].
      unfold end_process in Hst. destruct (dstep keyf (i_q s) _) as [q1 r1] eqn:Hd. injection Hst as <- <-. pose proof (BI_step keyf _ _ _ _ _ _ _ HB Hd) as HB'.
      eexists. split; [exact HB'|]. simpl. intros k o [[Hnp Hh]|[[_ Hh2]|Hdl]].
      + left. simpl. split; [apply pops_snoc; [done|]; by intros (ds & ? & _)|].
        destruct (finish_step keyf fs s k0 ds0 DOk (Inf q1 (i_st s) [] false) (IQ r1) HI Hb) as (_ & _ & Hb' & _ & _ & Ho).
        { unfold end_process. by rewrite Hd. } { done. }
        assert (Hne : k ≠ k0) by (intros ->; rewrite (busy_pend keyf fs _ _ _ HI Hb) in Hh; by apply at_nil in Hh).
        specialize (Ho k Hne). rewrite idle_work in Ho by done. simpl in Ho. rewrite Ho. unfold work, todo_of. rewrite Hb, decide_False by done. done.
      + rewrite Ht in Hh2. by apply at_nil in Hh2.
      + right. right. rewrite callbacks_snoc. by apply delivered_app.
    - (* PCancel *) simpl in Hst. destruct (i_cb s) eqn:Hcbs; [|by injection Hst as <- <-; apply Hsame].
      destruct Hnc as [Hf|[]]; [|done]. eapply (Hend _ eq_refl Hf Hst).
    - simpl in Hst. injection Hst as <- <-. by apply Hsame.
  Qed.

  Lemma absorb_syncs p (os : list dobj) : (∀ d, d ∈ p → is_deletion d = false) → foldl absorb p (pair DtSync <$> os) = p ++ (pair DtSync <$> os).
  Proof.
    revert p. induction os as [|o os IH]; intros p Hp; csimpl; [by rewrite app_nil_r|].
    assert (absorb p (DtSync, o) = p ++ [(DtSync, o)]) as ->.
    { destruct p as [|b p _] using rev_ind; [done|]. rewrite absorb_snoc. rewrite (Hp b); [done|]. apply elem_of_app. right. by apply elem_of_list_singleton. }
    rewrite IH; [by rewrite <-app_assoc|]. intros d [?| ->%elem_of_list_singleton]%elem_of_app; [by apply Hp|done].
  Qed.

  Lemma synced_at f (h0 : hist) l h s : exec istep (inf_init fs) (h0 ++ (QReplace l, IQ DNone) :: h) s → (∀ e, e ∈ h0 → idle e.1) →
    f = true ∨ (∀ e, e ∈ h → ¬ fails e.1) → (istep s QHasSynced).2 = IQ (DBool true) → d_busy (i_q s) = None →
    ∀ o, o ∈ l → (∀ k, keyf o = Some k → at_ f (DtSync, DObj o) (pair DtSync <$> filter (has_key keyf k) (DObj <$> l))) → delivered (DObj o) (callbacks h).
  Proof.
    intros Hex Hidle Hnc Hsy Hb o Ho Hat. apply exec_app in Hex as (s0 & Hex0 & Hex). pose proof (INV_exec keyf fs Hfs _ _ Hex0) as HI0.
    apply exec_cons_iff in Hex as (s1 & Hst & Hex). destruct (idle_exec _ _ Hex0 Hidle) as [b ->]. destruct (INV_step keyf fs Hfs _ _ _ _ HI0 Hst) as [HI1 _].
    simpl in Hst. unfold call_q in Hst. simpl in Hst. set (kn := known_of (store_init fs)) in *. set (q0 := DFIFO [] [] false 0 b None) in *.
    destruct (dstep keyf q0 (DReplace (Some kn) (DObj <$> l))) as [q1 r1] eqn:Hd. injection Hst as <- ->.
    destruct (BI_first_any keyf kn _ _ _ Hd eq_refl) as [HB Hlen].
    pose proof (replace_keyed keyf _ _ _ _ (iv_di _ _ _ HI0) eq_refl Hd) as Hkp.
    assert (Hk : is_Some (keyf o)).
    { assert (Hkl : ∀ x, x ∈ keyed_prefix keyf (DObj (K:=K) <$> l) → is_Some (key_of keyf x)).
      { clear. induction (DObj (K:=K) <$> l) as [|x xs IH]; [by intros x ?%elem_of_nil|]. simpl. destruct (key_of keyf x) eqn:Hx; [|by intros y ?%elem_of_nil].
        intros y [->|?]%elem_of_cons; [by eexists|by apply IH]. }
      apply (Hkl (DObj o)). rewrite Hkp. apply elem_of_list_fmap. by exists o. }
    destruct Hk as [k Hk]. specialize (Hat k Hk).
    assert (Hpk : pend k q1 = pair DtSync <$> filter (has_key keyf k) (DObj <$> l)).
    { unfold dstep, dcall in Hd. simpl in Hd.
      destruct (df_replace keyf (Some kn) (DObj <$> l) q0) as [[q2 r2] n2] eqn:Hf. simpl in Hd. injection Hd as <- ->.
      destruct (change_call keyf q0 (DReplace (Some kn) (DObj <$> l)) _ _ _ (iv_di _ _ _ HI0) eq_refl eq_refl Hf) as (_ & _ & _ & Hp & _). rewrite Hp. unfold offers. rewrite Hkp.
      rewrite decide_False.
      2:{ intros [_ Hx]. apply Hx. apply elem_of_list_omap. exists (DObj o). split; [apply elem_of_list_fmap; by exists o|done]. }
      rewrite app_nil_r. etrans; [apply absorb_syncs|done]. unfold pend, q0. simpl. rewrite dget_nil. by intros d ?%elem_of_nil. }
    set (s1 := Inf q1 (store_init fs) [] false) in *.
    assert (Hstage : stage f k (DObj o) [] [] s1). { left. split; [by intros e ?%elem_of_nil|]. simpl. by rewrite Hpk. }
    assert (Hin : k ∈ dkeys (d_items q1)).
    { apply elem_of_dkeys. unfold pend in Hpk. destruct (dget k (d_items q1)); [by eexists|]. simpl in Hpk. rewrite <-Hpk in Hat. by apply at_nil in Hat. }
    assert (Hmain : ∃ hd, BI keyf (length (DObj (K:=K) <$> l)) (dkeys (d_items q1)) hd (i_q s) ∧ stage f k (DObj o) hd h s).
    { clear Hsy Hb. revert s Hex Hnc. induction h as [|[c r] h IH] using rev_ind; intros s Hex Hnc.
      - apply exec_nil_iff in Hex as <-. by exists [].
      - apply exec_snoc in Hex as (m & Hm & Hst). destruct (IH m Hm) as (hd & HBm & Hsm). { destruct Hnc as [?|Hnc]; [by left|right]. intros e He. apply Hnc, elem_of_app. by left. }
        assert (HIm : INV m) by (eapply (exec_inv istep INV); [intros s' c' Hs'; by apply (step_all keyf fs Hfs s' c' Hs')|exact HI1|exact Hm]).
        destruct (stage_step f _ _ hd h m c s r HIm HBm Hst) as (hd' & HB' & Hs').
        { destruct Hnc as [?|Hnc]; [by left|right]. apply (Hnc (c, r)). apply elem_of_app. right. by apply elem_of_list_singleton. }
        exists hd'. split; [done|]. by apply Hs'. }
    destruct Hmain as (hd & HBs & [[Hnp Hh]|[[(ds & Hb2 & _) _]|?]]); [|congruence|done]. exfalso.
    (* synced: everything queued by the list was popped *)
    destruct HBs as [HD Hpop (cs & ad & Heq & Hc & Hcs)]. assert (Hz : d_count (i_q s) = 0).
    { simpl in Hsy. unfold call_q, dstep, dcall in Hsy. rewrite Hb in Hsy. simpl in Hsy. injection Hsy as Hsy. unfold df_has_synced in Hsy.
      apply andb_true_iff in Hsy as [_ Hz]. by apply Nat.eqb_eq. }
    assert (k ∈ cs) as Hkc.
    { assert (Hl : length (dkeys (d_items q1)) ≤ length cs) by lia.
      assert (Hpre : dkeys (d_items q1) = take (length (dkeys (d_items q1))) cs).
      { rewrite <-(take_app_le cs (d_queue (i_q s))) by done. rewrite <-Heq. by rewrite take_app. }
      rewrite Hpre in Hin. by apply elem_of_take in Hin as (i & Hi%elem_of_list_lookup_2 & _). }
    apply Hcs in Hkc as (e & He & Hpo). by apply (Hnp e).
  Qed.
  (** the first object listed under its key, whatever fails *)
  Lemma synced_first (h0 : hist) l1 o l2 h s : exec istep (inf_init fs) (h0 ++ (QReplace (l1 ++ o :: l2), IQ DNone) :: h) s → (∀ e, e ∈ h0 → idle e.1) →
    (∀ x, x ∈ l1 → keyf x ≠ keyf o) → (istep s QHasSynced).2 = IQ (DBool true) → d_busy (i_q s) = None → delivered (DObj o) (callbacks h).
  Proof.
    intros Hex Hidle Hx Hsy Hb. eapply (synced_at true); try done; [by left|apply elem_of_app; right; left|].
    intros k Hk. simpl. rewrite fmap_app, filter_app. csimpl. rewrite filter_cons_True by done.
    assert (filter (has_key keyf k) (DObj <$> l1) = []) as ->; [|done].
    apply elem_of_nil_inv. intros x [Hxk (o2 & -> & Ho2)%elem_of_list_fmap]%elem_of_list_filter. apply (Hx _ Ho2). by rewrite Hk.
  Qed.
  (** every object, nothing failing *)
  Lemma synced_all (h0 : hist) l h s : exec istep (inf_init fs) (h0 ++ (QReplace l, IQ DNone) :: h) s → (∀ e, e ∈ h0 → idle e.1) →
    (∀ e, e ∈ h → ¬ fails e.1) → (istep s QHasSynced).2 = IQ (DBool true) → d_busy (i_q s) = None → ∀ o, o ∈ l → delivered (DObj o) (callbacks h).
  Proof.
    intros Hex Hidle Hx Hsy Hb o Ho. eapply (synced_at false); try done; [by right|]. intros k Hk. simpl. apply elem_of_list_fmap. exists (DObj o). split; [done|].
    apply elem_of_list_filter. split; [done|]. apply elem_of_list_fmap. by exists o.
  Qed.
  Lemma synced_delivered (h0 : hist) l h s : exec istep (inf_init fs) (h0 ++ (QReplace l, IQ DNone) :: h) s → (∀ e, e ∈ h0 → idle e.1) →
    NoDup (omap keyf l) → (istep s QHasSynced).2 = IQ (DBool true) → d_busy (i_q s) = None → ∀ o, o ∈ l → delivered (DObj o) (callbacks h).
  Proof.
    intros Hex Hidle Hnd Hsy Hb o Ho. apply elem_of_list_split in Ho as (l1 & l2 & ->). eapply synced_first; try done. intros x Hx Hk.
    destruct (keyf o) as [k|] eqn:Hko.
    - rewrite omap_app in Hnd. csimpl in Hnd. rewrite Hko in Hnd. apply NoDup_app in Hnd as (_ & Hd & _). apply (Hd k); [|left]. apply elem_of_list_omap. by exists x.
    - (* an object without a key makes replace fail *)
      apply exec_app in Hex as (s0 & Hex0 & Hex). pose proof (INV_exec keyf fs Hfs _ _ Hex0) as HI0.
      apply exec_cons_iff in Hex as (s1 & Hst & _). destruct (idle_exec _ _ Hex0 Hidle) as [b ->]. simpl in Hst. unfold call_q in Hst. simpl in Hst.
      destruct (dstep keyf _ _) as [q1 r1] eqn:Hd in Hst. injection Hst as _ ->. pose proof (replace_keyed keyf _ _ _ _ (iv_di _ _ _ HI0) eq_refl Hd) as Hkp.
      assert (Hkl : ∀ x, x ∈ keyed_prefix keyf (DObj (K:=K) <$> l1 ++ o :: l2) → is_Some (key_of keyf x)).
      { clear. induction (DObj (K:=K) <$> l1 ++ o :: l2) as [|x xs IH]; [by intros x ?%elem_of_nil|]. simpl. destruct (key_of keyf x) eqn:Hx; [|by intros y ?%elem_of_nil].
        intros y [->|?]%elem_of_cons; [by eexists|by apply IH]. }
      rewrite Hkp in Hkl. destruct (Hkl (DObj o)) as [? Hx2]; [|simpl in Hx2; congruence]. apply elem_of_list_fmap. exists o. split; [done|]. apply elem_of_app. right. left.
  Qed.
End proofs.
