From Verif Require Import Base DeltaFifo_model DeltaFifo_spec DeltaFifo_proofs DeltaFifo_proofs2 Store_model Store_spec Store_proofs
  Reflector_model Reflector_spec Informer_model Informer_spec.

Section proofs.
  Context {K O V N : Type} `{EqDecision K} `{EqDecision V} `{EqDecision N} (keyf : O → option K) (fs : dict N (index_func (dobj K O) V)).
  Hypothesis Hfs : good_indexers fs.
  Notation dobj := (dobj K O).
  Notation delta := (delta K O).
  Notation inf := (inf K O V N).
  Notation cstore := (store K dobj V N).
  Notation istep := (istep (V:=V) (N:=N) keyf).
  Implicit Types (s : inf) (k : K) (p : list delta) (d : delta) (st : cstore).

  (** ** The client store *)
  Record SG st : Prop := {
    sg_wf : dwf (s_items st);
    sg_ixs : s_indexers st = fs;
    sg_ii : II fs (s_items st) (s_indices st);
    sg_key : ∀ k o, dget k (s_items st) = Some o → key_of keyf o = Some k
  }.
  Lemma SG_init : SG (store_init fs).
  Proof. split; simpl; [apply dwf_nil|done|apply II_nil|]. intros k o. by rewrite dget_nil. Qed.
  Lemma SG_put st k o c : SG st → key_of keyf o = Some k → c = SAdd o ∨ c = SUpdate o →
    ∃ st', sstep (key_of keyf) st c = (st', SNone) ∧ SG st' ∧ ∀ j, dget j (s_items st') = if decide (j = k) then Some o else dget j (s_items st).
  Proof.
    intros [Hwf Hix Hii Hkey] Hk Hc.
    destruct (II_step (key_of keyf) fs st c Hix Hwf Hfs Hii) as (H1 & H2 & H3).
    assert (sstep (key_of keyf) st c = ts_add k o st) as Heq by (destruct Hc as [-> | ->]; simpl; by rewrite Hk).
    assert ((sstep (key_of keyf) st c).2 = SNone) as Hok by (destruct Hc as [-> | ->]; apply H3; by eexists).
    assert (Hit : s_items (ts_add k o st).1 = dset k o (s_items st)) by (unfold ts_add; by destruct (update_indices _ _ _ _ _)).
    rewrite Heq in *. exists (ts_add k o st).1. split; [by rewrite <-Hok, <-surjective_pairing|]. rewrite Hit in *.
    split; [split; [rewrite Hit; by apply dwf_dset|done|by rewrite Hit|]|].
    - rewrite Hit. intros j o'. rewrite dget_dset. case_decide; [|apply Hkey]. intros; by simplify_eq.
    - intros j. by rewrite dget_dset.
  Qed.
  Lemma SG_delete st k o : SG st → key_of keyf o = Some k →
    ∃ st', sstep (key_of keyf) st (SDelete o) = (st', SNone) ∧ SG st' ∧ ∀ j, dget j (s_items st') = if decide (j = k) then None else dget j (s_items st).
  Proof.
    intros [Hwf Hix Hii Hkey] Hk.
    destruct (II_step (key_of keyf) fs st (SDelete o) Hix Hwf Hfs Hii) as (H1 & H2 & H3).
    assert (sstep (key_of keyf) st (SDelete o) = ts_delete k st) as Heq by (simpl; by rewrite Hk).
    assert ((sstep (key_of keyf) st (SDelete o)).2 = SNone) as Hok by (apply H3; by eexists). rewrite Heq in *.
    assert (Hit : s_items (ts_delete k st).1 = if decide (k ∈ dkeys (s_items st)) then ddel k (s_items st) else s_items st).
    { revert Hok. unfold ts_delete. destruct (dget k (s_items st)) as [o'|] eqn:Hg.
      - rewrite decide_True by (apply elem_of_dkeys; by eexists). by destruct (delete_indices _ _ _ _) as [? []].
      - rewrite decide_False; [done|]. by apply not_elem_of_dkeys. }
    assert (Hget : ∀ j, dget j (s_items (ts_delete k st).1) = if decide (j = k) then None else dget j (s_items st)).
    { intros j. rewrite Hit. case_decide as Hin.
      - by rewrite dget_ddel.
      - case_decide; [subst; by apply not_elem_of_dkeys|done]. }
    exists (ts_delete k st).1. split; [by rewrite <-Hok, <-surjective_pairing|]. split; [split|done].
    - rewrite Hit. case_decide; [by apply dwf_ddel|done].
    - done.
    - done.
    - intros j o'. rewrite Hget. destruct (decide (j = k)); [done|apply Hkey].
  Qed.

  (** ** What is left to do for a key *)
  Definition todo_of k s : list delta := match d_busy (i_q s) with Some (k0, _) => if decide (k = k0) then i_todo s else [] | None => [] end.
  Definition work k s : list delta := todo_of k s ++ pend k (i_q s).
  Definition cont k s : option dobj := dget k (s_items (i_st s)).
  Definition eventual k s : option dobj := settle (cont k s) (work k s).

  Record INV s : Prop := {
    iv_di : DI keyf (i_q s);
    iv_sg : SG (i_st s);
    iv_keys : ∀ k d, d ∈ work k s → has_key keyf k d.2;
    iv_idle : d_busy (i_q s) = None → i_todo s = [] ∧ i_cb s = false;
    iv_busy : ∀ k ds, d_busy (i_q s) = Some (k, ds) → (∀ d, d ∈ ds → has_key keyf k d.2) ∧ ds ≠ [] ∧
      ∃ l, ds = l ++ i_todo s ∧ (i_cb s = true ↔ l ≠ []) ∧ (i_todo s = [] → cont k s = settle None ds)
  }.
  Lemma INV_init : INV (inf_init fs).
  Proof. split; simpl; [apply DI_init|apply SG_init| |done|done]. intros k d. unfold work, todo_of, pend. simpl. rewrite dget_nil. by intros ?%elem_of_nil. Qed.

  Lemma settle_app c p1 p2 : settle c (p1 ++ p2) = settle (settle (K:=K) (O:=O) c p1) p2.
  Proof.
    destruct p2 as [|d p2 _] using rev_ind; [by rewrite app_nil_r|]. unfold settle. by rewrite app_assoc, !last_snoc.
  Qed.
  Lemma settle_cons c d p : settle c (d :: p) = settle (settle (K:=K) (O:=O) c [d]) p.
  Proof. apply (settle_app c [d] p). Qed.
  Lemma settle_nonempty c c' p : p ≠ [] → settle c p = settle (K:=K) (O:=O) c' p.
  Proof. destruct p as [|d p _] using rev_ind; [done|]. intros _. unfold settle. by rewrite last_snoc. Qed.
  Lemma busy_pend k ds s : INV s → d_busy (i_q s) = Some (k, ds) → pend k (i_q s) = [].
  Proof.
    intros HI Hb. destruct (di_busy _ _ (iv_di _ HI) _ _ Hb) as [_ Hni]. rewrite (pend_dkeys keyf _ _ (iv_di _ HI)) in Hni.
    by destruct (pend k (i_q s)); [|destruct Hni].
  Qed.
  Lemma busy_work k ds s : INV s → d_busy (i_q s) = Some (k, ds) → work k s = i_todo s.
  Proof. intros HI Hb. unfold work, todo_of. rewrite Hb, decide_True, (busy_pend _ _ _ HI Hb) by done. apply app_nil_r. Qed.
  Lemma idle_work k s : d_busy (i_q s) = None → work k s = pend k (i_q s).
  Proof. intros Hb. unfold work, todo_of. by rewrite Hb. Qed.

  Definition change_of s (c : iop K O) : option (dop K O) :=
    match c with
    | QAdd o => Some (DAdd (DObj o))
    | QUpdate o => Some (DUpdate (DObj o))
    | QDelete o => Some (DDelete (Some (known_of (i_st s))) (DObj o))
    | QReplace l => Some (DReplace (Some (known_of (i_st s))) (DObj <$> l))
    | QResync => Some (DResync (Some (known_of (i_st s))))
    | _ => None
    end.
  (** the callback for a delta *)
  Definition notif_of (old : option dobj) d : notif K O :=
    match d.1 with
    | DtDeleted => NDelete d.2
    | t => let sync := bool_decide (t = DtSync) in match old with Some o => NUpdate o d.2 sync | None => NAdd d.2 sync end
    end.

  Inductive effect s (c : iop K O) s' (r : ires K O) : Prop :=
  | ef_same : i_st s' = i_st s → (∀ k, work k s' = work k s) → (∀ n, r ≠ ICallback n) → effect s c s' r
  | ef_change dc res : change_of s c = Some dc → d_busy (i_q s) = None → d_busy (i_q s') = None → i_st s' = i_st s →
      (∀ k, pend k (i_q s') = foldl absorb (pend k (i_q s)) (offers keyf k (pend k (i_q s)) dc)) →
      r = IQ res → dstep keyf (i_q s) dc = (i_q s', res) → (res = DNone ∨ ∃ o, res = DKeyFuncError o) → effect s c s' r
  | ef_delta k ds d rest : c = PDelta → d_busy (i_q s) = Some (k, ds) → r = ICallback (notif_of (cont k s) d) → has_key keyf k d.2 →
      work k s = d :: rest → work k s' = rest → (∀ j, j ≠ k → work j s' = work j s) →
      (∀ j, cont j s' = if decide (j = k) then settle (cont k s) [d] else cont j s) → effect s c s' r
  | ef_drop k ds : c = PRaise None ∨ c = PCancel → i_st s' = i_st s → d_busy (i_q s) = Some (k, ds) → work k s' = [] → (∀ j, j ≠ k → work j s' = work j s) →
      (∀ n, r ≠ ICallback n) → effect s c s' r
  | ef_requeue k ds cause : c = PRaise (Some cause) → i_st s' = i_st s → d_busy (i_q s) = Some (k, ds) → work k s' = ds → (∀ j, j ≠ k → work j s' = work j s) →
      settle (cont k s) ds = settle (cont k s) (work k s) → (∀ n, r ≠ ICallback n) → effect s c s' r.

  Lemma absorb_elem p e d : d ∈ absorb p e → d ∈ p ∨ d = e.
  Proof.
    destruct p as [|b p _] using rev_ind; [intros ->%elem_of_list_singleton; by right|]. rewrite absorb_snoc.
    destruct (is_deletion b && is_sync e); [by left|]. destruct (is_deletion b && is_deletion e).
    - intros [?| ->%elem_of_list_singleton]%elem_of_app; [left; apply elem_of_app; by left|].
      destruct (is_tomb b.2); [by right|]. left. apply elem_of_app. right. by apply elem_of_list_singleton.
    - intros [?| ->%elem_of_list_singleton]%elem_of_app; [by left|by right].
  Qed.
  Lemma absorb_all_elem p l d : d ∈ foldl absorb p l → d ∈ p ∨ d ∈ l.
  Proof.
    revert p. induction l as [|e l IH]; intros p; simpl; [by left|]. intros [Hd|Hd]%IH; [|right; by right].
    apply absorb_elem in Hd as [?| ->]; [by left|right; left].
  Qed.
  Lemma busy_step_idle (q : dfifo K O) c k ds : d_busy q = Some (k, ds) → changes c = true → dstep keyf q c = (q, DLockWait).
  Proof. intros Hb Hc. unfold dstep, dcall. rewrite Hb. by destruct c. Qed.

  Lemma handle_delta_spec st k d : SG st → has_key keyf k d.2 →
    ∃ st', handle_delta keyf st d = (st', Some (notif_of (dget k (s_items st)) d)) ∧ SG st' ∧
      ∀ j, dget j (s_items st') = if decide (j = k) then settle (dget k (s_items st)) [d] else dget j (s_items st).
  Proof.
    intros HG Hk. unfold has_key in Hk. destruct d as [t o]. unfold handle_delta, notif_of, settle. cbn [fst snd last] in *.
    assert (Hput : ∀ c (n : notif K O), c = SAdd o ∨ c = SUpdate o → ∃ st', (let '(st', r) := sstep (key_of keyf) st c in (st', match r with SNone => Some n | _ => None end)) = (st', Some n) ∧
       SG st' ∧ ∀ j, dget j (s_items st') = if decide (j = k) then Some o else dget j (s_items st)).
    { intros c n Hc. destruct (SG_put st k o c HG Hk Hc) as (st' & -> & HG' & Hget). by exists st'. }
    assert (Hg : (sstep (key_of keyf) st (SGet o)).2 = SOpt (dget k (s_items st))) by (simpl; by rewrite Hk).
    destruct t; [..|]; try (rewrite Hg; destruct (dget k (s_items st)); apply Hput; [by right|by left]).
    destruct (SG_delete st k o HG Hk) as (st' & -> & HG' & Hget). by exists st'.
  Qed.

  Lemma change_step s c dc : INV s → change_of s c = Some dc → INV (istep s c).1 ∧ effect s c (istep s c).1 (istep s c).2.
  Proof.
    intros HI Hch. assert (Hcq : istep s c = call_q keyf s dc) by (destruct c; simpl in Hch; by simplify_eq).
    assert (Hc : changes dc = true) by (destruct c; simpl in Hch; by simplify_eq).
    rewrite Hcq. unfold call_q. destruct (d_busy (i_q s)) as [[k0 ds0]|] eqn:Hb.
    - rewrite (busy_step_idle _ _ _ _ Hb Hc). simpl. destruct s as [q st todo cb]; simpl in *. split; [done|]. by apply ef_same.
    - pose proof (DI_step keyf (i_q s) dc (iv_di _ HI)) as HD'.
      destruct (dstep keyf (i_q s) dc) as [q r] eqn:Hst. simpl in *. pose proof Hst as Hcall.
      unfold dstep, dcall in Hcall. rewrite Hb in Hcall.
      destruct (dcall_free keyf (i_q s) dc) as [[q1 r1] n1] eqn:Hf. simpl in Hcall. simplify_eq.
      destruct (change_call _ _ _ _ _ _ (iv_di _ HI) Hb Hc Hf) as (_ & Hb' & _ & Hp & _ & _ & Hr).
      split; [|by eapply ef_change]. destruct (iv_idle _ HI Hb) as [Ht Hcb]. split; simpl; [done|apply HI| |done|by rewrite Hb'].
      intros k d. rewrite idle_work by done. simpl. rewrite Hp. intros [Hd|Hd]%absorb_all_elem.
      + apply (iv_keys _ HI). by rewrite idle_work.
      + by eapply offers_key.
  Qed.

  Lemma finish_step s k ds out s' r : INV s → d_busy (i_q s) = Some (k, ds) → end_process keyf s out = (s', r) →
    (match out with DRequeue _ => i_cb s = true | _ => True end) →
    INV s' ∧ i_st s' = i_st s ∧ d_busy (i_q s') = None ∧ (∀ n, r ≠ ICallback n) ∧
    work k s' = (match out with DRequeue _ => ds | _ => [] end) ∧ ∀ j, j ≠ k → work j s' = work j s.
  Proof.
    intros HI Hb He Hcb. unfold end_process in He. pose proof (DI_step keyf (i_q s) (DFinish out) (iv_di _ HI)) as HD'.
    pose proof (busy_pend _ _ _ HI Hb) as Hpk. destruct (iv_busy _ HI _ _ Hb) as (Hkeys & Hne & l & Hds & Hl & Hc).
    unfold dstep, dcall in He, HD'. rewrite Hb in He, HD'. simpl in He, HD'. unfold df_finish in He, HD'. rewrite Hb in He, HD'.
    set (q1 := DFIFO (d_items (i_q s)) (d_queue (i_q s)) (d_populated (i_q s)) (d_count (i_q s)) (d_closed (i_q s)) None) in *.
    assert (Hother : ∀ j, j ≠ k → work j s = pend j (i_q s)) by (intros j Hj; unfold work, todo_of; by rewrite Hb, decide_False).
    assert (Hsimple : s' = Inf q1 (i_st s) [] false → DI keyf q1 → INV s' ∧ i_st s' = i_st s ∧ d_busy (i_q s') = None ∧ work k s' = [] ∧ ∀ j, j ≠ k → work j s' = work j s).
    { intros -> HD1. split; [|split; [done|split; [done|split]]].
      - split; simpl; [done|apply HI| |done|done]. intros j d. rewrite idle_work by done. simpl. intros Hd. apply (iv_keys _ HI). unfold work.
        apply elem_of_app. by right.
      - by rewrite idle_work.
      - intros j Hj. rewrite idle_work by done. by rewrite Hother. }
    destruct out as [|cause| |].
    - simpl in He, HD'. injection He as <- <-. destruct (Hsimple eq_refl HD') as (?&?&?&?&?). done.
    - destruct (put_if_absent k ds q1) as [q2 n2] eqn:Hput. simpl in He, HD'. injection He as <- <-.
      assert (HD1 : DI keyf q1) by (destruct (iv_di _ HI); by split). assert (Hkd : deltas_key keyf ds = Some k) by (by apply (di_busy _ _ (iv_di _ HI))).
      destruct (put_spec keyf _ _ _ _ _ HD1 eq_refl Hkd Hput) as (_ & Hb' & _ & _ & _ & Hp & _).
      split; [|split; [done|split; [done|split; [done|split]]]].
      + split; simpl; [done|apply HI| |done|by rewrite Hb']. intros j d. rewrite idle_work by done. simpl. rewrite Hp. case_decide as Hj.
        * destruct Hj as [-> _]. apply Hkeys.
        * intros Hd. apply (iv_keys _ HI). unfold work. apply elem_of_app. by right.
      + rewrite idle_work by done. simpl. rewrite Hp, decide_True; [done|]. by split.
      + intros j Hj. rewrite idle_work by done. simpl. rewrite Hp, decide_False, Hother by tauto. done.
    - simpl in He, HD'. injection He as <- <-. destruct (Hsimple eq_refl HD') as (?&?&?&?&?). done.
    - simpl in He, HD'. injection He as <- <-. destruct (Hsimple eq_refl HD') as (?&?&?&?&?). done.
  Qed.

  Lemma raise_settle s k ds : INV s → d_busy (i_q s) = Some (k, ds) → i_cb s = true → settle (cont k s) ds = settle (cont k s) (work k s).
  Proof.
    intros HI Hb Hcb. rewrite (busy_work _ _ _ HI Hb). destruct (iv_busy _ HI _ _ Hb) as (_ & Hne & l & Hds & _ & Hc).
    destruct (i_todo s) as [|d rest] eqn:Ht.
    - transitivity (settle None ds); [by apply settle_nonempty|]. change (settle (cont k s) []) with (cont k s). by rewrite (Hc eq_refl).
    - rewrite Hds, settle_app. by apply settle_nonempty.
  Qed.

  Lemma step_all s c : INV s → INV (istep s c).1 ∧ effect s c (istep s c).1 (istep s c).2.
  Proof.
    intros HI. destruct (change_of s c) as [dc|] eqn:Hch; [by eapply change_step|].
    assert (Hread : ∀ dc, (∀ x, dcall keyf (i_q s) dc = (i_q s, x.1, x.2) → True) → (dstep keyf (i_q s) dc).1 = i_q s →
      INV (call_q keyf s dc).1 ∧ effect s c (call_q keyf s dc).1 (call_q keyf s dc).2).
    { intros dc _ Hq. unfold call_q. destruct (dstep keyf (i_q s) dc) as [q r]. simpl in *. subst q. destruct s; simpl. split; [done|by apply ef_same]. }
    destruct c as [o|o|o|l| | |k| | | |rq| | |k]; try done.
    - apply Hread; [done|]. unfold dstep, dcall. by destruct (d_busy (i_q s)) as [[??]|].
    - apply Hread; [done|]. unfold dstep, dcall. by destruct (d_busy (i_q s)) as [[??]|].
    - simpl. unfold call_q. pose proof (DI_step keyf (i_q s) DClose (iv_di _ HI)) as HD'. unfold dstep, dcall in *.
      destruct (d_busy (i_q s)) as [[k0 ds0]|] eqn:Hb; simpl in *.
      + destruct s; simpl in *. split; [done|by apply ef_same].
      + destruct HI as [H1 H2 H3 H4 H5]. split.
        * split; simpl; [done|done| |rewrite Hb; tauto|by rewrite Hb]. intros k d. rewrite idle_work by done. simpl. intros Hd. apply H3. by rewrite idle_work.
        * apply ef_same; [done| |done]. intros k. rewrite !idle_work by done. done.
    - simpl. pose proof (DI_step keyf (i_q s) DPop (iv_di _ HI)) as HD'. unfold dstep, dcall in *.
      destruct (d_busy (i_q s)) as [[k0 ds0]|] eqn:Hb; simpl in *.
      + destruct s; simpl in *. split; [done|by apply ef_same].
      + rewrite (pop_spec keyf _ (iv_di _ HI)) in *. destruct (iv_idle _ HI Hb) as [Ht Hcb].
        destruct (d_items (i_q s)) as [|[k0 ds0] rest] eqn:Hit; simpl in *.
        * assert (Hw : ∀ j, pend j (DFIFO [] [] (d_populated (i_q s)) (d_count (i_q s)) (d_closed (i_q s)) None) = pend j (i_q s)).
          { intros j. unfold pend. by rewrite Hit. }
          destruct (d_closed (i_q s)); simpl.
          all: split; [split; simpl; [done|apply HI| |done|done]; intros k d; rewrite idle_work by done; simpl; rewrite Hw; intros Hd; apply (iv_keys _ HI); by rewrite idle_work|].
          all: apply ef_same; [done| |done]; intros j; rewrite !idle_work by done; apply Hw.
        * destruct (DI_pop keyf _ _ _ _ (iv_di _ HI) Hit (d_populated (i_q s)) (pred (d_count (i_q s))) (d_closed (i_q s))) as (_ & Hp & Hpk & Hdk).
          set (q' := DFIFO rest (dkeys rest) (d_populated (i_q s)) (pred (d_count (i_q s))) (d_closed (i_q s)) (Some (k0, ds0))) in *.
          assert (Hw : ∀ j, work j (Inf q' (i_st s) ds0 false) = work j s).
          { intros j. rewrite (idle_work _ _ Hb). unfold work, todo_of. simpl. rewrite Hp. case_decide; [subst j; by rewrite app_nil_r|done]. }
          split; [|by apply ef_same]. split; simpl; [done|apply HI| |done|].
          -- intros j d. rewrite Hw. apply (iv_keys _ HI).
          -- intros k ds [= <- <-]. split; [|split; [by eapply deltas_key_nonempty|]].
             ++ intros d Hd. apply (iv_keys _ HI). by rewrite idle_work, Hpk.
             ++ exists []. split; [done|]. split; [done|]. intros ->. by destruct (deltas_key_nonempty keyf _ _ Hdk).
    - simpl. destruct (d_busy (i_q s)) as [[k0 ds0]|] eqn:Hb; [|split; [done|by apply ef_same]].
      destruct (i_todo s) as [|d rest] eqn:Ht; [split; [done|by apply ef_same]|].
      pose proof (busy_work _ _ _ HI Hb) as Hw. rewrite Ht in Hw.
      assert (Hk : has_key keyf k0 d.2) by (apply (iv_keys _ HI); rewrite Hw; left).
      destruct (handle_delta_spec _ _ _ (iv_sg _ HI) Hk) as (st' & -> & HG' & Hget). simpl.
      destruct (iv_busy _ HI _ _ Hb) as (Hkeys & Hne & l & Hds & Hl & Hc).
      set (s' := Inf (i_q s) st' rest true). assert (HI' : INV s').
      { split; simpl; [apply HI|done| |by rewrite Hb|].
        - intros j d'. unfold work, todo_of. simpl. rewrite Hb. case_decide as Hj.
          + subst j. rewrite (busy_pend _ _ _ HI Hb), app_nil_r. intros Hd. apply (iv_keys _ HI). rewrite Hw. by right.
          + intros Hd. apply (iv_keys _ HI). unfold work. apply elem_of_app. by right.
        - intros k ds Hb'. rewrite Hb in Hb'. simplify_eq. split; [done|]. split; [done|]. exists (l ++ [d]). rewrite <-app_assoc. rewrite Ht in *. split; [done|].
          split; [split; [by destruct l|done]|]. intros ->. unfold cont. simpl. rewrite Hget, decide_True by done. by rewrite settle_app. }
      split; [done|]. eapply (ef_delta _ _ _ _ k0 ds0 d rest); try done.
      + by rewrite (busy_work _ _ s' HI' Hb).
      + intros j Hj. unfold work, todo_of. simpl. by rewrite Hb, !decide_False.
    - simpl. destruct (i_cb s) eqn:Hcb; [|split; [done|by apply ef_same]].
      destruct (d_busy (i_q s)) as [[k0 ds0]|] eqn:Hb; [|destruct (iv_idle _ HI Hb); congruence].
      destruct (end_process keyf s _) as [s' r] eqn:He. destruct (finish_step _ _ _ _ _ _ HI Hb He) as (HI' & Hst & Hb' & Hn & Hwk & Hwo); [by destruct rq|].
      split; [done|]. simpl. destruct rq as [cause|].
      + eapply (ef_requeue _ _ _ _ k0 ds0); try done. by apply raise_settle.
      + eapply (ef_drop _ _ _ _ k0 ds0); try done. by left.
    - simpl. destruct (d_busy (i_q s)) as [[k0 ds0]|] eqn:Hb; [|split; [done|by apply ef_same]].
      destruct (i_todo s) as [|d rest] eqn:Ht; [|split; [done|by apply ef_same]].
      destruct (end_process keyf s _) as [s' r] eqn:He. destruct (finish_step _ _ _ _ _ _ HI Hb He) as (HI' & Hst & Hb' & Hn & Hwk & Hwo); [done|].
      split; [done|]. simpl. apply ef_same; [done| |done]. intros j. destruct (decide (j = k0)) as [->|Hj]; [|by apply Hwo].
      by rewrite Hwk, (busy_work _ _ _ HI Hb), Ht.
    - simpl. destruct (i_cb s) eqn:Hcb; [|split; [done|by apply ef_same]].
      destruct (d_busy (i_q s)) as [[k0 ds0]|] eqn:Hb; [|destruct (iv_idle _ HI Hb); congruence].
      destruct (end_process keyf s _) as [s' r] eqn:He. destruct (finish_step _ _ _ _ _ _ HI Hb He) as (HI' & Hst & Hb' & Hn & Hwk & Hwo); [done|].
      split; [done|]. simpl. eapply (ef_drop _ _ _ _ k0 ds0); try done. by right.
    - simpl. split; [done|by apply ef_same].
  Qed.
  Lemma INV_step s c s' r : INV s → istep s c = (s', r) → INV s' ∧ effect s c s' r.
  Proof. intros HI Hst. pose proof (step_all s c HI) as Hx. by rewrite Hst in Hx. Qed.
  Lemma INV_exec h s : exec istep (inf_init fs) h s → INV s.
  Proof.
    apply (exec_inv istep INV); [|apply INV_init]. intros s1 c HI. by apply step_all.
  Qed.
End proofs.
