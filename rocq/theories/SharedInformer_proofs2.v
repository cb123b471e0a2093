From Verif Require Import Base DeltaFifo_model DeltaFifo_spec DeltaFifo_proofs DeltaFifo_proofs2 Store_model Store_spec Store_proofs
  Reflector_model Reflector_spec Informer_model Informer_spec Informer_proofs Informer_proofs2 Informer_proofs3 SharedInformer_model SharedInformer_spec
  SharedInformer_proofs.

Section proofs.
  Context {K O V N : Type} `{EqDecision K} `{EqDecision V} `{EqDecision N} (keyf : O → option K) (second dflt : Z) (fs : dict N (index_func (dobj K O) V)).
  Hypothesis Hfs : good_indexers fs.
  Notation dobj := (dobj K O).
  Notation delta := (delta K O).
  Notation notif := (notif K O).
  Notation shared := (shared K O V N).
  Notation hstep := (hstep (V:=V) (N:=N) keyf second dflt).
  Notation init := (shared_init (V:=V) (N:=N) dflt fs).
  Notation hist := (list (hop K O * hres K O)).
  Notation INV := (INV keyf fs).
  Notation view := (view keyf).
  Implicit Types (s : shared) (k : K) (p : proc notif) (l : lst notif) (h : hist).

  Definition upd k (c : option dobj) (n : notif) : option dobj :=
    match n with
    | NAdd o _ | NUpdate _ o _ => if decide (has_key keyf k o) then Some o else c
    | NDelete o => if decide (has_key keyf k o) then None else c
    end.
  Lemma view_snoc k log n : view k (log ++ [n]) = upd k (view k log) n.
  Proof. unfold SharedInformer_spec.view. by rewrite foldl_app. Qed.
  Lemma view_backlog k (d : dict K dobj) : dwf d → (∀ j o, dget j d = Some o → key_of keyf o = Some j) → view k ((λ o, NAdd o false) <$> dvals d) = dget k d.
  Proof.
    intros Hwf Hk. unfold SharedInformer_spec.view. assert (∀ c, foldl (upd k) c ((λ o, NAdd o false) <$> dvals d) = match dget k d with Some o => Some o | None => c end) as Hx.
    2:{ change (foldl (upd k) None ((λ o, NAdd o false) <$> dvals d) = dget k d). rewrite Hx. by destruct (dget k d). }
    revert Hwf Hk. induction d as [|[j o] d IH]; intros Hwf Hk c; [by rewrite dget_nil|]. unfold dvals. csimpl.
    assert (Hko : key_of keyf o = Some j) by (apply Hk; rewrite dget_cons; by rewrite decide_True).
    unfold dwf, dkeys in Hwf. csimpl in Hwf. apply NoDup_cons in Hwf as [Hni Hwf].
    change (foldl (upd k) (upd k c (NAdd o false)) ((λ o, NAdd o false) <$> dvals d) = match dget k ((j, o) :: d) with Some o => Some o | None => c end).
    assert (Hjd : dget j d = None) by (by apply not_elem_of_dkeys).
    rewrite IH; [|done|].
    2:{ intros j' o' Hj'. apply Hk. rewrite dget_cons. destruct (decide (j' = j)) as [->|]; [congruence|done]. }
    rewrite dget_cons. simpl. destruct (decide (k = j)) as [->|Hne].
    - rewrite Hjd. rewrite (decide_True (P:=has_key keyf j o)) by done. try rewrite decide_True by done. done.
    - rewrite (decide_False (P:=has_key keyf k o)) by (unfold has_key; congruence). try rewrite decide_False by congruence. done.
  Qed.

  Definition logs p : list (list notif) := l_log <$> p_ls p.
  Lemma register_logs p req now b : p_stopped p = false → logs (register second dflt p req now b) = logs p ++ [b] ∧
    p_started (register second dflt p req now b) = p_started p ∧ p_stopped (register second dflt p req now b) = false.
  Proof.
    intros Hns. unfold register. rewrite Hns. set (r := match req with Some r => r | None => dflt end).
    assert (Hc : ∀ r, l_log <$> check_changed r (p_ls p) = l_log <$> p_ls p).
    { intros r1. unfold check_changed. rewrite <-list_fmap_compose. done. }
    unfold logs. destruct (bool_decide (r = 0%Z)); [simpl; by rewrite fmap_app|]. destruct (bool_decide ((if bool_decide (r < second)%Z then second else r) < p_check p)%Z).
    - destruct (p_started p) eqn:Hs; simpl; rewrite fmap_app, ?Hc; done.
    - simpl. by rewrite fmap_app.
  Qed.
  Lemma distribute_log p n b i : logs (distribute p n b) !! i = (λ log, log ++ (if negb b || bool_decide (i ∈ p_syncing p) then [n] else [])) <$> logs p !! i.
  Proof.
    unfold logs, distribute. simpl. rewrite !list_lookup_fmap, list_lookup_imap. destruct (p_ls p !! i) as [l|]; [|done]. simpl. destruct (negb b || _); simpl; by rewrite ?app_nil_r.
  Qed.

  Definition agrees i s : Prop := ∀ log k, logs (h_proc s) !! i = Some log → view k log = cont k (h_inf s).
  Definition base s : Prop := INV (h_inf s) ∧ (p_stopped (h_proc s) = true → p_started (h_proc s) = true) ∧ (p_started (h_proc s) = false → s_items (i_st (h_inf s)) = []).
  Lemma upd_notif k j (s : inf K O V N) (d : delta) : has_key keyf k d.2 → upd j (cont j s) (notif_of (cont (V:=V) (N:=N) k s) d) = if decide (j = k) then settle (cont k s) [d] else cont j s.
  Proof.
    intros Hk. assert (Hdec : ∀ A (x y : A), (if decide (has_key keyf j d.2) then x else y) = if decide (j = k) then x else y).
    { intros A x y. destruct (decide (j = k)) as [->|]; [by rewrite decide_True|]. rewrite decide_False; [done|]. unfold has_key in *. congruence. }
    unfold notif_of, settle. simpl. destruct d as [[] o]; simpl in *; try (destruct (cont k s); simpl; apply Hdec); try apply Hdec.
  Qed.
  Lemma base_step s c s' r : base s → hstep s c = (s', r) → base s' ∧ ∀ i, agrees i s → told i s r → agrees i s'.
  Proof.
    intros HB Hst. pose proof HB as (HI & Hss & He). destruct c as [c|req now| | |t].
    - apply hinf_step in Hst as [(-> & -> & _)|(x & r1 & Hal & Hi & -> & Hx & Hp)]; [done|]. destruct (INV_step keyf fs Hfs _ _ _ _ HI Hi) as [HI' Hef]. subst x.
      assert (Hrun : p_started (h_proc s') = p_started (h_proc s) ∧ p_stopped (h_proc s') = p_stopped (h_proc s)) by (destruct Hp as [(n & _ & ->)|[_ ->]]; done).
      destruct Hrun as [Hr1 Hr2]. assert (Hcase : p_started (h_proc s) = true ∨ h_inf s' = h_inf s).
      { destruct (p_started (h_proc s)) eqn:Hs; [by left|]. destruct c; simpl in Hal; rewrite ?Hs in Hal; try done. right. simpl in Hi. by simplify_eq. }
      split.
      { split; [done|]. rewrite Hr1, Hr2. split; [done|]. intros Hs. destruct Hcase as [?|Hsame]; [congruence|]. rewrite Hsame. by apply He. }
      intros i Ha Ht log k Hlog. destruct Hp as [(n & -> & Hp)|[Hn Hp]].
      + rewrite Hp, distribute_log in Hlog. apply fmap_Some in Hlog as (log0 & Hlog0 & ->). specialize (Ha _ k Hlog0).
        assert (Hlt : i < length (p_ls (h_proc s))) by (apply lookup_lt_Some in Hlog0; unfold logs in Hlog0; by rewrite fmap_length in Hlog0).
        destruct Hef as [_ _ Hno|dc res _ _ _ _ _ Hno _ _|k0 ds d rest -> Hb [= ->] Hk Hw Hw' Ho Hc|k0 ds _ _ _ _ _ Hno|k0 ds cause _ _ _ _ _ _ Hno]; try done; try (by destruct (Hno n)).
        rewrite Hc. destruct (negb _ || _) eqn:Hd; [rewrite view_snoc, Ha; by apply upd_notif|]. rewrite app_nil_r, Ha.
        apply orb_false_iff in Hd as [Hd1 Hd2]. apply negb_false_iff in Hd1. apply bool_decide_eq_false in Hd2.
        destruct (Ht _ eq_refl Hd1 Hlt) as [?|(o & b & Hnn)]; [done|]. rewrite <-(upd_notif k0 k (h_inf s) d Hk), Hnn. simpl. destruct (decide (has_key keyf k o)) as [Hko|]; [|done].
        unfold notif_of in Hnn. destruct d as [[] o1]; simpl in *; try done; destruct (cont k0 (h_inf s)) as [o2|] eqn:Hc0; simplify_eq/=; assert (k = k0) as -> by (unfold has_key in *; congruence); done.
      + rewrite Hp in Hlog. specialize (Ha _ k Hlog). rewrite Ha.
        destruct Hef as [Hs _ _|dc res _ _ _ Hs _ _ _ _|k0 ds d rest _ _ Hr _ _ _ _ _|k0 ds _ Hs _ _ _ _|k0 ds cause _ Hs _ _ _ _ _]; unfold cont; rewrite ?Hs; try done. by destruct (Hn _ Hr).
    - simpl in Hst. destruct (p_started (h_proc s)) eqn:Hs; simpl in Hst.
      + destruct (p_stopped (h_proc s)) eqn:Hstop; simpl in Hst.
        { injection Hst as <- <-. unfold register. rewrite Hstop. split; [|by intros i Ha _]. split; [done|]. simpl. rewrite Hs. done. }
        destruct (d_busy (i_q (h_inf s))); injection Hst as <- <-; [split; [split; [done|]; by rewrite Hs, Hstop|by intros i Ha _]|].
        destruct (register_logs (h_proc s) req now ((λ o, NAdd o false) <$> dvals (s_items (i_st (h_inf s)))) Hstop) as (Hl & Hs1 & Hs2). split.
        * split; [done|]. simpl. by rewrite Hs1, Hs2, Hs.
        * intros i Ha _ log k. simpl. rewrite Hl. intros [?|[_ ->]]%lookup_snoc_Some; [by apply Ha|]. unfold cont. apply view_backlog; apply (iv_sg _ _ _ HI).
      + injection Hst as <- <-. assert (Hstop : p_stopped (h_proc s) = false) by (destruct (p_stopped (h_proc s)); [by specialize (Hss eq_refl)|done]).
        destruct (register_logs (h_proc s) req now [] Hstop) as (Hl & Hs1 & Hs2). split.
        * split; [done|]. simpl. rewrite Hs1, Hs2, Hs. done.
        * intros i Ha _ log k. simpl. rewrite Hl. intros [?|[_ ->]]%lookup_snoc_Some; [by apply Ha|]. unfold cont. by rewrite He, dget_nil.
    - injection Hst as <- <-. split; [split; [done|]; simpl; done|]. by intros i Ha _.
    - simpl in Hst. destruct (p_started (h_proc s)) eqn:Hs; simpl in Hst; injection Hst as <- <-; (split; [first [exact HB|split; [done|]; split; simpl; by try rewrite Hs]|by intros i Ha _]).
    - simpl in Hst. injection Hst as <- <-. split; [split; [done|]; simpl; done|]. intros i Ha _ log k. simpl. unfold logs. simpl.
      assert ((l_log <$> ((λ l, if due t l then next_resync t l else l) <$> p_ls (h_proc s))) = logs (h_proc s)) as ->; [|apply Ha].
      unfold logs. rewrite <-list_fmap_compose. apply list_fmap_ext. intros ? l _. simpl. by destruct (due t l).
  Qed.
  Lemma base_init : base init.
  Proof. split; [apply INV_init|done]. Qed.

  Notation tstep i := (λ s c s', ∃ r, hstep s c = (s', r) ∧ told i s r).
  Lemma agrees_reach i cs s : reach (tstep i) init cs s → base s ∧ agrees i s.
  Proof.
    apply (reach_inv (tstep i) (λ s, base s ∧ agrees i s)).
    - intros s1 c s2 [Hb Ha] (r & Hst & Ht). destruct (base_step _ _ _ _ Hb Hst) as [Hb2 Ha2]. split; [done|]. by apply Ha2.
    - split; [apply base_init|]. intros log k. done.
  Qed.
  Lemma handler_view i cs s l k : reach (tstep i) init cs s → p_ls (h_proc s) !! i = Some l → (istep keyf (h_inf s) (SLook k)).2 = IObj (view k (l_log l)).
  Proof.
    intros [Hb Ha]%agrees_reach Hl. rewrite look_cont. f_equal. symmetry. apply Ha. unfold logs. by rewrite list_lookup_fmap, Hl.
  Qed.

  (** ** Without relists resyncs tell nothing new *)
  Definition stale (c : option dobj) (p : list delta) : Prop := ∀ (p1 : list delta) o (p2 : list delta), p = p1 ++ (DtSync, o) :: p2 → settle c p1 = Some o.
  Lemma stale_snoc c (p : list delta) e : stale c p → e.1 ≠ DtSync → stale c (p ++ [e]).
  Proof.
    intros Hp He p1 o p2 Heq. destruct p2 as [|d p2 _] using rev_ind.
    - apply app_inj_tail in Heq as [_ ->]. done.
    - rewrite app_comm_cons, app_assoc in Heq. apply app_inj_tail in Heq as [-> _]. by eapply Hp.
  Qed.
  Lemma stale_init c (p : list delta) e : stale c (p ++ [e]) → stale c p.
  Proof. intros Hp p1 o p2 ->. eapply Hp. by rewrite <-app_assoc. Qed.
  Lemma stale_absorb c (p : list delta) e : stale c p → e.1 ≠ DtSync → stale c (absorb p e).
  Proof.
    intros Hp He. destruct p as [|b p _] using rev_ind; [by apply (stale_snoc c [])|]. rewrite absorb_snoc.
    destruct (is_deletion b && DeltaFifo_spec.is_sync e); [done|]. destruct (is_deletion b && is_deletion e) eqn:Hd; [|by apply stale_snoc].
    apply stale_snoc; [by eapply stale_init|]. apply andb_true_iff in Hd as [Hb _]. destruct (is_tomb b.2); [done|]. by destruct b as [[] ?].
  Qed.
  Definition settled s : Prop := ∀ k, stale (cont k (h_inf s)) (work k (h_inf s)).
  Lemma settled_step s c s' r : base s → settled s → hstep s c = (s', r) → (∀ os, c ≠ HInf (QReplace os)) → settled s' ∧ ∀ i, told i s r.
  Proof.
    intros (HI & _) HS Hst Hno. destruct c as [c|req now| | |t].
    - apply hinf_step in Hst as [(-> & -> & _)|(x & r1 & Hal & Hi & -> & Hx & Hp)]; [done|]. destruct (INV_step keyf fs Hfs _ _ _ _ HI Hi) as [HI' Hef]. subst x.
      destruct Hef as [Hs Hw Hn|dc res Hch Hb Hb' Hs Hpe -> _ _|k0 ds d rest -> Hb -> Hk Hw Hw' Ho Hc|k0 ds Hcc _ _ _ _ _|k0 ds cause Hcc _ _ _ _ _ _]; [..|destruct Hcc as [-> | ->]; done|by subst c].
      + split; [|intros i n [= Hx]; by destruct (Hn n)]. intros k. unfold cont. rewrite Hs, Hw. apply HS.
      + split; [|done]. intros k. specialize (HS k). rewrite idle_work in HS |- * by done. rewrite Hpe. unfold cont in *. rewrite Hs.
        destruct c as [o|o|o|l| | |j| | | |rq| | |j]; try done; simpl in Hch; injection Hch as <-; simpl.
        * case_decide; [|done]. by apply stale_absorb.
        * case_decide; [|done]. by apply stale_absorb.
        * case_decide; [|done]. by apply stale_absorb.
        * by destruct (Hno l).
        * case_decide as Hpn; [|done]. rewrite (found_at keyf fs _ _ (iv_sg _ _ _ HI)), Hpn. destruct (dget k (s_items (i_st (h_inf s)))) as [o|]; [|by rewrite Hpn in HS]. simpl.
          intros p1 o1 p2 Heq. destruct p1 as [|? p1]; [|apply (f_equal length) in Heq; cbn in Heq; rewrite app_length in Heq; cbn in Heq; lia]. cbn in Heq. by injection Heq as <- _.
      + split.
        * intros k. rewrite Hc. destruct (decide (k = k0)) as [->|Hne]; [|rewrite Ho by done; apply HS]. rewrite Hw'. intros p1 o p2 ->.
          rewrite <-settle_cons. eapply (HS k0). by rewrite Hw.
        * intros i n [= <-] Hsy _. right. unfold notif_of in *. destruct d as [t o]. simpl in *.
          assert (t = DtSync) as -> by (destruct t, (cont k0 (h_inf s)); simpl in Hsy; done). specialize (HS k0 [] o rest Hw). unfold settle in HS. simpl in HS. rewrite HS. by eexists _, _.
    - assert (h_inf s' = h_inf s) as Hsame.
      { simpl in Hst. destruct (p_started _ && _); [destruct (d_busy _)|]; by injection Hst as <- <-. }
      split; [intros k; rewrite Hsame; apply HS|]. intros i n ->. simpl in Hst. destruct (p_started _ && _); [destruct (d_busy _)|]; by simplify_eq.
    - by injection Hst as <- <-.
    - simpl in Hst. destruct (p_started _); by injection Hst as <- <-.
    - simpl in Hst. by injection Hst as <- <-.
  Qed.
  Lemma handler_view_no_relist i cs s0 h s l k : reach (tstep i) init cs s0 → drained (h_inf s0) → exec hstep s0 h s →
    (∀ c r os, (c, r) ∈ h → c ≠ HInf (QReplace os)) → p_ls (h_proc s) !! i = Some l → (istep keyf (h_inf s) (SLook k)).2 = IObj (view k (l_log l)).
  Proof.
    intros [Hb0 Ha0]%agrees_reach Hd Hex Hno Hl. rewrite look_cont. f_equal. symmetry.
    enough (base s ∧ agrees i s ∧ settled s) as (_ & Ha & _). { apply Ha. unfold logs. by rewrite list_lookup_fmap, Hl. }
    assert (HS0 : settled s0). { intros j p1 o p2. rewrite drained_work by done. by destruct p1. }
    clear Hd cs Hl. induction Hex as [s|s c r s1 h s2 Hst Hex IH]; [done|]. destruct (settled_step _ _ _ _ Hb0 HS0 Hst) as [HS1 Ht]; [intros l1; eapply Hno; by left|].
    destruct (base_step _ _ _ _ Hb0 Hst) as [Hb1 Ha1]. apply IH; [done|by apply Ha1|intros c1 r1 l1 Hin; eapply Hno; by right|done].
  Qed.

  Lemma backlog h s req now s' : exec hstep init h s → p_started (h_proc s) = true → p_stopped (h_proc s) = false → hstep s (HRegister req now) = (s', HNone) →
    ∃ l os, p_ls (h_proc s') !! length (p_ls (h_proc s)) = Some l ∧ l_log l = (λ o, NAdd o false) <$> os ∧ NoDup os ∧
      ∀ o, o ∈ os ↔ ∃ k, (istep keyf (h_inf s) (SLook k)).2 = IObj (Some o).
  Proof.
    intros Hex Hs Hstop Hst. assert (HB : base s).
    { revert Hex. apply (exec_inv hstep base); [|apply base_init]. intros s1 c Hb. destruct (hstep s1 c) as [s2 r] eqn:H1. by eapply base_step. }
    destruct HB as (HI & _). simpl in Hst. rewrite Hs, Hstop in Hst. simpl in Hst. destruct (d_busy _); [done|]. injection Hst as <-. simpl.
    destruct (register_logs (h_proc s) req now ((λ o, NAdd o false) <$> dvals (s_items (i_st (h_inf s)))) Hstop) as (Hl & _). unfold logs in Hl.
    assert (Hx : (l_log <$> p_ls (register second dflt (h_proc s) req now ((λ o, NAdd o false) <$> dvals (s_items (i_st (h_inf s)))))) !! length (p_ls (h_proc s)) =
      Some ((λ o, NAdd o false) <$> dvals (s_items (i_st (h_inf s))))).
    { rewrite Hl. rewrite lookup_app_r by (by rewrite fmap_length). by rewrite fmap_length, Nat.sub_diag. }
    rewrite list_lookup_fmap in Hx. apply fmap_Some in Hx as (l & Hll & Hlog). exists l, (dvals (s_items (i_st (h_inf s)))).
    pose proof (iv_sg _ _ _ HI) as HG. split; [done|]. split; [done|]. split.
    - pose proof (sg_wf _ _ _ HG) as Hwf. pose proof (sg_key _ _ _ HG) as Hk. revert Hwf Hk. generalize (s_items (i_st (h_inf s))) as d. induction d as [|[k o] d IH]; intros Hwf Hk; [constructor|].
      assert (Hko : key_of keyf o = Some k) by (apply Hk; rewrite dget_cons; by rewrite decide_True).
      pose proof Hwf as Hwf0. unfold dwf, dkeys in Hwf. csimpl in Hwf. apply NoDup_cons in Hwf as [Hni Hwf]. apply not_elem_of_dkeys in Hni. unfold dvals. csimpl. constructor.
      + intros Hin. apply (elem_of_dvals o d Hwf) in Hin as [k' Hk']. assert (k' ≠ k) by congruence. assert (key_of keyf o = Some k') by (apply Hk; rewrite dget_cons; by rewrite decide_False). congruence.
      + apply IH; [done|]. intros k' o' Hk'. apply Hk. rewrite dget_cons, decide_False; [done|congruence].
    - intros o. rewrite elem_of_dvals by apply HG. split; intros [k Hk]; exists k; [cbn; by rewrite Hk|]. cbn in Hk. by injection Hk.
  Qed.

  (** ** C48 *)
  Lemma told_exactly s s' n i l : hstep s (HInf PDelta) = (s', HI (ICallback n)) → p_ls (h_proc s) !! i = Some l →
    ∃ l', p_ls (h_proc s') !! i = Some l' ∧ l_log l' = l_log l ++ (if negb (is_sync n) || bool_decide (i ∈ p_syncing (h_proc s)) then [n] else []).
  Proof.
    intros Hst Hl. apply hinf_step in Hst as [(_ & ? & _)|(x & r1 & _ & _ & [= <-] & _ & [(n1 & [= <-] & Hp)|[Hn _]])]; [done| |by destruct (Hn n)].
    pose proof (distribute_log (h_proc s) n (is_sync n) i) as Hlog. rewrite <-Hp in Hlog. unfold logs in Hlog. rewrite !list_lookup_fmap, Hl in Hlog. simpl in Hlog.
    apply fmap_Some in Hlog as (l' & Hl' & ->). by exists l'.
  Qed.
End proofs.
