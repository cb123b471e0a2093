From Verif Require Import Base KeyFunc_model DeltaFifo_model DeltaFifo_spec DeltaFifo_proofs DeltaFifo_proofs2 Store_model Store_spec Store_proofs
  Reflector_model Reflector_spec Reflector_proofs World_model World_proofs Informer_model Informer_spec Informer_proofs Informer_proofs2 Informer_proofs3
  InformerWorld_model InformerWorld_proofs.

Section proofs.
  Context {K O V N : Type} `{EqDecision K} `{EqDecision V} `{EqDecision N} (keyf : O → option K) (fs : dict N (index_func (dobj K O) V)).
  Hypothesis Hfs : good_indexers fs.
  Notation dobj := (dobj K O).
  Notation delta := (delta K O).
  Notation inf := (inf K O V N).
  Notation istep := (istep (V:=V) (N:=N) keyf).
  Implicit Types (s : inf) (k j : K).

  Lemma failed_callback h n s r k j c (p : option (list delta)) h1 s1 s2 :
    exec istep (inf_init fs) (h ++ [(PDelta, ICallback n)]) s → istep s (PRaise None) = (s1, IQ r) → has_key keyf k (notif_obj n) →
    (istep s (SLook j)).2 = IObj c → (istep s (QGetByKey j)).2 = IQ (DDeltas p) →
    exec istep s1 h1 s2 → (∀ e, e ∈ h1 → processing e.1) → drained s2 →
    (istep s2 (SLook j)).2 = IObj (if decide (j = k) then c else settle c (pending_of p)).
  Proof.
    intros Hex Hst Hk Hc Hp Hex1 Hall Hd. pose proof (INV_exec keyf fs Hfs _ _ Hex) as HI.
    destruct (raise_drops keyf fs Hfs _ _ _ _ j c Hex Hst Hc _ _ Hex1 Hall Hd) as (k0 & ds & Hb & ->).
    apply exec_snoc in Hex as (m & Hm & Hs). pose proof (INV_exec keyf fs Hfs _ _ Hm) as HIm.
    assert (k0 = k) as ->.
    { simpl in Hs. destruct (d_busy (i_q m)) as [[k1 ds1]|] eqn:Hbm; [|done]. destruct (i_todo m) as [|d rest] eqn:Ht; [done|].
      assert (Hkd : has_key keyf k1 d.2) by (apply (iv_keys _ _ _ HIm); rewrite (busy_work keyf fs _ _ _ HIm Hbm), Ht; left).
      destruct (handle_delta_spec keyf fs Hfs _ _ _ (iv_sg _ _ _ HIm) Hkd) as (st' & Hh & _). rewrite Hh in Hs. injection Hs as <- Hn. simpl in Hb.
      rewrite Hbm in Hb. injection Hb as -> _. assert (notif_obj n = d.2) as Hno.
      { rewrite <-Hn. unfold notif_of. destruct d as [[] o]; simpl; try done; by destruct (dget k0 _). }
      unfold has_key in *. congruence. }
    f_equal. destruct (decide (j = k)) as [->|Hne]; [done|]. rewrite look_cont in Hc. injection Hc as <-. rewrite <-(pend_of keyf fs _ _ _ HI Hp).
    unfold eventual, work, todo_of. by rewrite Hb, decide_False.
  Qed.
  (** the failure leaves pop() as an exception *)
  Lemma busy_free s c s' r : INV keyf fs s → istep s c = (s', r) → c ≠ PPop → d_busy (i_q s') = d_busy (i_q s) ∨ d_busy (i_q s') = None.
  Proof.
    intros HI Hs Hc. assert (Hend : ∀ s0 out, i_q s0 = i_q s → d_busy (i_q (end_process keyf s0 out).1) = None).
    { intros s0 out Hq. unfold end_process, dstep, dcall. rewrite Hq. destruct (d_busy (i_q s)) as [[k0 ds0]|] eqn:Hb; simpl; unfold df_finish, put_if_absent; rewrite Hb; [|done].
      destruct out; simpl; try done. by case_decide. }
    assert (Hchg : ∀ dc, change_of s c = Some dc → d_busy (i_q s') = d_busy (i_q s)).
    { intros dc Hch. assert (Hcq : istep s c = call_q keyf s dc) by (destruct c; simpl in Hch; by simplify_eq).
      assert (Hd : changes dc = true) by (destruct c; simpl in Hch; by simplify_eq). rewrite Hcq in Hs. unfold call_q in Hs.
      destruct (d_busy (i_q s)) as [[k0 ds0]|] eqn:Hb.
      - rewrite (busy_step_idle keyf _ _ _ _ Hb Hd) in Hs. by injection Hs as <- _.
      - destruct (dstep keyf (i_q s) dc) as [q r1] eqn:Hst. injection Hs as <- _. simpl. unfold dstep, dcall in Hst. rewrite Hb in Hst.
        destruct (dcall_free keyf (i_q s) dc) as [[q1 r2] n1] eqn:Hf. simpl in Hst. simplify_eq. by destruct (change_call _ _ _ _ _ _ (iv_di _ _ _ HI) Hb Hd Hf) as (_ & ? & _). }
    destruct c; try (left; exact (Hchg _ eq_refl)); try done.
    - simpl in Hs. unfold call_q, dstep, dcall in Hs. destruct (d_busy (i_q s)) as [[??]|] eqn:Hb; simpl in Hs; injection Hs as <- _; by left.
    - simpl in Hs. unfold call_q, dstep, dcall in Hs. destruct (d_busy (i_q s)) as [[??]|] eqn:Hb; simpl in Hs; injection Hs as <- _; by left.
    - simpl in Hs. unfold call_q, dstep, dcall in Hs. destruct (d_busy (i_q s)) as [[??]|] eqn:Hb; simpl in Hs; injection Hs as <- _; by left.
    - simpl in Hs. destruct (d_busy (i_q s)) as [[k0 ds0]|] eqn:Hb; [|injection Hs as <- _; by left]. destruct (i_todo s) as [|d rest]; [injection Hs as <- _; by left|].
      destruct (handle_delta keyf (i_st s) d) as [st [n|]]; [injection Hs as <- _; by left|]. right. pose proof (Hend (Inf (i_q s) st rest false) DFail eq_refl) as He. by rewrite Hs in He.
    - simpl in Hs. destruct (i_cb s); [|injection Hs as <- _; by left]. right. pose proof (Hend s (match requeue with Some cause => DRequeue cause | None => DFail end) eq_refl) as He. by rewrite Hs in He.
    - simpl in Hs. destruct (d_busy (i_q s)) as [[k0 ds0]|] eqn:Hb; [|injection Hs as <- _; by left]. destruct (i_todo s); [|injection Hs as <- _; by left].
      right. pose proof (Hend s DOk eq_refl) as He. by rewrite Hs in He.
    - simpl in Hs. destruct (i_cb s); [|injection Hs as <- _; by left]. right. pose proof (Hend s DCancel eq_refl) as He. by rewrite Hs in He.
    - simpl in Hs. injection Hs as <- _. by left.
  Qed.
  Lemma failure_reported h ds h' n s rq : exec istep (inf_init fs) (h ++ (PPop, IQ (DPopped ds)) :: h' ++ [(PDelta, ICallback n)]) s → (∀ e, e ∈ h' → e.1 ≠ PPop) →
    (istep s (PRaise rq)).2 = IQ (match rq with Some false => DItem ds | _ => DProcessError ds end).
  Proof.
    intros (s0 & Hex0 & (s1 & Hpop & (s2 & Hex2 & (s3 & Hd & ->%exec_nil_iff)%exec_cons_iff)%exec_app)%exec_cons_iff)%exec_app Hno.
    pose proof (INV_exec keyf fs Hfs _ _ Hex0) as HI0.
    assert (HI1 : INV keyf fs s1) by (apply (INV_exec keyf fs Hfs (h ++ [(PPop, IQ (DPopped ds))])); apply exec_snoc; by eexists).
    assert (Hb1 : ∃ k, d_busy (i_q s1) = Some (k, ds)).
    { simpl in Hpop. destruct (dstep keyf (i_q s0) DPop) as [q r] eqn:Hq. unfold dstep, dcall in Hq. destruct (d_busy (i_q s0)) as [[??]|] eqn:Hb; simpl in Hq; [by simplify_eq|].
      unfold df_pop in Hq. destruct r; simplify_eq. repeat case_match; simplify_eq; simpl in *; simplify_eq; by eexists. }
    assert (Hb2 : d_busy (i_q s2) = None ∨ ∃ k, d_busy (i_q s2) = Some (k, ds)).
    { assert (Hgen : ∀ hh sa sb, exec istep sa hh sb → INV keyf fs sa → (∀ e, e ∈ hh → e.1 ≠ PPop) → (d_busy (i_q sa) = None ∨ ∃ k, d_busy (i_q sa) = Some (k, ds)) → (d_busy (i_q sb) = None ∨ ∃ k, d_busy (i_q sb) = Some (k, ds))).
      { clear - Hfs. induction hh as [|[c r] hh IH]; intros sa sb Hex HI Hn Hb; [by apply exec_nil_iff in Hex as ->|]. apply exec_cons_iff in Hex as (sm & Hs & Hex).
        apply (IH _ _ Hex); [|intros e ?; apply Hn; by right|].
        - by destruct (INV_step keyf fs Hfs _ _ _ _ HI Hs).
        - destruct (busy_free _ _ _ _ HI Hs (Hn _ ltac:(left))) as [->|?]; [done|by left]. }
      eapply Hgen; [exact Hex2|done|done|by right]. }
    simpl in Hd. destruct Hb2 as [Hb2|[k Hb2]]; rewrite Hb2 in Hd; [done|]. destruct (i_todo s2) as [|d rest]; [done|].
    destruct (handle_delta keyf (i_st s2) d) as [st [n'|]]; [|unfold end_process in Hd; by destruct (dstep _ _ _)]. injection Hd as <- _.
    simpl. unfold end_process, dstep, dcall. simpl. rewrite Hb2. simpl. unfold df_finish, put_if_absent. rewrite Hb2.
    destruct rq as [[]|]; simpl; try done; by case_decide.
  Qed.
End proofs.

(** ** Concrete runs: objects are (key, content) *)
Definition icase_key (o : nat * nat) : option nat := Some o.1.
Notation icase_inf := (inf nat (nat * nat) nat nat).
Notation icase_step := (istep (V:=nat) (N:=nat) icase_key).
Definition icase_init : icase_inf := inf_init [].
Notation obj k c := (DObj (K:=nat) ((k, c) : nat * nat)).
Notation icase_hist := (list (iop nat (nat * nat) * ires nat (nat * nat))).
Lemma icase_runs (l : list (iop nat (nat * nat))) : exec icase_step icase_init (run icase_step icase_init l).2 (run icase_step icase_init l).1.
Proof. pose proof (run_exec icase_step icase_init l) as H. by destruct (run icase_step icase_init l). Qed.

(** list, watch, resync and processing interleaved: 1 is added, updated and deleted, 2 resynced *)
Definition icase_h : icase_hist := Eval vm_compute in
  (run icase_step icase_init [QReplace [(1, 10); (2, 20)]; PPop; PDelta; QUpdate (1, 11); PDone; QUpdate (1, 11); PPop; PDelta; PDone;
    PPop; PDelta; PDone; QDelete (1, 12); QResync; PPop; PDelta; PDone; PPop; PDelta; PDone]).2.
Lemma icase_life : ∃ s, exec icase_step icase_init icase_h s ∧ no_requeue icase_h ∧ drained s ∧
  callbacks icase_h = [NAdd (obj 1 10) true; NAdd (obj 2 20) true; NUpdate (obj 1 10) (obj 1 11) false; NDelete (obj 1 12); NUpdate (obj 2 20) (obj 2 20) true] ∧
  (icase_step s (SLook 2)).2 = IObj (Some (obj 2 20)) ∧ (icase_step s (SLook 1)).2 = IObj None.
Proof.
  eexists. split; [exact (icase_runs icase_h.*1)|]. split; [|by vm_compute]. intros e cause He.
  repeat (apply elem_of_cons in He as [->|He]; [done|]). by apply elem_of_nil in He.
Qed.

(** C29: the store differs from the list after a drain *)
Definition relist_a : icase_hist := Eval vm_compute in
  (run icase_step icase_init [QReplace [(1, 10)]; PPop; PDelta; PDone; QDelete (1, 10); QReplace [(1, 11)]; PPop; PDelta; PDone]).2.
Definition relist_b : icase_hist := Eval vm_compute in (run icase_step icase_init [QAdd (1, 10); QReplace []; PPop; PDelta; PDone]).2.
Lemma replace_drain_refuted : ∃ h1 s1 h2 s2,
  exec icase_step icase_init (h1 ++ [(QReplace [(1, 11)], IQ DNone); (PPop, IQ (DPopped [(DtDeleted, obj 1 10)])); (PDelta, ICallback (NDelete (obj 1 10))); (PDone, IQ (DItem [(DtDeleted, obj 1 10)]))]) s1 ∧
  drained s1 ∧ (icase_step s1 (SLook 1)).2 = IObj None ∧
  exec icase_step icase_init (h2 ++ [(QReplace [], IQ DNone); (PPop, IQ (DPopped [(DtAdded, obj 1 10)])); (PDelta, ICallback (NAdd (obj 1 10) false)); (PDone, IQ (DItem [(DtAdded, obj 1 10)]))]) s2 ∧
  drained s2 ∧ (icase_step s2 (SLook 1)).2 = IObj (Some (obj 1 10)).
Proof.
  exists (take 5 relist_a), (run icase_step icase_init relist_a.*1).1, (take 1 relist_b), (run icase_step icase_init relist_b.*1).1.
  split; [exact (icase_runs relist_a.*1)|]. split; [by vm_compute|]. split; [by vm_compute|]. split; [exact (icase_runs relist_b.*1)|by vm_compute].
Qed.

(** C43: a handler raising RequeueError is told twice that the object is gone *)
Definition requeue_h : icase_hist := Eval vm_compute in
  (run icase_step icase_init [QAdd (1, 10); PPop; PDelta; PDone; QDelete (1, 10); PPop; PDelta; PRaise (Some false); PPop; PDelta; PDone]).2.
Lemma two_deletions (a b c : notif nat (nat * nat)) o1 o2 x : b = NDelete o1 → c = NDelete o2 → has_key icase_key 1 o1 → has_key icase_key 1 o2 → ¬ life icase_key 1 [a; b; c] x.
Proof.
  intros -> -> H1 H2 Hl. assert (∀ l n y, life icase_key 1 l y → l = n ++ [NDelete o2] → ∃ y', life icase_key 1 n (Some y')) as Hinv.
  { intros l n y Hy Heq. destruct Hy as [|l o b Hk Hy|l old new b Hk Hy|l o old Hk Hy|l n0 c0 Hk Hy]; [by destruct n| | | |]; apply app_inj_tail in Heq as [-> Hq]; simplify_eq; [by eexists|done]. }
  assert (∀ l n y, life icase_key 1 l y → l = n ++ [NDelete o1] → y = None) as Hinv1.
  { intros l n y Hy Heq. destruct Hy as [|l o b Hk Hy|l old new b Hk Hy|l o old Hk Hy|l n0 c0 Hk Hy]; [by destruct n| | | |]; apply app_inj_tail in Heq as [-> Hq]; simplify_eq; done. }
  destruct (Hinv _ [a; NDelete o1] _ Hl eq_refl) as [y' Hy']. by specialize (Hinv1 _ [a] _ Hy' eq_refl).
Qed.
Lemma requeue_refuted : ∃ s, exec icase_step icase_init requeue_h s ∧
  callbacks requeue_h = [NAdd (obj 1 10) false; NDelete (obj 1 10); NDelete (obj 1 10)] ∧ ∀ c, ¬ life icase_key 1 (callbacks requeue_h) c.
Proof.
  eexists. split; [exact (icase_runs requeue_h.*1)|]. split; [by vm_compute|]. intros c.
  change (callbacks requeue_h) with [NAdd (obj 1 10) false; NDelete (obj 1 10); NDelete (obj 1 10)]. by eapply two_deletions.
Qed.

(** C44: the handler fails on the addition, and the deletion is lost *)
Definition raise_h : icase_hist := Eval vm_compute in (run icase_step icase_init [QAdd (1, 10); QDelete (1, 10); PPop; PDelta; PRaise None]).2.
Lemma raise_refuted : ∃ s, exec icase_step icase_init raise_h s ∧ (QDelete (1, 10), IQ DNone) ∈ raise_h ∧ drained s ∧
  (icase_step s (SLook 1)).2 = IObj (Some (obj 1 10)).
Proof. eexists. split; [exact (icase_runs raise_h.*1)|]. split; [right; left|by vm_compute]. Qed.
Lemma raise_case : ∃ s s1, exec icase_step icase_init (take 3 raise_h ++ [(PDelta, ICallback (NAdd (obj 1 10) false))]) s ∧
  icase_step s (PRaise None) = (s1, IQ (DProcessError [(DtAdded, obj 1 10); (DtDeleted, obj 1 10)])) ∧ has_key icase_key 1 (notif_obj (NAdd (obj 1 10) false)).
Proof. eexists _, _. split; [exact (icase_runs (take 4 raise_h).*1)|]. split; [vm_compute; reflexivity|done]. Qed.

(** C50: synced, but the only object of the list is not stored yet *)
Definition synced_h : icase_hist := Eval vm_compute in (run icase_step icase_init [QReplace [(1, 10)]; PPop; QHasSynced]).2.
Lemma has_synced_refuted : ∃ s, exec icase_step icase_init synced_h s ∧
  synced_h = [(QReplace [(1, 10)], IQ DNone); (PPop, IQ (DPopped [(DtSync, obj 1 10)])); (QHasSynced, IQ (DBool true))] ∧
  (icase_step s (SLook 1)).2 = IObj None.
Proof. eexists. split; [exact (icase_runs synced_h.*1)|by vm_compute]. Qed.
Definition synced_h2 : icase_hist := Eval vm_compute in
  (run icase_step icase_init [PPop; QHasSynced; QReplace [(1, 10); (2, 20)]; PPop; QAdd (3, 30); PDelta; PDone; QHasSynced; PPop; PDelta; PDone; QHasSynced]).2.
Lemma has_synced_case : ∃ s, exec icase_step icase_init synced_h2 s ∧ d_busy (i_q s) = None ∧ (icase_step s QHasSynced).2 = IQ (DBool true) ∧
  synced_h2 = take 2 synced_h2 ++ (QReplace [(1, 10); (2, 20)], IQ DNone) :: drop 3 synced_h2.
Proof. eexists. split; [exact (icase_runs synced_h2.*1)|by vm_compute]. Qed.
(** a list naming a key twice, whose first delivery fails: synced and drained without the second object *)
Definition synced_h3 : icase_hist := Eval vm_compute in
  (run icase_step icase_init [QReplace [(1, 10); (1, 11)]; PPop; PDelta; PRaise None; QAdd (2, 20); PPop; PDelta; PDone]).2.
Lemma has_synced_twice_refuted : ∃ s, exec icase_step icase_init synced_h3 s ∧ head synced_h3 = Some (QReplace [(1, 10); (1, 11)], IQ DNone) ∧ drained s ∧
  (icase_step s QHasSynced).2 = IQ (DBool true) ∧ (icase_step s (SLook 1)).2 = IObj (Some (obj 1 10)) ∧
  callbacks synced_h3 = [NAdd (obj 1 10) true; NAdd (obj 2 20) false].
Proof. eexists. split; [exact (icase_runs synced_h3.*1)|by vm_compute]. Qed.
(** a first list that fails at an object without a key leaves objects queued
    that the list after it does not count *)
Definition icase_key9 (o : nat * nat) : option nat := if bool_decide (o.1 = 9) then None else Some o.1.
Notation icase_step9 := (istep (V:=nat) (N:=nat) icase_key9).
Definition synced_h4 : icase_hist := Eval vm_compute in
  (run icase_step9 icase_init [QReplace [(1, 10); (9, 0)]; QReplace [(2, 20)]; PPop; PDelta; PDone]).2.
Lemma has_synced_failed_refuted : ∃ s, exec icase_step9 icase_init synced_h4 s ∧
  take 2 synced_h4 = [(QReplace [(1, 10); (9, 0)], IQ (DKeyFuncError (obj 9 0))); (QReplace [(2, 20)], IQ DNone)] ∧ d_busy (i_q s) = None ∧
  (icase_step9 s QHasSynced).2 = IQ (DBool true) ∧ (icase_step9 s (SLook 2)).2 = IObj None.
Proof.
  exists (run icase_step9 icase_init synced_h4.*1).1. split; [|by vm_compute]. pose proof (run_exec icase_step9 icase_init synced_h4.*1) as H.
  change synced_h4 with (run icase_step9 icase_init synced_h4.*1).2 at 1. by destruct (run icase_step9 icase_init synced_h4.*1).
Qed.

(** C42 *)
Notation ycase_step := (ystep (V:=nat) (N:=nat) icase_key ocase_cfg).
Ltac ychange e := do_step (split; [apply (y_world _ _ _ _ (WChange e)); [by right|]; apply (w_change _ _ _ _ _ e); split; [first [by left|by right; left|by right; right]|]; split; [done|]; by apply ocase_accepted|done]).
Ltac ydeliver e := do_step (split; [apply y_world; [by left|]; eapply (w_deliver _ _ _ _ _ e); vm_compute; reflexivity|done]).
Ltac yin i := do_step (split; [apply y_world; [by left|]; eapply (w_input _ _ _ _ _ (i : rinput (nat * nat) nat)); [try done|vm_compute; reflexivity]|try done]).
Ltac yp c := eapply reach_cons; [split; [eapply (y_inf _ _ _ _ c); [done|vm_compute; reflexivity]|done]|].
(** an object is listed, updated by an event that arrives while the first delta is processed, and resynced *)
Definition ycase_world : world (nat * nat) :=
  World [Event EvAdded (5, 1); Event EvModified (5, 2)] 2 (Refl (RWatching 1) (Some 2) (Some 2) ENone) 1 [Event EvModified (5, 2)].
Lemma ycase_runs : ∃ ls s, reach (λ x l y, ycase_step x l y ∧ careful icase_key x l ∧ intact 5 x l) (world_init, icase_init) ls (ycase_world, s) ∧ drained s ∧
  (icase_step s (SLook 5)).2 = IObj (Some (obj 5 2)).
Proof.
  eexists _, _. split.
  - ychange (Event EvAdded (5, 1)).
    eapply reach_cons. { split; [apply y_world; [by left|]; eapply (w_input _ _ _ _ _ (IList [(5, 1)] 1)); [|vm_compute; reflexivity]; split; [done|]; split; [done|]; by intros k|]. split; [|done]. simpl. by apply drained_calm. }
    compute_state. ychange (Event EvModified (5, 2)). yin (IWatch : rinput (nat * nat) nat). yp (PPop : iop nat (nat * nat)). yp (PDelta : iop nat (nat * nat)). yp (PDone : iop nat (nat * nat)). ydeliver (Event EvModified (5, 2)). yin (IResync true : rinput (nat * nat) nat). yp (PPop : iop nat (nat * nat)). yp (PDelta : iop nat (nat * nat)). yp (PDone : iop nat (nat * nat)). yin (IResync true : rinput (nat * nat) nat). yp (PPop : iop nat (nat * nat)). yp (PDelta : iop nat (nat * nat)). yp (PDone : iop nat (nat * nat)).
    apply reach_nil.
  - by vm_compute.
Qed.
(** an object seen in the watch but still pending is deleted, and the watch fails: the relist does not remove it *)
Lemma relist_refuted : ∃ ls w s, reach ycase_step (world_init, icase_init) ls (w, s) ∧ drained s ∧ r_last (w_refl w) = Some 2 ∧
  w_changes w = [Event EvAdded (5, 1); Event EvDeleted (5, 2)] ∧ server_at icase_key (w_changes w) 2 5 = None ∧ (icase_step s (SLook 5)).2 = IObj (Some (obj 5 1)).
Proof.
  assert (∃ ls w s, reach (λ x l y, ycase_step x l y ∧ True) (world_init, icase_init) ls (w, s) ∧ drained s ∧ r_last (w_refl w) = Some 2 ∧
    w_changes w = [Event EvAdded (5, 1); Event EvDeleted (5, 2)] ∧ server_at icase_key (w_changes w) 2 5 = None ∧ (icase_step s (SLook 5)).2 = IObj (Some (obj 5 1))) as (ls & w & s & Hr & Hx).
  2:{ exists ls, w, s. split; [|done]. clear Hx. revert Hr. generalize (w, s), (world_init (O:=nat*nat), icase_init). intros y x. induction 1; [apply reach_nil|]. eapply reach_app; [done|]. apply reach_one, H. }
  eexists _, _, _. split.
  - eapply reach_cons. { split; [apply y_world; [by left|]; eapply (w_input _ _ _ _ _ (IList [] 0)); [|vm_compute; reflexivity]; split; [done|]; split; [by intros o ?%elem_of_nil|]; by intros k|done]. }
    compute_state. yin (IWatch : rinput (nat * nat) nat). ychange (Event EvAdded (5, 1)). ydeliver (Event EvAdded (5, 1)). ychange (Event EvDeleted (5, 2)). yin (IClose false : rinput (nat * nat) nat). yin (IWatchFails : rinput (nat * nat) nat).
    eapply reach_cons. { split; [apply y_world; [by left|]; eapply (w_input _ _ _ _ _ (IList [] 2)); [|vm_compute; reflexivity]; split; [done|]; split; [by intros o ?%elem_of_nil|]|done].
      intros k. unfold server_at. simpl. by destruct (decide _). }
    compute_state. yp (PPop : iop nat (nat * nat)). yp (PDelta : iop nat (nat * nat)). yp (PDone : iop nat (nat * nat)). apply reach_nil.
  - by vm_compute.
Qed.
(** an object is added and deleted while its first delta waits; the handler's on_add fails and the deletion is lost *)
Lemma failed_handler_refuted : ∃ ls w s, reach (λ x l y, ycase_step x l y ∧ careful icase_key x l) (world_init, icase_init) ls (w, s) ∧ drained s ∧ r_last (w_refl w) = Some 2 ∧
  w_changes w = [Event EvAdded (5, 1); Event EvDeleted (5, 2)] ∧ server_at icase_key (w_changes w) 2 5 = None ∧ (icase_step s (SLook 5)).2 = IObj (Some (obj 5 1)).
Proof.
  eexists _, _, _. split.
  - eapply reach_cons. { split; [apply y_world; [by left|]; eapply (w_input _ _ _ _ _ (IList [] 0)); [|vm_compute; reflexivity]; split; [done|]; split; [by intros o ?%elem_of_nil|]; by intros k|simpl; by apply drained_calm]. }
    compute_state. yin (IWatch : rinput (nat * nat) nat). ychange (Event EvAdded (5, 1)). ydeliver (Event EvAdded (5, 1)). ychange (Event EvDeleted (5, 2)). ydeliver (Event EvDeleted (5, 2)).
    yp (PPop : iop nat (nat * nat)). yp (PDelta : iop nat (nat * nat)). yp (PRaise None : iop nat (nat * nat)). apply reach_nil.
  - by vm_compute.
Qed.
Lemma repair_runs : ∃ ls1 w1 s1 w2 s2 ls2 w s, reach ycase_step (world_init, icase_init) ls1 (w1, s1) ∧ (icase_step s1 (SLook 5)).2 = IObj (Some (obj 5 1)) ∧ r_pc (w_refl w1) = RIdle ∧
  ycase_step (w1, s1) (YWorld (WInput (IList [] 2))) (w2, s2) ∧ careful icase_key (w1, s1) (YWorld (WInput (IList [] 2))) ∧
  reach (λ x l y, ycase_step x l y ∧ careful icase_key x l ∧ intact 5 x l) (w2, s2) ls2 (w, s) ∧ r_last (w_refl w) = Some 2 ∧ drained s ∧ (icase_step s (SLook 5)).2 = IObj None.
Proof.
  assert (∃ ls1 w1 s1 w2 s2 ls2 w s, reach (λ x l y, ycase_step x l y ∧ True) (world_init, icase_init) ls1 (w1, s1) ∧ (icase_step s1 (SLook 5)).2 = IObj (Some (obj 5 1)) ∧ r_pc (w_refl w1) = RIdle ∧
    ycase_step (w1, s1) (YWorld (WInput (IList [] 2))) (w2, s2) ∧ careful icase_key (w1, s1) (YWorld (WInput (IList [] 2))) ∧
    reach (λ x l y, ycase_step x l y ∧ careful icase_key x l ∧ intact 5 x l) (w2, s2) ls2 (w, s) ∧ r_last (w_refl w) = Some 2 ∧ drained s ∧ (icase_step s (SLook 5)).2 = IObj None)
    as (ls1 & w1 & s1 & w2 & s2 & ls2 & w & s & Hr & Hx).
  2:{ exists ls1, w1, s1, w2, s2, ls2, w, s. split; [|done]. clear Hx. revert Hr. generalize (w1, s1), (world_init (O:=nat*nat), icase_init). intros y x. induction 1; [apply reach_nil|]. eapply reach_app; [done|]. apply reach_one, H. }
  eexists _, _, _, _, _, _, _, _. split; [|split; [|split; [|split; [|split; [|split]]]]].
  - eapply reach_cons. { split; [apply y_world; [by left|]; eapply (w_input _ _ _ _ _ (IList [] 0)); [|vm_compute; reflexivity]; split; [done|]; split; [by intros o ?%elem_of_nil|]; by intros k|done]. }
    compute_state. yin (IWatch : rinput (nat * nat) nat). ychange (Event EvAdded (5, 1)). ydeliver (Event EvAdded (5, 1)). ychange (Event EvDeleted (5, 2)). ydeliver (Event EvDeleted (5, 2)).
    yp (PPop : iop nat (nat * nat)). yp (PDelta : iop nat (nat * nat)). yp (PRaise None : iop nat (nat * nat)). yin (IClose false : rinput (nat * nat) nat). yin (IWatchFails : rinput (nat * nat) nat). apply reach_nil.
  - by vm_compute.
  - by vm_compute.
  - apply y_world; [by left|]; eapply (w_input _ _ _ _ _ (IList [] 2)); [|vm_compute; reflexivity]; split; [done|]; split; [by intros o ?%elem_of_nil|]. intros k. unfold server_at. simpl. by destruct (decide _).
  - simpl. by apply drained_calm.
  - yp (PPop : iop nat (nat * nat)). yp (PDelta : iop nat (nat * nat)). yp (PDone : iop nat (nat * nat)). apply reach_nil.
  - by vm_compute.
Qed.
