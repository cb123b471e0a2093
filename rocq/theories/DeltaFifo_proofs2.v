From Verif Require Import Base DeltaFifo_model DeltaFifo_spec DeltaFifo_proofs.

Section proofs.
  Context {K O : Type} `{EqDecision K} (keyf : O → option K).
  Notation hist := (list (dop K O * dres K O)).
  Notation delta := (delta K O).
  Implicit Types (s : dfifo K O) (h : hist) (k j : K) (p ds : list delta) (o : dobj K O).
  Notation deltas_key := (deltas_key keyf).
  Notation dstep := (dstep keyf).
  Notation DI := (DI keyf).

  (** ** C26 *)
  (** every step except a successful pop only appends keys; a successful pop
      removes the first one *)
  Lemma step_keys s c s' r : DI s → dstep s c = (s', r) →
    match r with
    | DPopped ds => ∃ k, dkeys (d_items s) = k :: dkeys (d_items s') ∧ deltas_key ds = Some k
    | _ => grows s s'
    end.
  Proof.
    intros HD Hst. unfold DeltaFifo_model.dstep, dcall in Hst.
    assert (Hsame : grows s s) by (exists []; by rewrite app_nil_r).
    destruct (d_busy s) as [[k0 ds0]|] eqn:Hb.
    - destruct (needs_lock c) eqn:Hl; simpl in Hst; [by simplify_eq|].
      destruct c as [o|o|kn o| | |o|k|kn l|kn| |out|ds| | |]; try done; simpl in Hst; simplify_eq; try done.
      + destruct (key_of keyf o); first [done|simpl in *; by simplify_eq].
      + unfold df_finish in Hst. rewrite Hb in Hst. destruct out as [|cause| |]; simpl in Hst; simplify_eq; try done.
        destruct (put_if_absent k0 ds0 _) as [s2 n2] eqn:Hput. simpl in Hst. destruct (di_busy _ _ HD _ _ Hb) as [Hk0 Hni].
        apply (put_spec keyf) in Hput as (_ & _ & _ & _ & _ & _ & Hkk & _); [|destruct HD; by split|done|done].
        destruct cause; simplify_eq; eexists; exact Hkk.
    - destruct (changes c) eqn:Hc.
      + destruct (dcall_free keyf s c) as [[s1 r1] n] eqn:Hcall. simpl in Hst. simplify_eq.
        destruct (change_call keyf _ _ _ _ _ HD Hb Hc Hcall) as (_ & _ & _ & _ & Hg & _ & Hr). by destruct Hr as [->|[? ->]].
      + destruct c as [o|o|kn o| | |o|k|kn l|kn| |out|ds| | |]; try done; simpl in Hst; simplify_eq; try done.
        * destruct (key_of keyf o); first [done|simpl in *; by simplify_eq].
        * rewrite (pop_spec keyf _ HD) in Hst. destruct (d_items s) as [|[k ds] rest] eqn:Hit; simpl in Hst; simplify_eq.
          -- assert (grows s (DFIFO [] [] (d_populated s) (d_count s) (d_closed s) None)) by (exists []; by rewrite Hit).
             by destruct (d_closed s).
          -- exists k. split; [done|]. by destruct (DI_pop keyf _ _ _ _ HD Hit true 0 true) as (_ & _ & _ & Hk).
        * unfold df_finish in Hst. rewrite Hb in Hst. simpl in Hst. by simplify_eq.
        * unfold df_add_if_not_present in Hst. destruct (last ds) as [d|] eqn:Hl; simpl in Hst; [|by simplify_eq].
          destruct (key_of keyf d.2) as [k|] eqn:Hk; simpl in Hst; [|by simplify_eq].
          destruct (put_if_absent k ds s) as [s2 n2] eqn:Hput. simpl in Hst. simplify_eq.
          apply (put_spec keyf) in Hput as (_ & _ & _ & _ & _ & _ & Hkk & _); [by eexists|done|done|].
          unfold DeltaFifo_spec.deltas_key. by rewrite Hl.
  Qed.
  Lemma DI_step s c : DI s → DI (dstep s c).1.
  Proof.
    intros HD.
    unfold DeltaFifo_model.dstep, dcall. destruct (d_busy s) as [[k0 ds0]|] eqn:Hb.
    - destruct (needs_lock c) eqn:Hl; [done|].
      destruct c as [o|o|kn o| | |o|k|kn l|kn| |out|ds| | |]; try done; simpl.
      + destruct (key_of keyf o); first [done|simpl in *; by simplify_eq].
      + unfold df_finish. rewrite Hb. set (s1 := DFIFO _ _ _ _ _ _). assert (HD1 : DI s1) by (destruct HD; by split).
        destruct out as [|cause| |]; try done.
        destruct (put_if_absent k0 ds0 s1) as [s2 n2] eqn:Hput. destruct (di_busy _ _ HD _ _ Hb) as [Hk0 Hni].
        by apply (put_spec keyf) in Hput as (HD2 & _).
    - destruct (changes c) eqn:Hc.
      + destruct (dcall_free keyf s c) as [[s1 r1] n] eqn:Hcall. simpl.
        by destruct (change_call keyf _ _ _ _ _ HD Hb Hc Hcall) as (HD' & _).
      + destruct c as [o|o|kn o| | |o|k|kn l|kn| |out|ds| | |]; try done; simpl.
        * destruct (key_of keyf o); first [done|simpl in *; by simplify_eq].
        * rewrite (pop_spec keyf _ HD). destruct (d_items s) as [|[k ds] rest] eqn:Hit; simpl.
          -- split; try done. apply dwf_nil.
          -- by destruct (DI_pop keyf _ _ _ _ HD Hit (d_populated s) (pred (d_count s)) (d_closed s)) as (HD' & _).
        * unfold df_finish. by rewrite Hb.
        * unfold df_add_if_not_present. destruct (last ds) as [d|] eqn:Hl; [|done].
          destruct (key_of keyf d.2) as [k|] eqn:Hk; [|done].
          destruct (put_if_absent k ds s) as [s2 n2] eqn:Hput. simpl.
          apply (put_spec keyf) in Hput as (HD2 & _); try done. unfold DeltaFifo_spec.deltas_key. by rewrite Hl.
        * destruct HD; by split.
  Qed.
  Lemma list_keys_eq s : (dstep s DListKeys).2 = DKeys (dkeys (d_items s)).
  Proof. unfold DeltaFifo_model.dstep, dcall. by destruct (d_busy s) as [[??]|]. Qed.

  Lemma df_order h s c ks : exec dstep dfifo_init h s → (dstep s DListKeys).2 = DKeys ks →
    match (dstep s c).2 with
    | DPopped ds => ∃ k ks', ks = k :: ks' ∧ deltas_key ds = Some k ∧ (dstep (dstep s c).1 DListKeys).2 = DKeys ks'
    | _ => ∃ new, (dstep (dstep s c).1 DListKeys).2 = DKeys (ks ++ new) ∧ NoDup (ks ++ new)
    end.
  Proof.
    intros HD%DI_exec. rewrite !list_keys_eq. intros; simplify_eq.
    pose proof (step_keys s c (dstep s c).1 (dstep s c).2 HD (surjective_pairing _)) as Hk.
    pose proof (di_wf _ _ (DI_step s c HD)) as Hwf. unfold dwf in Hwf.
    destruct (dstep s c).2; try (destruct Hk as [new Hk]; exists new; rewrite <-Hk; by split).
    destruct Hk as (k & Hk & Hdk). exists k. eexists. by split; [exact Hk|].
  Qed.
  Lemma df_pop_answers h s : exec dstep dfifo_init h s →
    match (dstep s DPop).2 with
    | DPopped _ => ∃ k ks, (dstep s DListKeys).2 = DKeys (k :: ks)
    | DBlocked | DClosedError => (dstep s DListKeys).2 = DKeys []
    | DLockWait => (dstep s DPop).1 = s
    | _ => False
    end.
  Proof.
    intros HD%DI_exec. rewrite list_keys_eq. unfold DeltaFifo_model.dstep, dcall.
    destruct (d_busy s) as [[??]|]; simpl; [done|]. rewrite (pop_spec keyf _ HD).
    destruct (d_items s) as [|[k ds] rest]; simpl; [by destruct (d_closed s)|]. by exists k, (dkeys rest).
  Qed.

  (** ** C27 *)
  Lemma inert_exec h s : exec dstep dfifo_init h s → (∀ e, e ∈ h → inert e.1) → ∃ b, s = DFIFO [] [] false 0 b None.
  Proof.
    intros Hex. assert (∃ b, dfifo_init (K:=K) (O:=O) = DFIFO [] [] false 0 b None) as H0 by (by exists false).
    induction Hex as [s|s c r s1 h s2 Hst Hex IH]; intros Hno; [done|].
    apply IH; [|intros e He; apply Hno; by right]. clear IH Hex. specialize (Hno (c, r) ltac:(left)).
    destruct H0 as [b ->]. unfold DeltaFifo_model.dstep, dcall in Hst. simpl in Hno, Hst.
    destruct c as [o|o|kn o| | |o|k|kn l|kn| |out|ds| | |]; try done; simpl in Hst; try (by simplify_eq; eauto).
    - destruct (key_of keyf o); simpl in Hst; simplify_eq; eauto.
    - destruct kn as [kn|]; simpl in Hst; [|simplify_eq; eauto]. simpl in Hno. rewrite Hno in Hst. simpl in Hst. simplify_eq; eauto.
  Qed.

  Lemma sync_all_keys l s n s' n' : DI s → d_busy s = None → sync_all keyf l s n = (s', n', None) →
    NoDup (dkeys (d_items s) ++ omap (key_of keyf) l) →
    dkeys (d_items s') = dkeys (d_items s) ++ omap (key_of keyf) l ∧ length l = length (omap (key_of keyf) l).
  Proof.
    revert s n. induction l as [|o l IH]; intros s n HD Hb; simpl.
    - intros; simplify_eq. by rewrite app_nil_r.
    - destruct (key_of keyf o) as [k|] eqn:Hk; [|done].
      destruct (queue_action DtSync k o s) as [s1 n1] eqn:Hq. intros Hs Hnd.
      destruct (queue_action_spec keyf _ _ _ _ _ _ HD Hb Hk Hq) as (HD1 & Hf1 & Hp1 & Hk1 & Hn1).
      assert (Hb1 : d_busy s1 = None) by (destruct Hf1 as (_&_&_&->); done).
      rewrite decide_False in Hk1.
      2: { apply NoDup_app in Hnd as (_ & Hd & _). intros Hin. apply (Hd k Hin). left. }
      destruct (IH _ _ HD1 Hb1 Hs) as [IH1 IH2].
      { rewrite Hk1, <-app_assoc. done. }
      rewrite IH1, Hk1, <-app_assoc. simpl. by rewrite IH2.
  Qed.
  Lemma delete_all_keys (l : list (K * option (dobj K O))) s n s' n' : DI s → d_busy s = None → delete_all l s n = (s', n') →
    NoDup (dkeys (d_items s) ++ l.*1) → dkeys (d_items s') = dkeys (d_items s) ++ l.*1.
  Proof.
    revert s n. induction l as [|[k o] l IH]; intros s n HD Hb; csimpl.
    - intros; simplify_eq. by rewrite app_nil_r.
    - simpl. destruct (queue_action DtDeleted k (DTomb k o) s) as [s1 n1] eqn:Hq. intros Hs Hnd.
      destruct (queue_action_spec keyf DtDeleted k (DTomb k o) _ _ _ HD Hb eq_refl Hq) as (HD1 & Hf1 & Hp1 & Hk1 & Hn1).
      assert (Hb1 : d_busy s1 = None) by (destruct Hf1 as (_&_&_&->); done).
      rewrite decide_False in Hk1.
      2: { apply NoDup_app in Hnd as (_ & Hd & _). intros Hin. apply (Hd k Hin). left. }
      rewrite (IH _ _ HD1 Hb1 Hs); [by rewrite Hk1, <-app_assoc|]. rewrite Hk1, <-app_assoc. done.
  Qed.

  Notation batch := (batch keyf).

  Record BI (c0 : nat) (B : list K) h s : Prop := {
    bi_di : DI s;
    bi_pop : d_populated s = true;
    bi_main : ∃ consumed added, B ++ added = consumed ++ d_queue s ∧ d_count s = c0 - length consumed ∧
      (∀ k, k ∈ consumed ↔ ∃ e, e ∈ h ∧ pops keyf k e)
  }.

  Lemma BI_first kn l b s : dstep (DFIFO [] [] false 0 b None) (DReplace kn l) = (s, DNone) →
    NoDup (omap (key_of keyf) l) → NoDup (known_keys kn) → BI (length (batch kn l)) (batch kn l) [] s.
  Proof.
    intros Hst Hnd Hkn. set (s0 := DFIFO [] [] false 0 b None) in *.
    assert (HD0 : DI s0) by (split; simpl; try done; apply dwf_nil).
    pose proof (DI_step s0 (DReplace kn l) HD0) as HD'. rewrite Hst in HD'. simpl in HD'.
    unfold DeltaFifo_model.dstep, dcall in Hst. simpl in Hst. unfold df_replace in Hst.
    destruct (sync_all keyf l s0 false) as [[s1 n1] err] eqn:Hs.
    destruct (sync_all_spec keyf _ _ _ _ _ _ HD0 eq_refl Hs) as (HD1 & Hf1 & _).
    destruct err as [o|]; [done|].
    destruct (sync_all_keys _ _ _ _ _ HD0 eq_refl Hs) as [Hk1 Hlen]; [done|]. simpl in Hk1.
    assert (Hb1 := not_busy_frame _ _ Hf1 eq_refl).
    destruct (delete_all (deletions kn (omap (key_of keyf) l) s1) s1 n1) as [s2 n2] eqn:Hd. simpl in Hst.
    destruct (delete_all_spec keyf _ _ _ _ _ HD1 Hb1 Hd) as (HD2 & Hf2 & _).
    assert (Hdk : (deletions kn (omap (key_of keyf) l) s1).*1 = filter (λ k, k ∉ omap (key_of keyf) l) (known_keys kn)).
    { destruct kn as [kn|]; unfold deletions; simpl.
      - rewrite <-list_fmap_compose. etrans; [|apply list_fmap_id]. done.
      - replace (filter _ (d_items s1)) with (@nil (K * list delta)); [done|]. symmetry.
        destruct (filter _ (d_items s1)) as [|[k ds] f] eqn:Hf; [done|]. exfalso.
        assert ((k, ds) ∈ filter (λ x : K * list delta, x.1 ∉ omap (key_of keyf) l) (d_items s1)) as Hin by (rewrite Hf; left).
        apply elem_of_list_filter in Hin as [Hn Hin]. apply Hn. rewrite <-Hk1. simpl.
        unfold dkeys. apply elem_of_list_fmap. by exists (k, ds). }
    assert (Hk2 : dkeys (d_items s2) = batch kn l).
    { rewrite (delete_all_keys _ _ _ _ _ HD1 Hb1 Hd); [by rewrite Hk1, Hdk|]. rewrite Hk1, Hdk. apply NoDup_app. split; [done|]. split.
      - intros k Hk Hk'. by apply elem_of_list_filter in Hk' as [? _].
      - by apply NoDup_filter. }
    assert (Hpop2 : d_populated s2 = false).
    { destruct Hf2 as (->&_). by destruct Hf1 as (->&_). }
    unfold set_initial in Hst. rewrite Hpop2 in Hst. simplify_eq. split; [done|done|]. simpl.
    exists [], []. rewrite app_nil_r. split; [by rewrite (di_queue _ _ HD2)|]. split.
    - simpl. unfold batch. rewrite app_length, <-Hlen, <-Hdk, fmap_length. lia.
    - intros k. split; [by intros ?%elem_of_nil|]. intros (e & He & _). by apply elem_of_nil in He.
  Qed.

  (** the same for lists that may name a key several times, nothing being known *)
  Lemma sync_all_len l s n s' n' : DI s → d_busy s = None → sync_all keyf l s n = (s', n', None) →
    length (dkeys (d_items s')) ≤ length (dkeys (d_items s)) + length l.
  Proof.
    revert s n. induction l as [|o l IH]; intros s n HD Hb; simpl.
    - intros; simplify_eq. lia.
    - destruct (key_of keyf o) as [k|] eqn:Hk; [|done].
      destruct (queue_action DtSync k o s) as [s1 n1] eqn:Hq. intros Hs.
      destruct (queue_action_spec keyf _ _ _ _ _ _ HD Hb Hk Hq) as (HD1 & Hf1 & Hp1 & Hk1 & Hn1).
      assert (Hb1 : d_busy s1 = None) by (destruct Hf1 as (_&_&_&->); done).
      specialize (IH _ _ HD1 Hb1 Hs). rewrite Hk1, app_length in IH. case_decide; simpl in IH; lia.
  Qed.
  Lemma BI_first_any kn l b s : dstep (DFIFO [] [] false 0 b None) (DReplace (Some kn) l) = (s, DNone) → kn_keys kn = [] →
    BI (length l) (dkeys (d_items s)) [] s ∧ length (dkeys (d_items s)) ≤ length l.
  Proof.
    intros Hst Hkn. set (s0 := DFIFO [] [] false 0 b None) in *.
    assert (HD0 : DI s0) by (split; simpl; try done; apply dwf_nil).
    pose proof (DI_step s0 (DReplace (Some kn) l) HD0) as HD'. rewrite Hst in HD'. simpl in HD'.
    unfold DeltaFifo_model.dstep, dcall in Hst. simpl in Hst. unfold df_replace in Hst.
    destruct (sync_all keyf l s0 false) as [[s1 n1] err] eqn:Hs.
    destruct (sync_all_spec keyf _ _ _ _ _ _ HD0 eq_refl Hs) as (HD1 & Hf1 & _).
    destruct err as [o|]; [done|]. pose proof (sync_all_len _ _ _ _ _ HD0 eq_refl Hs) as Hlen. simpl in Hlen.
    unfold deletions in Hst. rewrite Hkn in Hst. simpl in Hst.
    assert (Hpop : d_populated s1 = false) by (by destruct Hf1 as (->&_)).
    unfold set_initial in Hst. rewrite Hpop in Hst. simplify_eq. simpl. split; [|done]. split; [done|done|]. simpl.
    exists [], []. rewrite app_nil_r. split; [by rewrite (di_queue _ _ HD1)|]. split; [simpl; lia|].
    intros k. split; [by intros ?%elem_of_nil|]. intros (e & He & _). by apply elem_of_nil in He.
  Qed.

  Lemma BI_keep c0 B h s c r s' : BI c0 B h s → DI s' → d_populated s' = true → d_count s' = d_count s → grows s s' →
    (∀ k, ¬ pops keyf k (c, r)) → BI c0 B (h ++ [(c, r)]) s'.
  Proof.
    intros [HD Hp (cs & ad & Heq & Hc & Hcs)] HD' Hp' Hc' [new Hg] Hno. split; [done|done|].
    exists cs, (ad ++ new). split; [|split].
    - rewrite (di_queue _ _ HD'), Hg, <-(di_queue _ _ HD). by rewrite !app_assoc, Heq.
    - congruence.
    - intros k. rewrite Hcs. split; intros (e & He & Hk); exists e; (split; [|done]).
      + apply elem_of_app. by left.
      + apply elem_of_app in He as [?|He]; [done|]. apply elem_of_list_singleton in He as ->. by destruct (Hno k).
  Qed.
  Lemma step_count s c s' r : DI s → d_populated s = true → dstep s c = (s', r) →
    d_populated s' = true ∧ d_count s' = match r with DPopped _ => pred (d_count s) | _ => d_count s end.
  Proof.
    intros HD Hpop Hst. unfold DeltaFifo_model.dstep, dcall in Hst.
    destruct (d_busy s) as [[k0 ds0]|] eqn:Hb.
    - destruct (needs_lock c) eqn:Hl; simpl in Hst; [by simplify_eq|].
      destruct c as [o|o|kn o| | |o|k|kn l|kn| |out|ds| | |]; try done; simpl in Hst; simplify_eq; try done.
      + destruct (key_of keyf o); first [done|simpl in *; by simplify_eq].
      + unfold df_finish in Hst. rewrite Hb in Hst. destruct out as [|cause| |]; simpl in Hst; simplify_eq; try done.
        destruct (put_if_absent k0 ds0 _) as [s2 n2] eqn:Hput. simpl in Hst. destruct (di_busy _ _ HD _ _ Hb) as [Hk0 Hni].
        apply (put_spec keyf) in Hput as (_ & _ & _ & Hp & Hc & _); [|destruct HD; by split|done|done]. simpl in Hc.
        destruct cause; by simplify_eq.
    - destruct (changes c) eqn:Hc.
      + destruct (dcall_free keyf s c) as [[s1 r1] n] eqn:Hcall. simpl in Hst. simplify_eq.
        destruct (change_call keyf _ _ _ _ _ HD Hb Hc Hcall) as (_ & _ & _ & _ & _ & _ & Hr).
        destruct (change_count keyf _ _ _ _ _ HD Hb Hc Hcall Hpop). by destruct Hr as [->|[? ->]].
      + destruct c as [o|o|kn o| | |o|k|kn l|kn| |out|ds| | |]; try done; simpl in Hst; simplify_eq; try done.
        * destruct (key_of keyf o); first [done|simpl in *; by simplify_eq].
        * rewrite (pop_spec keyf _ HD) in Hst. destruct (d_items s) as [|[k ds] rest] eqn:Hit; simpl in Hst; simplify_eq; [|done].
          by destruct (d_closed s).
        * unfold df_finish in Hst. rewrite Hb in Hst. simpl in Hst. by simplify_eq.
        * unfold df_add_if_not_present in Hst. destruct (last ds) as [d|] eqn:Hl; simpl in Hst; [|by simplify_eq].
          destruct (key_of keyf d.2) as [k|] eqn:Hk; simpl in Hst; [|by simplify_eq].
          destruct (put_if_absent k ds s) as [s2 n2] eqn:Hput. simpl in Hst. simplify_eq.
          apply (put_spec keyf) in Hput as (_ & _ & _ & Hp & Hc' & _); [done|done|done|].
          unfold DeltaFifo_spec.deltas_key. by rewrite Hl.
  Qed.
  Lemma popped_is_pop s c s' ds : dstep s c = (s', DPopped ds) → c = DPop.
  Proof.
    intros Hst. unfold DeltaFifo_model.dstep, dcall in Hst. destruct c as [o|o|kn o| | |o|k|kn l|kn| |out|ds'| | |]; try done; exfalso.
    all: destruct (d_busy s) as [[k0 ds0]|] eqn:Hb; simpl in Hst; try done.
    - unfold df_add in Hst. destruct (key_of keyf o); [|done]. by destruct (queue_action _ _ _ _).
    - unfold df_add in Hst. destruct (key_of keyf o); [|done]. by destruct (queue_action _ _ _ _).
    - unfold df_delete in Hst. destruct (key_of keyf o); [|done]. match type of Hst with context [if ?b then _ else _] => destruct b end; [done|]. by destruct (queue_action _ _ _ _).
    - destruct (key_of keyf o); first [done|simpl in *; by simplify_eq].
    - destruct (key_of keyf o); first [done|simpl in *; by simplify_eq].
    - unfold df_replace in Hst. destruct (sync_all _ _ _ _) as [[??] [?|]]; [done|]. by destruct (delete_all _ _ _).
    - unfold df_resync in Hst. destruct kn as [kn|]; [|done]. revert Hst. generalize false. generalize s. induction (kn_keys kn) as [|k ks IH]; intros s1 b Hst; simpl in Hst; [done|].
      destruct (sync_key keyf kn k s1) as [[??] [?|]]; [done|]. by eapply IH.
    - unfold df_finish in Hst. rewrite Hb in Hst. destruct out as [|[]| |]; simpl in Hst; try done; by destruct (put_if_absent _ _ _).
    - unfold df_finish in Hst. by rewrite Hb in Hst.
    - unfold df_add_if_not_present in Hst. destruct (last ds') as [d|]; [|done]. destruct (key_of keyf d.2); [|done]. by destruct (put_if_absent _ _ _).
  Qed.
  Lemma BI_step c0 B h s c r s' : BI c0 B h s → dstep s c = (s', r) → BI c0 B (h ++ [(c, r)]) s'.
  Proof.
    intros HB Hst. pose proof HB as [HD Hp (cs & ad & Heq & Hc & Hcs)].
    pose proof (DI_step s c HD) as HD'. rewrite Hst in HD'. simpl in HD'.
    pose proof (step_keys _ _ _ _ HD Hst) as Hk. destruct (step_count _ _ _ _ HD Hp Hst) as [Hp' Hc'].
    destruct r as [|ds| | | | | | | | | | | | |]; try (apply BI_keep with s; try done; by intros k (ds' & ? & _)).
    pose proof (popped_is_pop _ _ _ _ Hst) as ->. destruct Hk as (k0 & Hk & Hdk). split; [done|done|].
    exists (cs ++ [k0]), ad. split; [|split].
    - rewrite Heq, (di_queue _ _ HD), Hk, <-(di_queue _ _ HD'). by rewrite <-app_assoc.
    - rewrite Hc', Hc, app_length. simpl. lia.
    - intros k. rewrite elem_of_app, elem_of_list_singleton, Hcs. split.
      + intros [(e & He & Hke)| ->].
        * exists e. split; [|done]. apply elem_of_app. by left.
        * exists (DPop, DPopped ds). split; [apply elem_of_app; right; by apply elem_of_list_singleton|]. by exists ds.
      + intros (e & [He|He]%elem_of_app & Hke); [left; eauto|right]. apply elem_of_list_singleton in He as ->.
        destruct Hke as (ds' & ? & ?). simplify_eq. congruence.
  Qed.
  Lemma BI_exec c0 B h0 s0 h s : BI c0 B h0 s0 → exec dstep s0 h s → BI c0 B (h0 ++ h) s.
  Proof.
    revert s. induction h as [|[c r] h IH] using rev_ind; intros s HB.
    - intros ->%exec_nil_iff. by rewrite app_nil_r.
    - intros (m & Hm & Hst)%exec_snoc. rewrite app_assoc. eapply BI_step; [|done]. by apply IH.
  Qed.
  Lemma has_synced_eq s : (dstep s DHasSynced).2 = DBool (df_has_synced s).
  Proof. unfold DeltaFifo_model.dstep, dcall. by destruct (d_busy s) as [[??]|]. Qed.

  Lemma df_synced_exact h0 kn l h s :
    exec dstep dfifo_init (h0 ++ (DReplace kn l, DNone) :: h) s → (∀ e, e ∈ h0 → inert e.1) →
    NoDup (omap (key_of keyf) l) → NoDup (known_keys kn) →
    (dstep s DHasSynced).2 = DBool true ↔ ∀ k, k ∈ batch kn l → ∃ e, e ∈ h ∧ pops keyf k e.
  Proof.
    intros Hex H0 Hnd Hkn. apply exec_app in Hex as (s0 & Hex0 & Hex). apply exec_cons_iff in Hex as (s1 & Hst & Hex).
    destruct (inert_exec _ _ Hex0 H0) as [b ->].
    pose proof (BI_exec _ _ _ _ _ _ (BI_first _ _ _ _ Hst Hnd Hkn) Hex) as [HD Hp (cs & ad & Heq & Hc & Hcs)]. simpl in Hcs.
    rewrite has_synced_eq. unfold df_has_synced. rewrite Hp. simpl.
    assert (HNB : NoDup (batch kn l)).
    { unfold batch. apply NoDup_app. split; [done|]. split; [|by apply NoDup_filter].
      intros k Hk Hk'. by apply elem_of_list_filter in Hk' as [? _]. }
    split.
    - intros Hz k Hk. apply Hcs. assert (d_count s = 0) as Hz' by (destruct (Nat.eqb_spec (d_count s) 0); [done|congruence]).
      assert (length (batch kn l) ≤ length cs) as Hle by lia.
      apply (f_equal (take (length cs))) in Heq. rewrite take_app, take_app_ge in Heq by done. rewrite <-Heq.
      apply elem_of_app. by left.
    - intros Hall. assert (length (batch kn l) ≤ length cs) as Hle.
      { apply submseteq_length, NoDup_submseteq; [done|]. intros k Hk. apply Hcs. by apply Hall. }
      assert (d_count s = 0) as -> by lia. done.
  Qed.
  Lemma df_not_synced_before h s : exec dstep dfifo_init h s → (∀ e, e ∈ h → inert e.1) → (dstep s DHasSynced).2 = DBool false.
  Proof. intros Hex Hno. by destruct (inert_exec _ _ Hex Hno) as [b ->]. Qed.

  (** ** C28, C30 *)
  Lemma get_of_pend h s k (ds : option (list delta)) : exec dstep dfifo_init h s →
    (dstep s (DGetByKey k)).2 = DDeltas ds ↔ ds = match pend k s with [] => None | ds => Some ds end.
  Proof. intros HD%DI_exec. rewrite (df_get keyf _ _ HD). naive_solver. Qed.
  Lemma get_pend h s k (ds : option (list delta)) : exec dstep dfifo_init h s → (dstep s (DGetByKey k)).2 = DDeltas ds → pend k s = pending_of ds.
  Proof. intros Hex Hg. apply (get_of_pend _ _ _ _ Hex) in Hg as ->. by destruct (pend k s). Qed.
  Lemma DI_get s k : DI s → (dstep s (DGetByKey k)).2 = DDeltas (match pend k s with [] => None | ds => Some ds end).
  Proof. apply df_get. Qed.

  Lemma keyed_prefix_all l : (∀ o, o ∈ l → is_Some (key_of keyf o)) → keyed_prefix keyf l = l.
  Proof.
    induction l as [|o l IH]; intros Hall; simpl; [done|]. destruct (Hall o ltac:(left)) as [k ->].
    rewrite IH; [done|]. intros o' ?. apply Hall. by right.
  Qed.

  Lemma df_replace_result h s kn l k (p : option (list delta)) : exec dstep dfifo_init h s → (dstep s (DReplace kn l)).2 ≠ DLockWait →
    (∀ o, o ∈ l → is_Some (key_of keyf o)) → NoDup (omap (key_of keyf) l) → NoDup (known_keys kn) →
    (dstep s (DGetByKey k)).2 = DDeltas p →
    let p := pending_of p : list delta in
    (dstep s (DReplace kn l)).2 = DNone ∧
    ∃ q, (dstep (dstep s (DReplace kn l)).1 (DGetByKey k)).2 = DDeltas q ∧
    (** listed: a Sync with the listed object, unless a deletion is pending *)
    (∀ o, o ∈ l → key_of keyf o = Some k → pending_of q = absorb p (DtSync, o)) ∧
    (** not listed: a deletion with the last known object, if there was one *)
    (k ∉ omap (key_of keyf) l → pending_of q = match kn with
       | None => match last p with None => [] | Some d => absorb p (DtDeleted, DTomb k (Some d.2)) end
       | Some kn => if decide (k ∈ kn_keys kn) then absorb p (DtDeleted, DTomb k (lookup_obj (kn_get kn k))) else p
       end).
  Proof.
    intros Hex Hlw Hall Hnd Hkn Hp pp. pose proof (get_pend _ _ _ _ Hex Hp) as Hpp. fold pp in Hpp.
    assert (HD' := DI_step s (DReplace kn l) (DI_exec keyf _ _ Hex)).
    assert (HDN : (dstep s (DReplace kn l)).2 = DNone).
    { pose proof (DI_exec keyf _ _ Hex) as HD. unfold DeltaFifo_model.dstep, dcall in *. destruct (d_busy s) as [[??]|] eqn:Hb; [done|]. simpl in *.
      unfold df_replace. destruct (sync_all keyf l s false) as [[s1 n1] err] eqn:Hs.
      destruct (sync_all_spec keyf _ _ _ _ _ _ HD Hb Hs) as (_ & _ & _ & He & _). rewrite keyed_prefix_all in He by done.
      destruct err; [discriminate (proj2 He eq_refl)|]. by destruct (delete_all _ _ _). }
    split; [done|]. eexists. split; [apply (DI_get _ _ HD')|].
    assert (Hpo : ∀ p : list delta, pending_of (match p with [] => None | d :: l => Some (d :: l) end) = p) by (by intros []).
    rewrite Hpo, (df_change keyf _ _ (DReplace kn l) k Hex eq_refl Hlw), Hpp. simpl.
    rewrite keyed_prefix_all by done. rewrite foldl_app. split.
    - intros o Ho Hk. rewrite decide_False.
      2: { intros [_ Hn]. apply Hn. apply elem_of_list_omap. eauto. }
      simpl. assert (filter (has_key keyf k) l = [o]) as ->; [|done].
      clear -Ho Hk Hnd Hall. induction l as [|o' l IH]; [by apply elem_of_nil in Ho|].
      destruct (Hall o' ltac:(left)) as [k' Hk']. csimpl in Hnd. rewrite Hk' in Hnd. apply NoDup_cons in Hnd as [Hni Hnd].
      rewrite (filter_has_key_cons keyf k o' k' _ Hk'). apply elem_of_cons in Ho as [<-|Ho].
      + assert (k = k') as <- by congruence. rewrite decide_True by done. simpl. f_equal.
        destruct (filter _ l) as [|x fl] eqn:Hf; [done|]. exfalso. apply Hni.
        assert (x ∈ filter (has_key keyf k) l) as Hin by (rewrite Hf; left). apply elem_of_list_filter in Hin as [? ?].
        apply elem_of_list_omap. by exists x.
      + rewrite decide_False; [apply IH; try done; intros x ?; apply Hall; by right|]. intros <-. apply Hni. apply elem_of_list_omap. eauto.
    - intros Hni. replace (filter (has_key keyf k) l) with (@nil (dobj K O)).
      2: { symmetry. destruct (filter _ l) as [|x fl] eqn:Hf; [done|]. exfalso. apply Hni.
        assert (x ∈ filter (has_key keyf k) l) as Hin by (rewrite Hf; left). apply elem_of_list_filter in Hin as [? ?].
        apply elem_of_list_omap. by exists x. }
      simpl. rewrite decide_True by done. destruct kn as [kn|].
      + simpl in Hkn. assert (filter (.= k) (kn_keys kn) = if decide (k ∈ kn_keys kn) then [k] else []) as ->.
        { clear -Hkn. induction (kn_keys kn) as [|j ks IH]; [by case_decide as Hx; [apply elem_of_nil in Hx|]|].
          apply NoDup_cons in Hkn as [Hn Hkn]. specialize (IH Hkn). rewrite filter_cons. destruct (decide (j = k)) as [->|].
          - rewrite IH. rewrite decide_False by done. rewrite decide_True; [done|left].
          - rewrite IH. destruct (decide (k ∈ ks)); [rewrite decide_True; [done|by right]|]. rewrite decide_False; [done|].
            intros [?|?]%elem_of_cons; by subst. }
        by case_decide.
      + destruct (last pp) as [d|] eqn:Hl; [done|]. by apply last_None in Hl.
  Qed.

  Lemma df_resync_result h s kn k (p : option (list delta)) : exec dstep dfifo_init h s → (dstep s (DResync (Some kn))).2 ≠ DLockWait →
    NoDup (kn_keys kn) → (∀ k o, k ∈ kn_keys kn → kn_get kn k = LFound o → key_of keyf o = Some k) →
    (dstep s (DGetByKey k)).2 = DDeltas p →
    (dstep (dstep s (DResync (Some kn))).1 (DGetByKey k)).2 = DDeltas (match p with
      | Some ds => Some ds
      | None => if decide (k ∈ kn_keys kn)
                then match kn_get kn k with LFound o => Some [(DtSync, o)] | _ => None end else None
      end).
  Proof.
    intros Hex Hlw Hnd Hcons Hp. pose proof (get_pend _ _ _ _ Hex Hp) as Hpp. pose proof (DI_exec keyf _ _ Hex) as HD.
    rewrite (DI_get _ _ (DI_step s (DResync (Some kn)) HD)).
    rewrite (df_change keyf _ _ (DResync (Some kn)) k Hex eq_refl Hlw). f_equal. rewrite (DI_get _ _ HD) in Hp. simpl.
    destruct (pend k s) as [|d0 ds0] eqn:Hpd; simplify_eq; simpl; [|done].
    unfold found_objs. rewrite keyed_prefix_all.
    2: { intros o (j & Hj & Ho)%elem_of_list_omap. destruct (kn_get kn j) eqn:Hg; simplify_eq/=. rewrite (Hcons j o Hj Hg). done. }
    assert (Hf : filter (has_key keyf k) (omap (λ k, lookup_obj (kn_get kn k)) (kn_keys kn)) =
      if decide (k ∈ kn_keys kn) then match kn_get kn k with LFound o => [o] | _ => [] end else []).
    { clear -Hnd Hcons. induction (kn_keys kn) as [|j ks IH]; [by case_decide as Hx; [apply elem_of_nil in Hx|]|].
      apply NoDup_cons in Hnd as [Hn Hnd]. specialize (IH Hnd ltac:(intros; eapply Hcons; [by right|done])). csimpl.
      destruct (decide (k = j)) as [->|Hne].
      - rewrite decide_False in IH by done. rewrite (decide_True (P:=j ∈ j :: ks)) by left.
        destruct (kn_get kn j) as [o| |] eqn:Hg; simpl; [|done|done].
        rewrite (filter_has_key_cons keyf j o j); [|eapply Hcons; [left|done]]. rewrite decide_True by done. by rewrite IH.
      - assert (Hd : (if decide (k ∈ j :: ks) then match kn_get kn k with LFound o => [o] | _ => [] end else []) =
          if decide (k ∈ ks) then match kn_get kn k with LFound o => [o] | _ => [] end else []).
        { destruct (decide (k ∈ ks)) as [?|?]; [rewrite decide_True; [done|by right]|]. rewrite decide_False; [done|]. by intros [?|?]%elem_of_cons. }
        rewrite Hd. destruct (kn_get kn j) as [o| |] eqn:Hg; simpl; [|done|done].
        rewrite (filter_has_key_cons keyf k o j); [|eapply Hcons; [left|done]]. by rewrite decide_False. }
    rewrite Hf. case_decide; [|done]. by destruct (kn_get kn k).
  Qed.

  (** ** C31 *)
  Lemma df_outcome h s out ds k : exec dstep dfifo_init h s → (dstep s DPop).2 = DPopped ds → deltas_key ds = Some k →
    let s1 := (dstep s DPop).1 in let s2 := (dstep s1 (DFinish out)).1 in
    (dstep s1 (DGetByKey k)).2 = DDeltas None ∧
    (dstep s1 (DFinish out)).2 = match out with
      | DOk | DRequeue false => DItem ds | DRequeue true | DFail => DProcessError ds | DCancel => DCancelled end ∧
    (dstep s2 (DGetByKey k)).2 = DDeltas (match out with DRequeue _ => Some ds | _ => None end) ∧
    (∀ j, j ≠ k → (dstep s2 (DGetByKey j)).2 = (dstep s (DGetByKey j)).2).
  Proof.
    intros HD%DI_exec Hp Hk s1 s2. assert (Hb : d_busy s = None).
    { unfold DeltaFifo_model.dstep, dcall in Hp. by destruct (d_busy s) as [[??]|]. }
    assert (Hs1 : ∃ rest, d_items s = (k, ds) :: rest ∧ s1 = DFIFO rest (dkeys rest) (d_populated s) (pred (d_count s)) (d_closed s) (Some (k, ds))).
    { unfold s1. unfold DeltaFifo_model.dstep, dcall in *. rewrite Hb in *. simpl in *. rewrite (pop_spec keyf _ HD) in *.
      destruct (d_items s) as [|[k' ds'] rest] eqn:Hit; simpl in *; [by destruct (d_closed s)|]. simplify_eq.
      destruct (DI_pop keyf _ _ _ _ HD Hit true 0 true) as (_ & _ & _ & Hk'). assert (k' = k) as -> by congruence. eauto. }
    destruct Hs1 as (rest & Hit & Hs1).
    destruct (DI_pop keyf _ _ _ _ HD Hit (d_populated s) (pred (d_count s)) (d_closed s)) as (HD1 & Hp1 & Hpk & _). rewrite <-Hs1 in HD1, Hp1.
    pose proof (deltas_key_nonempty keyf _ _ Hk) as Hne.
    set (s3 := DFIFO rest (dkeys rest) (d_populated s) (pred (d_count s)) (d_closed s) None).
    assert (HD3 : DI s3) by (rewrite Hs1 in HD1; destruct HD1; by split).
    assert (Hp3 : ∀ j, pend j s3 = pend j s1) by (intros j; by rewrite Hs1).
    assert (HD2 : DI s2) by (apply DI_step; done).
    assert (Hnp : ∀ r, dstep s1 (DFinish out) = (s3, r) → (dstep s2 (DGetByKey k)).2 = DDeltas None ∧
      (∀ j, j ≠ k → (dstep s2 (DGetByKey j)).2 = (dstep s (DGetByKey j)).2)).
    { intros r Heq. assert (s2 = s3) as -> by (unfold s2; by rewrite Heq). split.
      - rewrite (DI_get _ _ HD3), Hp3, Hp1. by rewrite decide_True.
      - intros j Hj. rewrite (DI_get _ _ HD3), (DI_get _ _ HD), Hp3, Hp1. by rewrite decide_False. }
    split; [rewrite (DI_get _ _ HD1), Hp1; by rewrite decide_True|].
    destruct (put_if_absent k ds s3) as [s4 n4] eqn:Hput.
    assert (Hfin : dstep s1 (DFinish out) = match out with
      | DOk => (s3, DItem ds) | DRequeue cause => (s4, if cause then DProcessError ds else DItem ds)
      | DFail => (s3, DProcessError ds) | DCancel => (s3, DCancelled) end).
    { rewrite Hs1. destruct out as [|cause| |]; try done. unfold DeltaFifo_model.dstep, dcall, dcall_free, df_finish.
      cbn [d_busy needs_lock d_items d_queue d_populated d_count d_closed]. fold s3. by rewrite Hput. }
    destruct out as [|cause| |].
    - split; [by rewrite Hfin|]. by eapply Hnp.
    - 
      destruct (put_spec keyf _ _ s3 _ _ HD3 eq_refl Hk Hput) as (HD4 & _ & _ & _ & _ & Hp4 & _).
      split; [rewrite Hfin; by destruct cause|]. assert (s2 = s4) as -> by (unfold s2; rewrite Hfin; by destruct cause). split.
      + rewrite (DI_get _ _ HD4), Hp4, Hp3, Hp1. rewrite !(decide_True (P:=k=k)) by done. rewrite decide_True by done. by destruct ds.
      + intros j Hj. rewrite (DI_get _ _ HD4), (DI_get _ _ HD), Hp4, Hp3, Hp1. rewrite !(decide_False (P:=j=k)) by done.
        rewrite decide_False; [done|]. tauto.
    - split; [by rewrite Hfin|]. by eapply Hnp.
    - split; [by rewrite Hfin|]. by eapply Hnp.
  Qed.

  Lemma df_put_back h s ds k (p : option (list delta)) : exec dstep dfifo_init h s → deltas_key ds = Some k →
    (dstep s (DAddIfNotPresent ds)).2 ≠ DLockWait → (dstep s (DGetByKey k)).2 = DDeltas p →
    let s' := (dstep s (DAddIfNotPresent ds)).1 in
    (dstep s' (DGetByKey k)).2 = DDeltas (match p with Some newer => Some newer | None => Some ds end) ∧
    (∀ j, j ≠ k → (dstep s' (DGetByKey j)).2 = (dstep s (DGetByKey j)).2).
  Proof.
    intros HD%DI_exec Hk Hlw Hp s'. pose proof (DI_step s (DAddIfNotPresent ds) HD) as HD'. fold s' in HD'.
    rewrite (DI_get _ _ HD) in Hp. rewrite (DI_get _ _ HD').
    assert (∃ n, put_if_absent k ds s = (s', n) ∧ d_busy s = None) as (n & Hput & Hb).
    { unfold s'. unfold DeltaFifo_model.dstep, dcall in *. destruct (d_busy s) as [[??]|]; [done|]. simpl.
      unfold df_add_if_not_present. unfold DeltaFifo_spec.deltas_key in Hk. destruct (last ds) as [d|]; [|done]. simpl in Hk. rewrite Hk.
      destruct (put_if_absent k ds s) as [s4 n4]. by exists n4. }
    destruct (put_spec keyf _ _ s _ _ HD Hb Hk Hput) as (_ & _ & _ & _ & _ & Hp4 & _). rewrite Hp4.
    pose proof (deltas_key_nonempty keyf _ _ Hk) as Hne. split.
    - destruct (pend k s) as [|d0 ds0]; simplify_eq.
      + rewrite decide_True by done. by destruct ds.
      + rewrite decide_False; [done|]. by intros [_ ?].
    - intros j Hj. rewrite (DI_get _ _ HD'), (DI_get _ _ HD), Hp4. rewrite decide_False; [done|]. tauto.
  Qed.

  (** ** C23 *)
  Lemma closed_step s c s' r : dstep s c = (s', r) →
    d_closed s' = match c, r with DClose, DNone => true | _, _ => d_closed s end.
  Proof.
    intros Hst. unfold DeltaFifo_model.dstep, dcall in Hst.
    assert (Hqa : ∀ t k o s, d_closed (queue_action t k o s).1 = d_closed s).
    { intros t k o s1. unfold queue_action. destruct (_ && _); [done|]. by destruct (dedup_deltas _). }
    assert (Hput : ∀ k ds s, d_closed (put_if_absent k ds s).1 = d_closed s).
    { intros k ds s1. unfold put_if_absent. by case_decide. }
    assert (Hcl : ∀ s c, c ≠ DClose → d_closed (dcall_free keyf s c).1.1 = d_closed s).
    { clear s c s' r Hst. intros s c Hne. destruct c as [o|o|kn o| | |o|k|kn l|kn| |out|ds| | |]; try done; simpl.
      - unfold df_add. destruct (key_of keyf o) as [k|]; [|done]. specialize (Hqa DtAdded k o (set_populated s)). by destruct (queue_action _ _ _ _).
      - unfold df_add. destruct (key_of keyf o) as [k|]; [|done]. specialize (Hqa DtUpdated k o (set_populated s)). by destruct (queue_action _ _ _ _).
      - unfold df_delete. destruct (key_of keyf o) as [k|]; [|done]. match goal with |- context [if ?b then _ else _] => destruct b end; [done|].
        specialize (Hqa DtDeleted k o (set_populated s)). by destruct (queue_action _ _ _ _).
      - destruct (key_of keyf o); first [done|simpl in *; by simplify_eq].
      - unfold df_replace. assert (Hsa : ∀ l s n, d_closed (sync_all keyf l s n).1.1 = d_closed s).
        { clear l s Hne. induction l as [|o l IH]; intros s n; simpl; [done|]. destruct (key_of keyf o) as [k|]; [|done].
          specialize (Hqa DtSync k o s). destruct (queue_action _ _ _ _). simpl in Hqa. by rewrite IH. }
        assert (Hda : ∀ l s n, d_closed (delete_all l s n).1 = d_closed s).
        { clear l s Hne Hsa. induction l as [|[k o] l IH]; intros s n; simpl; [done|].
          specialize (Hqa DtDeleted k (DTomb k o) s). destruct (queue_action _ _ _ _). simpl in Hqa. by rewrite IH. }
        specialize (Hsa l s false). destruct (sync_all keyf l s false) as [[s1 n1] [o|]]; simpl in *; [done|].
        specialize (Hda (deletions kn (omap (key_of keyf) l) s1) s1 n1). destruct (delete_all _ s1 n1) as [s2 n2]. simpl in *.
        unfold set_initial. destruct (d_populated s2); simpl; congruence.
      - unfold df_resync. destruct kn as [kn|]; [|done]. generalize false. revert s. induction (kn_keys kn) as [|k ks IH]; intros s n; simpl; [done|].
        unfold sync_key. destruct (kn_get kn k) as [o| |]; [|apply IH|apply IH]. destruct (key_of keyf o) as [id|]; [|done].
        destruct (dget id (d_items s)) as [[|d ds]|]; [|apply IH|].
        + specialize (Hqa DtSync id o s). destruct (queue_action _ _ _ _). simpl in Hqa. by rewrite IH.
        + specialize (Hqa DtSync id o s). destruct (queue_action _ _ _ _). simpl in Hqa. by rewrite IH.
      - unfold df_pop. by destruct (skip_stale _ _ _) as [[??] [[??]|]].
      - unfold df_finish. destruct (d_busy s) as [[k ds]|]; [|done]. destruct out; try done.
        specialize (Hput k ds (DFIFO (d_items s) (d_queue s) (d_populated s) (d_count s) (d_closed s) None)).
        by destruct (put_if_absent _ _ _).
      - unfold df_add_if_not_present. destruct (last ds) as [d|]; [|done]. destruct (key_of keyf d.2) as [k|]; [|done].
        specialize (Hput k ds s). by destruct (put_if_absent _ _ _). }
    destruct (d_busy s) as [[??]|] eqn:Hb.
    - destruct (needs_lock c) eqn:Hl; simpl in Hst.
      + simplify_eq. by destruct c.
      + assert (c ≠ DClose) as Hne by (by destruct c). specialize (Hcl s c Hne). destruct (dcall_free keyf s c) as [[??]?]. simpl in *. simplify_eq.
        rewrite Hcl. by destruct c.
    - assert (c = DClose ∨ c ≠ DClose) as [->|Hne] by (destruct c; solve [by left|right; discriminate]); [by simpl in Hst; simplify_eq|].
      specialize (Hcl s c Hne). destruct (dcall_free keyf s c) as [[??]?]. simpl in *. simplify_eq.
      rewrite Hcl. by destruct c.
  Qed.
  Lemma closed_exec s h s' : exec dstep s h s' → d_closed s' = true ↔ d_closed s = true ∨ (DClose, DNone) ∈ h.
  Proof.
    induction 1 as [s|s c r s1 h s2 Hst Hex IH].
    - split; [by left|]. intros [?|Hx]; [done|]. by apply elem_of_nil in Hx.
    - rewrite IH. pose proof (closed_step _ _ _ _ Hst) as Hc. split.
      + intros [Hx|Hx]; [|right; by right]. rewrite Hc in Hx. destruct c; auto. destruct r; auto. right. left.
      + intros [Hx|[Hx|Hx]%elem_of_cons]; [|simplify_eq; by left|by right]. left. rewrite Hc. destruct c; auto. by destruct r.
  Qed.
  Lemma df_closed_pop h s : exec dstep dfifo_init h s → (DClose, DNone) ∈ h →
    (dstep s DPop).2 ≠ DBlocked ∧ ((dstep s DPop).2 ≠ DLockWait →
      ((dstep s DPop).2 = DClosedError ↔ (dstep s DListKeys).2 = DKeys [])).
  Proof.
    intros Hex Hcl. assert (d_closed s = true) as Hc by (apply (closed_exec _ _ _ Hex); by right).
    pose proof (DI_exec keyf _ _ Hex) as HD. rewrite list_keys_eq. unfold DeltaFifo_model.dstep, dcall.
    destruct (d_busy s) as [[??]|]; simpl; [done|]. rewrite (pop_spec keyf _ HD).
    destruct (d_items s) as [|[k ds] rest]; simpl; [by rewrite Hc|]. done.
  Qed.

  (** ** C25, C26, C27: single calls *)
  Lemma change_result h s c k j : exec dstep dfifo_init h s → changes c = true → (dstep s c).2 ≠ DLockWait →
    (∀ p, j ≠ k → offers keyf j p c = []) →
    (dstep (dstep s c).1 (DGetByKey k)).2 = DDeltas (match foldl absorb (pend k s) (offers keyf k (pend k s) c) with [] => None | ds => Some ds end) ∧
    (j ≠ k → (dstep (dstep s c).1 (DGetByKey j)).2 = (dstep s (DGetByKey j)).2).
  Proof.
    intros Hex Hc Hlw Hno. pose proof (DI_exec keyf _ _ Hex) as HD. pose proof (DI_step s c HD) as HD'.
    rewrite !(DI_get _ _ HD'), (DI_get _ _ HD). rewrite !(df_change keyf _ _ c _ Hex Hc Hlw). split; [done|].
    intros Hj. by rewrite (Hno _ Hj).
  Qed.
  Lemma offers_other_add t o k j : key_of keyf o = Some k → j ≠ k → (if decide (has_key keyf j o) then [(t, o)] else []) = @nil delta.
  Proof. intros Hk Hj. rewrite decide_False; [done|]. unfold has_key. congruence. Qed.
  Lemma absorb_plain p e : is_plain e = true → absorb p e = p ++ [e].
  Proof. intros He. unfold absorb. destruct (last p) as [b|] eqn:Hl; [|by apply last_None in Hl as ->]. destruct e as [[] ?], b as [[] ?]; done. Qed.
  Lemma df_plain_result h s c t o k (p : option (list delta)) : exec dstep dfifo_init h s → changes c = true →
    (∀ j q, offers keyf j q c = if decide (has_key keyf j o) then [(t, o)] else []) → is_plain (t, o) = true →
    (dstep s c).2 ≠ DLockWait → key_of keyf o = Some k → (dstep s (DGetByKey k)).2 = DDeltas p →
    (dstep (dstep s c).1 (DGetByKey k)).2 = DDeltas (Some (pending_of p ++ [(t, o)])) ∧
    ∀ j, j ≠ k → (dstep (dstep s c).1 (DGetByKey j)).2 = (dstep s (DGetByKey j)).2.
  Proof.
    intros Hex Hc Hof Hpl Hlw Hk Hp. pose proof (get_pend _ _ _ _ Hex Hp) as Hpp.
    assert (Hno : ∀ j q, j ≠ k → offers keyf j q c = []) by (intros j q Hj; rewrite Hof; by apply (offers_other_add t o k)).
    split; [|intros j; by apply (change_result h s c k j Hex Hc Hlw (Hno j))].
    rewrite (proj1 (change_result h s c k k Hex Hc Hlw (Hno k))). rewrite Hof, decide_True by done. simpl.
    rewrite absorb_plain by done. rewrite Hpp. by destruct (pending_of p).
  Qed.
  Lemma df_add_result h s o k (p : option (list delta)) : exec dstep dfifo_init h s →
    (dstep s (DAdd o)).2 ≠ DLockWait → key_of keyf o = Some k → (dstep s (DGetByKey k)).2 = DDeltas p →
    (dstep (dstep s (DAdd o)).1 (DGetByKey k)).2 = DDeltas (Some (pending_of p ++ [(DtAdded, o)])) ∧
    ∀ j, j ≠ k → (dstep (dstep s (DAdd o)).1 (DGetByKey j)).2 = (dstep s (DGetByKey j)).2.
  Proof. intros Hex. by eapply (df_plain_result h s (DAdd o)). Qed.
  Lemma df_update_result h s o k (p : option (list delta)) : exec dstep dfifo_init h s →
    (dstep s (DUpdate o)).2 ≠ DLockWait → key_of keyf o = Some k → (dstep s (DGetByKey k)).2 = DDeltas p →
    (dstep (dstep s (DUpdate o)).1 (DGetByKey k)).2 = DDeltas (Some (pending_of p ++ [(DtUpdated, o)])) ∧
    ∀ j, j ≠ k → (dstep (dstep s (DUpdate o)).1 (DGetByKey j)).2 = (dstep s (DGetByKey j)).2.
  Proof. intros Hex. by eapply (df_plain_result h s (DUpdate o)). Qed.
  Lemma df_delete_result h s kn o k (p : option (list delta)) : exec dstep dfifo_init h s →
    (dstep s (DDelete kn o)).2 ≠ DLockWait → key_of keyf o = Some k → (dstep s (DGetByKey k)).2 = DDeltas p →
    (dstep (dstep s (DDelete kn o)).1 (DGetByKey k)).2 = DDeltas (
      match p with
      | None => if decide (known_to kn k) then Some [(DtDeleted, o)] else None
      | Some ds => match last ds with
                   | Some (DtDeleted, DTomb j x) => Some (removelast ds ++ [(DtDeleted, o)])
                   | Some (DtDeleted, DObj x) => Some ds
                   | _ => Some (ds ++ [(DtDeleted, o)])
                   end
      end) ∧
    ∀ j, j ≠ k → (dstep (dstep s (DDelete kn o)).1 (DGetByKey j)).2 = (dstep s (DGetByKey j)).2.
  Proof.
    intros Hex Hlw Hk Hp. pose proof (DI_exec keyf _ _ Hex) as HD.
    assert (Hno : ∀ j q, j ≠ k → offers keyf j q (DDelete kn o) = []).
    { intros j q Hj. simpl. rewrite decide_False; [done|]. intros [Hh _]. unfold has_key in Hh. congruence. }
    split; [|intros j; by apply (change_result h s (DDelete kn o) k j Hex eq_refl Hlw (Hno j))].
    rewrite (proj1 (change_result h s (DDelete kn o) k k Hex eq_refl Hlw (Hno k))). f_equal. rewrite (DI_get _ _ HD) in Hp. unfold offers.
    destruct (pend k s) as [|d0 ds0] eqn:Hpd; simplify_eq.
    - destruct (decide (known_to kn k)).
      + rewrite decide_True; [done|]. split; [done|by right].
      + rewrite decide_False; [done|]. intros [_ [?|?]]; done.
    - rewrite decide_True by (split; [done|by left]). cbn [foldl]. set (ds := d0 :: ds0). assert (ds ≠ []) as Hne by done.
      clearbody ds. clear -Hne. destruct (last ds) as [[t x]|] eqn:Hl; [|by apply last_None in Hl].
      unfold absorb. rewrite Hl. apply last_Some in Hl as [l ->]. rewrite removelast_last.
      destruct t; simpl; [by destruct l|by destruct l| |by destruct l]. destruct x; simpl; by destruct l.
  Qed.
  Lemma df_keys_pending h s k ks : exec dstep dfifo_init h s →
    (dstep s DListKeys).2 = DKeys ks → k ∈ ks ↔ (dstep s (DGetByKey k)).2 ≠ DDeltas None.
  Proof.
    intros HD%DI_exec. rewrite list_keys_eq, (DI_get _ _ HD). intros; simplify_eq. rewrite (pend_dkeys keyf _ _ HD).
    destruct (pend k s); naive_solver.
  Qed.
  Lemma df_synced_stays h s c : exec dstep dfifo_init h s →
    (dstep s DHasSynced).2 = DBool true → (dstep (dstep s c).1 DHasSynced).2 = DBool true.
  Proof.
    intros HD%DI_exec. rewrite !has_synced_eq. unfold df_has_synced. destruct (d_populated s) eqn:Hp; [|done].
    destruct (step_count s c _ _ HD Hp (surjective_pairing _)) as [-> Hc]. simpl.
    destruct (Nat.eqb_spec (d_count s) 0) as [H0|]; [|done]. intros _. rewrite Hc, H0. by destruct (dstep s c).2.
  Qed.
End proofs.
