From Verif Require Import Base DeltaFifo_model DeltaFifo_spec DeltaFifo_proofs DeltaFifo_proofs2 DeltaFifoSched_model.

Section proofs.
  Context {K O T : Type} `{EqDecision K} (keyf : O → option K).
  Implicit Types (z : zsys K O T) (s : dfifo K O).
  Notation DI := (DI keyf).

  Definition dquiet s : Prop := d_queue s = [] ∧ d_closed s = false.

  Lemma DI_call s c s' r n : DI s → dcall keyf s c = (s', r, n) → DI s'.
  Proof. intros HD Hc. pose proof (DI_step keyf s c HD) as Hx. unfold dstep in Hx. by rewrite Hc in Hx. Qed.

  (** busy after the call exactly if the callback was just called, or was
      running and did not end *)
  Lemma busy_call s c s' r n : DI s → dcall keyf s c = (s', r, n) →
    (is_Some (d_busy s') ↔ match r with DPopped _ => True | _ => is_Some (d_busy s) ∧ starts c = true end) ∧
    (d_busy s = None → starts c = true → r ≠ DLockWait).
  Proof.
    intros HD Hc. unfold dcall in Hc. destruct (d_busy s) as [[k0 ds0]|] eqn:Hb.
    - assert (Hso : is_Some (Some (k0, ds0))) by eauto. split; [|done].
      destruct (needs_lock c) eqn:Hl; [simplify_eq; rewrite Hb; by destruct c|].
      destruct c as [o|o|kn o| | |o|k|kn l|kn| |out|ds| | |]; try done; simpl in Hc; simplify_eq; try (rewrite Hb; by split).
      + destruct (key_of keyf o); simplify_eq; by rewrite Hb.
      + unfold df_finish in Hc. rewrite Hb in Hc. assert (Hno : ∀ x : option (K * list (delta K O)), x = None → is_Some x ↔ is_Some (Some (k0, ds0)) ∧ false = true) by (intros x ->; split; [by intros [? ?]|by intros [_ ?]]).
        destruct out as [|cause| |]; simplify_eq; try (by apply Hno).
        destruct (put_if_absent k0 ds0 _) as [s2 n2] eqn:Hput. simplify_eq. destruct (di_busy _ _ HD _ _ Hb) as [Hk0 Hni].
        apply (put_spec keyf) in Hput as (_ & Hb2 & _); [|destruct HD; by split|done|done].
        destruct cause; by apply Hno.
    - assert (Hno : ∀ x : option (K * list (delta K O)), x = None → is_Some x ↔ is_Some (@None (K * list (delta K O))) ∧ starts c = true)
        by (intros x ->; split; [by intros [? ?]|by intros [[? ?] ?]]).
      destruct (changes c) eqn:Hch.
      + destruct (change_call keyf _ _ _ _ _ HD Hb Hch Hc) as (_ & Hb' & _ & _ & _ & _ & [->|[o ->]]); (split; [by apply Hno|done]).
      + destruct c as [o|o|kn o| | |o|k|kn l|kn| |out|ds| | |]; try done; simpl in Hc; simplify_eq; try (split; [by apply Hno|done]).
        * destruct (key_of keyf o); simplify_eq; (split; [by apply Hno|done]).
        * rewrite (pop_spec keyf _ HD) in Hc. destruct (d_items s) as [|[k ds] rest]; simplify_eq; simpl.
          -- destruct (d_closed s); (split; [by apply Hno|done]).
          -- split; [|done]. split; eauto.
        * unfold df_finish in Hc. rewrite Hb in Hc. simplify_eq. split; [by apply Hno|done].
        * unfold df_add_if_not_present in Hc. destruct (last ds) as [d|] eqn:Hl; simplify_eq; [|split; [by apply Hno|done]].
          destruct (key_of keyf d.2) as [k|] eqn:Hk; simplify_eq; [|split; [by apply Hno|done]].
          destruct (put_if_absent k ds s) as [s2 n2] eqn:Hput. simplify_eq.
          apply (put_spec keyf) in Hput as (_ & Hb2 & _); [|done|done|unfold deltas_key; by rewrite Hl]. split; [by apply Hno|done].
  Qed.

  (** a call that does not notify leaves a quiet queue quiet; one that suspends
      leaves it quiet *)
  Lemma dquiet_call s c s' r n : DI s → dcall keyf s c = (s', r, n) →
    (r = DBlocked → dquiet s' ∧ n = false) ∧ (dquiet s → n = false → dquiet s').
  Proof.
    intros HD Hc. unfold dquiet. unfold dcall in Hc. destruct (d_busy s) as [[k0 ds0]|] eqn:Hb.
    - destruct (needs_lock c) eqn:Hl; [by simplify_eq|].
      destruct c as [o|o|kn o| | |o|k|kn l|kn| |out|ds| | |]; try done; simpl in Hc; simplify_eq; try done.
      + destruct (key_of keyf o); by simplify_eq.
      + unfold df_finish in Hc. rewrite Hb in Hc. destruct out as [|cause| |]; simplify_eq; try done.
        destruct (put_if_absent k0 ds0 _) as [s2 n2] eqn:Hput. simplify_eq. destruct (di_busy _ _ HD _ _ Hb) as [Hk0 Hni].
        apply (put_spec keyf) in Hput as (_ & _ & Hcl & _ & _ & _ & _ & Hn); [|destruct HD; by split|done|done]. simpl in *.
        split; [by destruct cause|]. intros [? ?] Hf. rewrite (Hn Hf). split; congruence.
    - destruct (changes c) eqn:Hch.
      + destruct (change_call keyf _ _ _ _ _ HD Hb Hch Hc) as (_ & _ & Hcl & _ & _ & Hn & Hr).
        split; [by destruct Hr as [->|[? ->]]|]. intros [? ?] Hf. rewrite (Hn Hf). split; congruence.
      + destruct c as [o|o|kn o| | |o|k|kn l|kn| |out|ds| | |]; try done; simpl in Hc; simplify_eq; try done.
        * destruct (key_of keyf o); by simplify_eq.
        * pose proof (di_queue _ _ HD) as Hq. rewrite (pop_spec keyf _ HD) in Hc. destruct (d_items s) as [|[k ds] rest]; simplify_eq; simpl.
          -- split; [by destruct (d_closed s)|]. by intros [_ ?].
          -- split; [done|]. intros [Hx _]. by rewrite Hx in Hq.
        * unfold df_finish in Hc. rewrite Hb in Hc. by simplify_eq.
        * unfold df_add_if_not_present in Hc. destruct (last ds) as [d|] eqn:Hl; simplify_eq; [|done].
          destruct (key_of keyf d.2) as [k|] eqn:Hk; simplify_eq; [|done].
          destruct (put_if_absent k ds s) as [s2 n2] eqn:Hput. simplify_eq.
          apply (put_spec keyf) in Hput as (_ & _ & Hcl & _ & _ & _ & _ & Hn); [|done|done|unfold deltas_key; by rewrite Hl].
          split; [done|]. intros [? ?] Hf. rewrite (Hn Hf). split; congruence.
  Qed.

  Record ZI z : Prop := {
    zi_di : DI (z_q z);
    zi_wait : z_waiting z ≠ [] → dquiet (z_q z);
    zi_lock : is_Some (z_holder z) ↔ is_Some (d_busy (z_q z));
    zi_ready : ∀ t c, (t, c) ∈ z_ready z → starts c = true
  }.
  Lemma ZI_init : ZI zsys_init.
  Proof. split; simpl; [apply DI_init|done|split; by intros [? ?]|]. intros t c Hin. by apply elem_of_nil in Hin. Qed.

  Lemma ZI_turn t c s s' r n waiting ready holder : DI s → dcall keyf s c = (s', r, n) →
    (waiting ≠ [] → dquiet s) → (is_Some holder ↔ is_Some (d_busy s) ∧ starts c = true) →
    (∀ t c, (t, c) ∈ ready → starts c = true) → ZI (zturn t s' r n waiting ready holder).
  Proof.
    intros HD Hc Hw Hh Hr. pose proof (DI_call _ _ _ _ _ HD Hc) as HD'.
    destruct (dquiet_call _ _ _ _ _ HD Hc) as [Hbl Hq]. destruct (busy_call _ _ _ _ _ HD Hc) as [Hbusy _].
    assert (Hr' : ∀ t c, (t, c) ∈ (if n then ready ++ ((λ t : T, (t, DPop)) <$> waiting) else ready) → starts c = true).
    { intros t' c' Hin. destruct n; [|eauto]. apply elem_of_app in Hin as [?|Hin]; [eauto|].
      apply elem_of_list_fmap in Hin as (x & ? & _). by simplify_eq. }
    assert (Hw' : (if n then [] else waiting) ≠ [] → dquiet s').
    { destruct n; [done|]. intros ?. apply Hq; [by apply Hw|done]. }
    unfold zturn. destruct r; (split; [done| | |exact Hr']); simpl;
      try exact Hw'; try (rewrite Hbusy; done).
    all: try (rewrite Hbusy; split; by eauto).
    intros _. by apply Hbl.
  Qed.
  Lemma ZI_step z l z' : ZI z → ztrans keyf z l z' → ZI z'.
  Proof.
    intros [HD Hw Hl Hr] Ht. inversion Ht as [? t c s' r n Hs Hc Hne|? t c Hs Hn|? t c r1 r2 s' r n Hrd Hh Hc|? t out s' r n Hh Hc|? t w1 w2 Hwt|? t c r1 r2 Hrd]; subst.
    - eapply ZI_turn; try done. rewrite Hl, Hs. tauto.
    - split; try done. simpl. intros t' c' [?|Hin]%elem_of_app; [by eapply Hr|]. apply elem_of_list_singleton in Hin. by simplify_eq.
    - eapply ZI_turn; try done.
      + rewrite Hl, (Hr t c); [tauto|]. rewrite Hrd. apply elem_of_app. right. left.
      + intros t' c' Hin. apply (Hr t'). rewrite Hrd. apply elem_of_app in Hin as [?|?]; apply elem_of_app; [by left|right; by right].
    - eapply ZI_turn; try done. simpl. split; [by intros [? ?]|by intros [_ ?]].
    - split; try done. simpl. intros _. apply Hw. rewrite Hwt. by destruct w1.
    - split; try done. simpl. intros t' c' Hin. apply (Hr t'). rewrite Hrd. apply elem_of_app in Hin as [?|?]; apply elem_of_app; [by left|right; by right].
  Qed.
  Lemma ZI_reach ls z : reach (ztrans keyf) zsys_init ls z → ZI z.
  Proof. intros Hr. apply (reach_inv _ ZI) in Hr; [done|intros; by eapply ZI_step|apply ZI_init]. Qed.

  Lemma df_no_stuck_waiter ls z : reach (ztrans keyf) zsys_init ls z → z_waiting z ≠ [] →
    (dstep keyf (z_q z) DListKeys).2 = DKeys [] ∧ (dstep keyf (z_q z) DIsClosed).2 = DBool false.
  Proof.
    intros [HD Hw _ _]%ZI_reach Hne. destruct (Hw Hne) as [Hq Hc]. rewrite list_keys_eq, <-(di_queue _ _ HD), Hq. split; [done|].
    unfold dstep, dcall. by destruct (d_busy (z_q z)) as [[??]|]; simpl; rewrite Hc.
  Qed.

  Lemma zclosed_call s c s' r n : dcall keyf s c = (s', r, n) → d_closed s' = match c, r with DClose, DNone => true | _, _ => d_closed s end.
  Proof. intros Hc. apply (closed_step keyf). unfold dstep. by rewrite Hc. Qed.
  Lemma zturn_q (t : T) s' r n w rd h : z_q (zturn t s' r n w rd h) = s'.
  Proof. by destruct r. Qed.
  Lemma zclosed_reach ls z : reach (ztrans keyf) zsys_init ls z → Exists zcloses ls → d_closed (z_q z) = true.
  Proof.
    intros Hr. induction Hr as [|ls z1 l z2 Hr IH Ht]; [by intros ?%Exists_nil|].
    intros Hx. assert (d_closed (z_q z1) = true ∨ zcloses l) as Hor.
    { apply Exists_app in Hx as [Hx|Hx]; [left; by apply IH|right]. by apply Exists_cons in Hx as [?|?%Exists_nil]. }
    clear Hx IH. inversion Ht as [? t c s' r n Hs Hc Hne|? t c Hs Hn|? t c r1 r2 s' r n Hrd Hh Hc|? t out s' r n Hh Hc|? t w1 w2 Hwt|? t c r1 r2 Hrd]; subst; rewrite ?zturn_q; simpl;
      try (apply zclosed_call in Hc; rewrite Hc).
    all: destruct Hor as [Hor|(t' & [?|?])]; simplify_eq; try done.
    all: destruct c; try done; by destruct r.
  Qed.
  Lemma df_closed_turns ls z l z' : reach (ztrans keyf) zsys_init ls z → Exists zcloses ls → ztrans keyf z l z' →
    z_waiting z = [] ∧ (∀ t c, l ≠ ZCall t c DBlocked) ∧ (∀ t c, l ≠ ZGo t c DBlocked).
  Proof.
    intros Hr Hx Ht. pose proof (zclosed_reach _ _ Hr Hx) as Hcl. pose proof (ZI_reach _ _ Hr) as [HD Hw Hl Hrd]. split.
    - destruct (z_waiting z) as [|w ws]; [done|]. destruct (Hw ltac:(done)) as [_ ?]. congruence.
    - assert (Hno : ∀ c s' n, dcall keyf (z_q z) c ≠ (s', DBlocked, n)).
      { intros c s' n Hc. destruct (dquiet_call _ _ _ _ _ HD Hc) as [Hb _]. destruct (Hb eq_refl) as [[_ Hf] _].
        apply zclosed_call in Hc. rewrite Hc in Hf. destruct c; congruence. }
      split; intros t c ->; inversion Ht; subst; by eapply Hno.
  Qed.

  (** the lock is always released in the end: whoever wants it can have it when
      no callback runs, and a running callback can end in any way *)
  Lemma df_progress ls z : reach (ztrans keyf) zsys_init ls z →
    (z_holder z = None → ∀ t c, (t, c) ∈ z_ready z → ∃ r z', ztrans keyf z (ZGo t c r) z' ∧ r ≠ DLockWait) ∧
    (∀ t, z_holder z = Some t → ∀ out, ∃ ds z', ztrans keyf z (ZFinish t out (match out with
       | DOk | DRequeue false => DItem ds | DRequeue true | DFail => DProcessError ds | DCancel => DCancelled end)) z' ∧
       z_holder z' = None).
  Proof.
    intros [HD Hw Hl Hr]%ZI_reach. split.
    - intros Hh t c Hin. pose proof (Hr _ _ Hin) as Hs. apply elem_of_list_split in Hin as (r1 & r2 & Hrd).
      destruct (dcall keyf (z_q z) c) as [[s' r] n] eqn:Hc. exists r. eexists. split; [by eapply zt_go|].
      destruct (busy_call _ _ _ _ _ HD Hc) as [_ Hn]. apply Hn; [|done].
      destruct (d_busy (z_q z)); [|done]. destruct (proj2 Hl ltac:(eauto)). congruence.
    - intros t Hh out. destruct (d_busy (z_q z)) as [[k ds]|] eqn:Hb; [|destruct (proj1 Hl ltac:(eauto)); congruence].
      exists ds. destruct (dcall keyf (z_q z) (DFinish out)) as [[s' r] n] eqn:Hc.
      assert (r = match out with DOk | DRequeue false => DItem ds | DRequeue true | DFail => DProcessError ds | DCancel => DCancelled end) as Hre.
      { unfold dcall in Hc. rewrite Hb in Hc. simpl in Hc. unfold df_finish in Hc. rewrite Hb in Hc.
        destruct out as [|[]| |]; simplify_eq; try done; destruct (put_if_absent _ _ _); by simplify_eq. }
      eexists. split; [rewrite <-Hre; by eapply zt_finish|]. rewrite Hre. by destruct out as [|[]| |].
  Qed.

  (** while the callback runs, every call that needs the lock waits and changes
      nothing *)
  Lemma df_busy_locked s ds : (dstep keyf s DPop).2 = DPopped ds → ∀ c, needs_lock c = true →
    dstep keyf (dstep keyf s DPop).1 c = ((dstep keyf s DPop).1, DLockWait).
  Proof.
    intros Hp c Hc. unfold dstep at 1. unfold dcall at 1.
    assert (is_Some (d_busy (dstep keyf s DPop).1)) as [[k' ds'] ->].
    { unfold dstep, dcall in *. destruct (d_busy s) as [[??]|]; [done|]. simpl in *. unfold df_pop in *.
      destruct (skip_stale _ _ _) as [[??] [[??]|]]; [simpl; eauto|]. by destruct (d_closed s). }
    by rewrite Hc.
  Qed.
End proofs.
