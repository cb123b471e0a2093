From Verif Require Import Base Listener_model Listener_spec Listener_proofs InformerStop_model InformerStop_spec InformerStop_proofs InformerStop_proofs2
  InformerAgain_model InformerAgain_spec.

Section proofs.
  Context {N : Type}.
  Notation cst := (cst N).
  Notation cstep := (cstep (N:=N)).
  Implicit Types (s : cst) (l : clab N) (ls : list (clab N)).

  (** a listener whose tasks have been cancelled *)
  Definition cancelled (x : bool * lis N) : Prop := x.1 = true ∧ l_pump x.2 = PStopped ∧ l_run x.2 ≠ RNew.
  (** one that was left alone *)
  Definition alone (x : bool * lis N) : Prop := x.1 = true ∧ shape x.2 ∧ l_stop x.2 = false.
  Definition cinv s : Prop :=
    match c_mode s with
    | CNo => inv (c_st s)
    | CUnstarted => i_run (c_st s) = REnd ∧ i_proc (c_st s) = QEnd ∧ Forall (λ x, x.1 = false) (i_lis (c_st s))
    | CLeft => i_run (c_st s) = REnd ∧ i_proc (c_st s) = QEnd ∧ Forall alone (i_lis (c_st s))
    | CGather _ => i_run (c_st s) = RProc ∧ i_proc (c_st s) = QGather ∧ Forall cancelled (i_lis (c_st s))
    | CGathered => i_run (c_st s) = REnd ∧ i_proc (c_st s) = QEnd ∧ Forall cancelled (i_lis (c_st s))
    | CDone => i_run (c_st s) = REnd ∧ i_proc (c_st s) = QEnd ∧ Forall lis_ended (i_lis (c_st s))
    end.
  Lemma lis_step_forall (P : bool * lis N → Prop) j (l : llabel N) xs xs' : (∀ b x x', lstep x l x' → P (b, x) → P (b, x')) →
    lis_step j l xs xs' → Forall P xs → Forall P xs'.
  Proof. intros HP (b & x & x' & Hj & Hs & ->) Hall. apply Forall_insert; [done|]. eapply HP; [done|]. by apply (Forall_lookup_1 _ _ _ _ Hall Hj). Qed.
  Lemma cancelled_step b (x : lis N) (l : llabel N) x' : lstep x l x' → cancelled (b, x) → cancelled (b, x').
  Proof. intros Hs (H1 & H2 & H3). simpl in *. destruct Hs; unfold cancelled; simpl in *; try done; by destruct got, cur. Qed.
  Lemma alone_step b (x : lis N) (l : llabel N) x' : of_tasks l = true → lstep x l x' → alone (b, x) → alone (b, x').
  Proof.
    intros Hl Hs (H1 & H2 & H3). simpl in *. split_and!; [done|by eapply shape_step|]. simpl. destruct Hs; simpl in *; try done. by destruct got, cur.
  Qed.
  Lemma cancel_cancelled x : x.1 = true → cancelled (cancel_lis x).
  Proof. destruct x as [b [a q st p pe nq r]]. simpl. intros ->. unfold cancelled. simpl. split_and!; try done. by destruct r. Qed.
  Lemma cinv_step s l s' : cinv s → cstep s l s' → cinv s'.
  Proof.
    unfold cinv. intros Hi Hs. destruct Hs as [l t Hm Ht|Hm Hr Hp|Hm Hr Hp|Hm Hr Hp|Hm Hr Hp|g Hm|g Hm Hg|m j x n Hm Hj Hx|j l ls' x Hm Hj Hl Hx]; simpl.
    - rewrite Hm in Hi. by eapply inv_step.
    - rewrite Hm in Hi. split_and!; [done|done|]. pose proof (v_made _ Hi) as Hv. unfold listeners_started in Hv. by rewrite Hp in Hv.
    - rewrite Hm in Hi. split_and!; [done|done|]. pose proof (v_made _ Hi) as Hv. pose proof (v_stop _ Hi) as Hst. pose proof (v_shape _ Hi) as Hsh.
      unfold listeners_started in Hv. rewrite Hp in Hv, Hst. apply Forall_lookup. intros j x Hj.
      split_and!; [by apply (Forall_lookup_1 _ _ _ _ Hv Hj)|by apply (Forall_lookup_1 _ _ _ _ Hsh Hj)|by apply (Forall_lookup_1 _ _ _ _ Hst Hj)].
    - rewrite Hm in Hi. split_and!; [done|done|]. pose proof (v_made _ Hi) as Hv. unfold listeners_started in Hv. rewrite Hp in Hv.
      apply Forall_fmap. eapply Forall_impl; [exact Hv|]. intros x Hx. by apply cancel_cancelled.
    - rewrite Hm in Hi. split_and!; [done|done|]. by apply (v_over _ Hi).
    - done.
    - rewrite Hm in Hi. destruct Hi as (_ & _ & ?). done.
    - assert (Hc : Forall cancelled (i_lis (c_st s))) by (destruct Hm as [[Hm ->]|[[g Hm] ->]]; rewrite Hm in Hi; apply Hi).
      assert (Hc' : Forall cancelled (<[j:=(true, Lis (l_adder x) (l_addq x) (l_stop x) (l_pump x) (l_pend x) (l_nextq x) RStopped)]> (i_lis (c_st s)))).
      { apply Forall_insert; [done|]. destruct (Forall_lookup_1 _ _ _ _ Hc Hj) as (? & ? & ?). split_and!; done. }
      destruct Hm as [[Hm ->]|[[g Hm] ->]]; rewrite Hm in Hi; destruct Hi as (? & ? & _); split_and!; done.
    - destruct (c_mode s) eqn:Em; [done|..]; destruct Hi as (H1 & H2 & H3); split_and!; try done.
      + by eapply lis_step_made.
      + eapply lis_step_forall; [|done|exact H3]. intros b y y' Hy. by eapply alone_step.
      + eapply lis_step_forall; [|done|exact H3]. intros b y y' Hy. by eapply cancelled_step.
      + eapply lis_step_forall; [|done|exact H3]. intros b y y' Hy. by eapply cancelled_step.
      + by eapply lis_step_over.
  Qed.
  Lemma cinv_reach ls s : reach cstep cs_init ls s → cinv s.
  Proof. apply (reach_inv cstep cinv); [apply cinv_step|apply inv_init]. Qed.
  (** what holds before the second cancellation is what InformerStop has *)
  Lemma base_reach ls s : reach cstep cs_init ls s → c_mode s = CNo → ∃ bs : list (ilab N), reach istep is_init bs (c_st s).
  Proof.
    intros Hr. induction Hr as [|ls s l s' Hr IH Hs]; [intros _; exists []; apply reach_nil|]. intros Hm.
    destruct Hs as [l t Hm' Ht|Hm' ? ?|Hm' ? ?|Hm' ? ?|Hm' ? ?|g Hm'|g Hm' Hg|m j x n Hm' Hj Hx|j l ls' x Hm' Hj Hl Hx]; simpl in Hm; try done.
    - destruct (IH Hm') as [ls' Hr']. exists (ls' ++ [l]). by eapply reach_snoc.
    - congruence.
    - destruct Hm' as [[_ ->]|[_ ->]]; done.
  Qed.

  (** ** cancelled while the processor gathers *)
  Definition run_weight (r : runner N) : nat := match r with RHandling _ => 4 | RSleep => 3 | RWait => 2 | RFetched _ => 1 | _ => 0 end.
  Definition cweight s : nat := sum_list_with (λ x : bool * lis N, run_weight (l_run x.2)) (i_lis (c_st s)) + match c_mode s with CGather _ => 1 | _ => 0 end.
  Lemma sum_insert (f : bool * lis N → nat) xs (j : nat) x y : xs !! j = Some x → sum_list_with f (<[j:=y]> xs) + f x = sum_list_with f xs + f y.
  Proof. revert j. induction xs as [|z xs IH]; intros [|j] H; simplify_eq/=; [lia|]. specialize (IH _ H). lia. Qed.
  Definition gathered s : Prop := (∃ g, c_mode s = CGather g) ∨ c_mode s = CGathered.
  Lemma gathered_cancelled s : cinv s → gathered s → Forall cancelled (i_lis (c_st s)).
  Proof. unfold cinv. intros Hi [[g Hg]|Hg]; rewrite Hg in Hi; apply Hi. Qed.
  Lemma gathered_step s l s' : gathered s → cstep s l s' → gathered s'.
  Proof.
    unfold gathered. intros Hg Hs. destruct Hs as [l t Hm Ht|Hm ? ?|Hm ? ?|Hm ? ?|Hm ? ?|g Hm|g Hm ?|m j x n Hm Hj Hx|j l ls' x Hm Hj Hl Hx]; simpl; eauto;
      try (destruct Hg as [[? Hg]|Hg]; congruence). destruct Hm as [[_ ->]|[_ ->]]; eauto.
  Qed.
  Lemma task_weight b (x : lis N) (l : llabel N) x' : of_tasks l = true → lstep x l x' → cancelled (b, x) → run_weight (l_run x') < run_weight (l_run x) ∧ ∀ n, l ≠ LCall n.
  Proof.
    intros Hl Hs (H1 & H2 & H3). simpl in *. destruct Hs; simpl in *; simplify_eq; try done; try (split; [lia|done]).
    destruct H as [->|[n ->]]; simpl; split; (lia || done).
  Qed.
  Lemma cweight_step s l s' : cinv s → gathered s → cstep s l s' → l ≠ CAgain → cweight s' < cweight s ∧ ∀ j n, l ≠ CBase (ILis j (LCall n)).
  Proof.
    intros Hi Hg Hs Hne. pose proof (gathered_cancelled _ Hi Hg) as Hc.
    destruct Hs as [l t Hm Ht|Hm ? ?|Hm ? ?|Hm ? ?|Hm ? ?|g Hm|g Hm Hgo|m j x n Hm Hj Hx|j l ls' x Hm Hj Hl Hx]; try done;
      try (destruct Hg as [[? Hg]|Hg]; congruence).
    - unfold cweight. simpl. rewrite Hm. split; [lia|done].
    - unfold cweight. simpl. pose proof (sum_insert (λ x, run_weight (l_run x.2)) (i_lis (c_st s)) j (true, x) (true, Lis (l_adder x) (l_addq x) (l_stop x) (l_pump x) (l_pend x) (l_nextq x) RStopped) Hj) as He.
      simpl in He. rewrite Hx in He. simpl in He. split; [|done]. destruct Hm as [[-> ->]|[[g ->] ->]]; lia.
    - destruct Hx as (b & y & y' & Hy & Hst & ->). rewrite Hj in Hy. injection Hy as <- <-.
      destruct (task_weight true x l y' Hl Hst (Forall_lookup_1 _ _ _ _ Hc Hj)) as [Hw Hn].
      pose proof (sum_insert (λ x, run_weight (l_run x.2)) (i_lis (c_st s)) j (true, x) (true, y') Hj) as He. simpl in He.
      unfold cweight. simpl. split; [lia|]. intros j' n [=]. naive_solver.
  Qed.
  Lemma after_gather s ls' s' : cinv s → gathered s → reach cstep s ls' s' → cinv s' ∧ gathered s' ∧
    ((∀ l, l ∈ ls' → l ≠ CAgain) → length ls' + cweight s' ≤ cweight s) ∧ ∀ j n, CBase (ILis j (LCall n)) ∉ ls'.
  Proof.
    intros Hi Hg Hr. induction Hr as [|ls' s1 l s2 Hr IH Hs]; [split_and!; [done|done|simpl; lia|by intros ?? ?%elem_of_nil]|].
    destruct IH as (Hi1 & Hg1 & Hw1 & Hn1). split_and!; [by eapply cinv_step|by eapply gathered_step| |].
    - intros Hl. assert (Hla : l ≠ CAgain) by (apply Hl, elem_of_app; right; by apply elem_of_list_singleton).
      destruct (cweight_step _ _ _ Hi1 Hg1 Hs Hla) as [Hw _]. rewrite app_length. simpl.
      assert (length ls' + cweight s1 ≤ cweight s) by (apply Hw1; intros; apply Hl, elem_of_app; by left). lia.
    - intros j n [Hin|Hin%elem_of_list_singleton]%elem_of_app; [by eapply Hn1|]. subst l.
      destruct (cweight_step _ _ _ Hi1 Hg1 Hs ltac:(done)) as [_ Hn]. by eapply Hn.
  Qed.
  Lemma still_over s : cinv s → gathered s → still s → tasks_over s.
  Proof.
    intros Hi Hg Hst. pose proof (gathered_cancelled _ Hi Hg) as Hc.
    assert (Hall : Forall lis_ended (i_lis (c_st s))).
    { apply Forall_lookup. intros j [b x] Hj _. destruct (Forall_lookup_1 _ _ _ _ Hc Hj) as (Hb & Hp & Hr). simpl in *. subst b. split; [done|].
      assert (Hm : c_mode s ≠ CNo) by (destruct Hg as [[g Hg]|Hg]; congruence).
      assert (Hq : ∀ (l : llabel N) x', of_tasks l = true → lstep x l x' → False).
      { intros l x' Hl Hx. assert (cstep s (CBase (ILis j l)) (CS (with_lis (<[j:=(true, x')]> (i_lis (c_st s))) (c_st s)) (c_mode s))) as Hs; [|by apply Hst in Hs].
        eapply c_task; [done|done|done|]. by exists true, x, x'. }
      destruct x as [a q st p pe nq r]. simpl in *. subst p. destruct r; [done|..|done]; exfalso.
      - eapply (Hq LRunStop); [done|]. apply l_runstop. by left.
      - eapply (Hq LRunStop); [done|]. apply l_runstop. right. by eexists.
      - eapply (Hq LReturn); [done|]. apply l_return.
      - eapply (Hq LSlept); [done|]. apply l_slept. }
    destruct Hg as [[g Hg]|Hg].
    - exfalso. assert (cstep s CEnd (CS (ended (c_st s)) CGathered)) as Hs by (eapply c_end; [done|by right]). by apply Hst in Hs.
    - unfold cinv in Hi. rewrite Hg in Hi. destruct Hi as (? & ? & _). by split_and!.
  Qed.
  Lemma again_gather s s' ls : reach cstep cs_init ls s → gathering s → cstep s CAgain s' → cinv s' ∧ gathered s'.
  Proof.
    intros Hr (Hm & Hr1 & Hp) Hs. split; [eapply cinv_step; [by eapply cinv_reach|done]|].
    inversion Hs; subst; try congruence. left. by eexists.
  Qed.
  Lemma again_ends ls s s1 ls' s' : reach cstep cs_init ls s → gathering s → cstep s CAgain s1 → reach cstep s1 ls' s' →
    (∃ b, ∀ ls2 s2, reach cstep s' ls2 s2 → CAgain ∉ ls2 → length ls2 ≤ b) ∧ (still s' → tasks_over s') ∧ ∀ j n, CBase (ILis j (LCall n)) ∉ ls'.
  Proof.
    intros Hr Hg Hs Hr'. destruct (again_gather _ _ _ Hr Hg Hs) as [Hi1 Hg1]. destruct (after_gather _ _ _ Hi1 Hg1 Hr') as (Hi' & Hg' & _ & Hn).
    split; [|split; [by apply still_over|done]]. exists (cweight s'). intros ls2 s2 Hr2 Hl.
    destruct (after_gather _ _ _ Hi' Hg' Hr2) as (_ & _ & Hw & _). assert (length ls2 + cweight s2 ≤ cweight s'); [|lia]. apply Hw. intros l Hin ->. done.
  Qed.
  Lemma again_at_once ls s s1 j : reach cstep cs_init ls s → gathering s → idle_task s j → cstep s CAgain s1 → ∃ s2, cstep s1 CEnd s2 ∧ run_over s2.
  Proof.
    intros Hr (Hm & Hr1 & Hp) (x & Hj & Hx) Hs. inversion Hs; subst; try congruence.
    assert (existsb cancellable (i_lis (c_st s)) = true) as He.
    { apply existsb_exists. exists (true, x). split; [apply elem_of_list_In; by eapply elem_of_list_lookup_2|]. unfold cancellable. simpl.
      destruct (l_pump x); try done. destruct Hx as [?|[Hx1 Hx2]]; [done|]. destruct (l_run x) eqn:E; try done. by destruct (Hx2 n). }
    rewrite He. eexists. split; [eapply c_end; [done|by left]|done].
  Qed.
  (** once a callback has let the cancellation through *)
  Lemma gather_after s1 (bs : list (clab N)) s' : (∃ g, c_mode s1 = CGather g) → reach cstep s1 bs s' →
    (c_mode s' = CGathered ∧ run_over s') ∨ (∃ g, c_mode s' = CGather g ∧ ((∃ j, CThrough j ∈ bs) → g = true)).
  Proof.
    intros Hg Hr. induction Hr as [|bs s l s' Hr IH Hs].
    - right. destruct Hg as [g Hg]. exists g. split; [done|]. intros [j Hj]. by apply elem_of_nil in Hj.
    - destruct Hs as [l t Hm Ht|Hm ? ?|Hm ? ?|Hm ? ?|Hm ? ?|g Hm|g Hm Hgo|m' j x n Hm Hj Hx|j l ls' x Hm Hj Hl Hx];
        try (destruct IH as [[? ?]|(? & ? & ?)]; congruence).
      + destruct IH as [[? ?]|(g' & H1 & H2)]; [congruence|]. right. exists g'. split; [done|]. intros [j Hj]. apply H2. exists j.
        apply elem_of_app in Hj as [?|Hj%elem_of_list_singleton]; [done|congruence].
      + by left.
      + destruct Hm as [[Hm ->]|[[g Hm] ->]].
        * left. split; [done|]. destruct IH as [[? ?]|(? & ? & ?)]; [done|congruence].
        * right. exists true. done.
      + destruct IH as [[H1 H2]|(g' & H1 & H2)]; [by left|]. right. exists g'. split; [done|]. intros [j' Hj']. apply H2. exists j'.
        apply elem_of_app in Hj' as [?|Hj'%elem_of_list_singleton]; [done|congruence].
  Qed.
  Lemma again_through s s1 (bs : list (clab N)) s' j : gathering s → cstep s CAgain s1 → reach cstep s1 bs s' → CThrough j ∈ bs →
    run_over s' ∨ ∃ s2, cstep s' CEnd s2 ∧ run_over s2.
  Proof.
    intros (Hm & Hr1 & Hp) Hs Hr Hj. destruct (gather_after s1 bs s') as [[? ?]|(g & Hg & Ht)].
    - inversion Hs; subst; try congruence. by eexists.
    - done.
    - by left.
    - right. eexists. split; [eapply c_end; [done|]; left; by apply Ht; exists j|done].
  Qed.
  Lemma waits_step s l s' k : cinv s → c_mode s = CGather false → calling s k → cstep s l s' →
    (∀ j, l ≠ CThrough j) → l ≠ CBase (ILis k LReturn) → l ≠ CBase (ILis k LRaise) → c_mode s' = CGather false ∧ calling s' k.
  Proof.
    intros Hi Hg (x0 & n0 & Hk & Hn) Hs H1 H2 H3.
    destruct Hs as [l t Hm Ht|Hm ? ?|Hm ? ?|Hm ? ?|Hm ? ?|g Hm|g Hm Hgo|m j x n Hm Hj Hx|j l ls' x Hm Hj Hl Hx]; try congruence.
    - split; [done|]. by exists x0, n0.
    - exfalso. rewrite Hm in Hg. injection Hg as ->. destruct Hgo as [?|Hall]; [done|]. destruct (Forall_lookup_1 _ _ _ _ Hall Hk eq_refl) as [_ E]. simpl in E. congruence.
    - split; [done|]. destruct (lis_step_handling _ _ _ _ k x0 n0 Hx) as (x' & ? & ?); try done; [|by exists x', n0]. intros ->. split; intros ->; done.
  Qed.
  Lemma again_waits ls s s1 k ls' s' : reach cstep cs_init ls s → gathering s → (∀ j, ¬ idle_task s j) → calling s k → cstep s CAgain s1 → reach cstep s1 ls' s' →
    (∀ l, l ∈ ls' → (∀ j, l ≠ CThrough j) ∧ l ≠ CBase (ILis k LReturn) ∧ l ≠ CBase (ILis k LRaise)) → ¬ run_over s'.
  Proof.
    intros Hr Hg Hid Hc Hs Hr' Hl. destruct (again_gather _ _ _ Hr Hg Hs) as [Hi1 _]. pose proof Hg as (Hm & Hr1 & Hp).
    assert (c_mode s1 = CGather false ∧ calling s1 k) as [Hm1 Hc1].
    { inversion Hs; subst; try congruence. simpl. split.
      - f_equal. apply not_true_iff_false. intros (x & Hin & Hx)%existsb_exists. apply elem_of_list_In, elem_of_list_lookup in Hin as [j Hj].
        pose proof (Forall_lookup_1 _ _ _ _ (v_made _ (ltac:(pose proof (cinv_reach _ _ Hr) as Hci; unfold cinv in Hci; rewrite Hm in Hci; exact Hci) : inv (c_st s))) Hj) as Hb.
        unfold listeners_started in Hb. rewrite Hp in Hb. destruct x as [b x]. simpl in Hb. subst b. apply (Hid j). exists x. split; [done|].
        unfold cancellable in Hx. simpl in Hx. destruct (l_pump x); try (by left). right. by destruct (l_run x).
      - destruct Hc as (x & n & Hx & Hn). eexists _, n. simpl. rewrite list_lookup_fmap, Hx. split; [done|]. simpl. by rewrite Hn. }
    assert (cinv s' ∧ c_mode s' = CGather false ∧ calling s' k) as (Hi' & Hm' & _).
    { clear Hs. induction Hr' as [|ls' t l t' Hr' IH Hs]; [done|].
      destruct IH as (I1 & I2 & I3); [done..| |]; [intros l' Hl'; apply Hl, elem_of_app; by left|].
      destruct (Hl l) as (L1 & L2 & L3); [apply elem_of_app; right; by apply elem_of_list_singleton|].
      split; [by eapply cinv_step|]. by eapply waits_step. }
    unfold cinv in Hi'. rewrite Hm' in Hi'. destruct Hi' as (E & _). unfold run_over. congruence.
  Qed.

  (** ** cancelled before the processor was woken, or begun *)
  Lemma left_stays s ls' s' : c_mode s = CLeft → reach cstep s ls' s' → c_mode s' = CLeft.
  Proof.
    intros Hm. apply (reach_inv cstep (λ s, c_mode s = CLeft)); [|done]. clear. intros s l s' Hm Hs.
    destruct Hs as [? ? Hm'|Hm' ? ?|Hm' ? ?|Hm' ? ?|Hm' ? ?|g Hm'|g Hm' ?|m j x n Hm' Hj Hx|j l ls' x Hm' Hj Hl Hx]; try congruence; [|done].
    destruct Hm' as [[? _]|[[? ?] _]]; congruence.
  Qed.
  Lemma again_leak ls s s1 ls' s' : reach cstep cs_init ls s → not_woken s → cstep s CAgain s1 → reach cstep s1 ls' s' →
    run_over s' ∧ length (i_lis (c_st s')) = length (i_lis (c_st s)) ∧
    ∀ j b x, i_lis (c_st s') !! j = Some (b, x) → b = true ∧ l_stop x = false ∧ l_pump x ≠ PStopped ∧ l_run x ≠ RStopped.
  Proof.
    intros Hr (Hm & Hr1 & Hp) Hs Hr'. assert (Hi1 : cinv s1) by (eapply cinv_step; [by eapply cinv_reach|done]).
    assert (c_mode s1 = CLeft ∧ i_lis (c_st s1) = i_lis (c_st s)) as [Hm1 He1] by (inversion Hs; subst; try congruence; done).
    assert (cinv s' ∧ c_mode s' = CLeft ∧ length (i_lis (c_st s')) = length (i_lis (c_st s1))) as (Hi' & Hm' & Hlen).
    { clear -Hi1 Hm1 Hr'. induction Hr' as [|ls' t l t' Hr' IH Hs]; [done|]. destruct IH as (I1 & I2 & I3); [done..|].
      split; [by eapply cinv_step|]. rewrite <-I3.
      destruct Hs as [? ? Hm'|Hm' ? ?|Hm' ? ?|Hm' ? ?|Hm' ? ?|g Hm'|g Hm' ?|m j x n Hm' Hj Hx|j l ls2 x Hm' Hj Hl Hx]; try congruence.
      - destruct Hm' as [[? _]|[[? ?] _]]; congruence.
      - split; [done|]. simpl. by eapply lis_step_length. }
    unfold cinv in Hi'. rewrite Hm' in Hi'. destruct Hi' as (H1 & H2 & H3). split; [done|]. split; [congruence|].
    intros j b x Hj. destruct (Forall_lookup_1 _ _ _ _ H3 Hj) as (Hb & [Hsp Hsr] & Hst). simpl in *. split_and!; [done|done| |].
    - intros E. rewrite E in Hsp. congruence.
    - intros E. specialize (Hsr E). rewrite Hsr in Hsp. congruence.
  Qed.
  Lemma again_unstarted ls s s1 : reach cstep cs_init ls s → not_begun s → cstep s CAgain s1 → tasks_over s1 ∧ ∀ l s2, ¬ cstep s1 l s2.
  Proof.
    intros Hr (Hm & Hr1 & Hp) Hs. assert (Hi1 : cinv s1) by (eapply cinv_step; [by eapply cinv_reach|done]).
    assert (c_mode s1 = CUnstarted) as Hm1 by (inversion Hs; subst; try congruence; done).
    unfold cinv in Hi1. rewrite Hm1 in Hi1. destruct Hi1 as (H1 & H2 & H3). split.
    - split_and!; [done|done|]. eapply Forall_impl; [exact H3|]. intros [b x] Hb Hb'. simpl in *. congruence.
    - intros l s2 Hs2. destruct Hs2 as [? ? Hm'|Hm' ? ?|Hm' ? ?|Hm' ? ?|Hm' ? ?|g Hm'|g Hm' ?|m j x n Hm' Hj Hx|j l ls' x Hm' Hj Hl Hx]; try congruence.
      + destruct Hm' as [[? _]|[[? ?] _]]; congruence.
      + pose proof (Forall_lookup_1 _ _ _ _ H3 Hj). done.
  Qed.
End proofs.

(** ** concrete runs *)
Ltac ione2 := lazymatch goal with
  | |- istep _ IStopped _ => by apply s_stopped
  | |- istep _ IProcWake _ => by apply s_proc_wake
  | |- istep _ IProcStop _ => by apply s_proc_stop
  | |- _ => ione
  end.
Ltac cone := lazymatch goal with
  | |- cstep (CS _ CNo) (CBase _) _ => eapply c_base; [reflexivity|]; cbn; ione2
  | |- cstep _ (CBase _) _ => eapply c_task; [done|reflexivity|reflexivity|]; eexists _, _, _; split_and!; [reflexivity|lone|reflexivity]
  | |- cstep _ CEnd _ => eapply c_end; [reflexivity|by left]
  | |- cstep _ (CThrough _) _ => eapply c_through; [by left|reflexivity|reflexivity]
  end.
Ltac cgo := eapply reach_cons; [cone|]; cbn.
Definition again_up : list (ilab nat) := up ++ [ILis 0 LStartPump; ILis 0 LStartRun] ++ deliver 1 ++ taken.
Definition again_stop : list (ilab nat) := [ICancel; IClose; IReflEnd; IReflJoined; IStopped].
Definition again_call : list (ilab nat) := [ILis 0 LPutNext; ILis 0 LFetch; ILis 0 LWake; ILis 0 LNextJoined; ILis 0 (LCall 1)].
(** a notification is pending when run is cancelled twice: its callback starts after run has ended *)
Lemma again_leak_refuted : ∃ s s1 s2, reach cstep cs_init (CBase <$> (again_up ++ again_stop)) s ∧ not_woken s ∧ cstep s CAgain s1 ∧ run_over s1 ∧
  reach cstep s1 (CBase <$> again_call) s2 ∧ calling s2 0 ∧
  ∀ ls' s', reach cstep s1 ls' s' → ∃ x, i_lis (c_st s') !! 0 = Some (true, x) ∧ l_pump x ≠ PStopped ∧ l_run x ≠ RStopped.
Proof.
  assert (∃ s s1 s2, reach cstep cs_init (CBase <$> (again_up ++ again_stop)) s ∧ not_woken s ∧ cstep s CAgain s1 ∧ run_over s1 ∧
    reach cstep s1 (CBase <$> again_call) s2 ∧ calling s2 0 ∧ length (i_lis (c_st s)) = 1) as (s & s1 & s2 & H1 & H2 & H3 & H4 & H5 & H6 & H7).
  { eexists _, _, _. split_and!.
    - unfold cs_init, is_init. cbn. repeat cgo. apply reach_nil.
    - by split_and!.
    - by eapply c_left.
    - done.
    - cbn. repeat cgo. apply reach_nil.
    - eexists _, _. split; reflexivity.
    - done. }
  exists s, s1, s2. split_and!; try done. intros ls' s' Hr. destruct (again_leak _ _ _ _ _ H1 H2 H3 Hr) as (_ & Hlen & Hall).
  destruct (i_lis (c_st s')) as [|[b x] xs] eqn:E; [simpl in *; lia|]. destruct (Hall 0 b x eq_refl) as (-> & _ & ? & ?). by exists x.
Qed.
(** a callback is running when run is cancelled twice: run ends before it *)
Lemma again_callback_refuted : ∃ s s1 s2 s3, reach cstep cs_init (CBase <$> (again_up ++ again_call ++ again_stop ++ [IProcWake; IProcStop])) s ∧
  gathering s ∧ calling s 0 ∧ cstep s CAgain s1 ∧ cstep s1 CEnd s2 ∧ run_over s2 ∧ calling s2 0 ∧ reach cstep s2 [CThrough 0] s3 ∧ tasks_over s3.
Proof.
  eexists _, _, _, _. split_and!.
  - unfold cs_init, is_init. cbn. repeat cgo. apply reach_nil.
  - by split_and!.
  - eexists _, _. split; reflexivity.
  - by eapply c_gather.
  - cbn. eapply c_end; [reflexivity|by left].
  - done.
  - eexists _, _. cbn. split; reflexivity.
  - cbn. cgo. apply reach_nil.
  - cbn. split_and!; [done|done|]. constructor; [|constructor]. done.
Qed.
