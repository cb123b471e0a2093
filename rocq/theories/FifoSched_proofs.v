From Verif Require Import Base Fifo_model Fifo_spec Fifo_proofs FifoSched_model.

Section proofs.
  Context {K O T : Type} `{EqDecision K} `{EqDecision T} (keyf : O → option K).
  Implicit Types (y : fsys K O T) (s : fifo K O).

  (** what a call may do to a queue on which tasks are waiting *)
  Definition quiet s : Prop := f_queue s = [] ∧ f_closed s = false.

  Lemma SI_step s c : SI keyf s → SI keyf (fstep keyf s c).1.
  Proof.
    intros [H1 H3 H4]. unfold fstep.
    assert (Hset : ∀ k0 o (q : list K) items, keyf o = Some k0 → dwf items →
      (∀ k o', dget k items = Some o' → keyf o' = Some k) →
      (∀ k, k ∈ dkeys items → k ∈ q) → k0 ∈ q → ∀ b n c', SI keyf (FIFO (dset k0 o items) q b n c')).
    { intros k0 o q items Hk Hwf Hkk Hq1 Hq2 b n c'. split; simpl; [by apply dwf_dset| |].
      - intros k o'. rewrite dget_dset. destruct (decide (k = k0)) as [->|]; [intros; by simplify_eq|apply Hkk].
      - intros k. rewrite elem_of_dkeys, dget_dset. destruct (decide (k = k0)) as [->|]; [done|].
        intros ?%elem_of_dkeys. by apply Hq1. }
    assert (Hdel : ∀ k0 (q : list K), (∀ k, k ≠ k0 → k ∈ dkeys (f_items s) → k ∈ q) →
      ∀ b n c', SI keyf (FIFO (ddel k0 (f_items s)) q b n c')).
    { intros k0 q Hq b n c'. split; simpl; [by apply dwf_ddel| |].
      - intros k o'. rewrite dget_ddel. case_decide; [done|apply H3].
      - intros k. rewrite elem_of_dkeys, dget_ddel. case_decide; [by intros [??]|]. intros ?%elem_of_dkeys. by apply Hq. }
    destruct c as [o|o|o| | |o|k|l| |p|o| | |]; simpl; try done.
    1,2: destruct (keyf o) as [k0|] eqn:Hk; [|done]; apply Hset; try done;
      [intros k Hin; case_decide; [by apply H4|apply elem_of_app; left; by apply H4]
      |case_decide; [by apply H4|apply elem_of_app; right; by apply elem_of_list_singleton]].
    - destruct (keyf o) as [k0|] eqn:Hk; [|done]. unfold fifo_delete. case_decide; simpl; [|done].
      apply Hdel. intros k _ ?. by apply H4.
    - by destruct (keyf o).
    - destruct (index_items keyf l []) as [items|o] eqn:Hi; [|done].
      destruct (index_items_spec keyf _ _ _ Hi dwf_nil) as [Hwf Hg]. split; simpl; try done.
      intros k o. rewrite Hg. destruct (last_with_key keyf k l) as [o'|] eqn:Hl; [|by vm_compute].
      intros; simplify_eq. by apply last_with_key_key in Hl as [??].
    - split; simpl; try done. intros k Hk. apply elem_of_app. left. by apply H4.
    - unfold fifo_pop. destruct (skip_stale _ _ _) as [[q' c'] found] eqn:Hs.
      destruct (skip_stale_spec _ _ _ _ _ _ Hs) as (pre & Hpre & Hf). destruct found as [[k0 o]|].
      + destruct Hf as (Hq & Hk & ->).
        assert (Hrest : ∀ k, k ≠ k0 → k ∈ dkeys (f_items s) → k ∈ q').
        { intros k Hne Hin. pose proof (H4 k Hin) as Hx. rewrite Hq in Hx. apply elem_of_app in Hx as [Hx|[->|Hx]%elem_of_cons]; try done.
          apply Hpre in Hx. apply elem_of_dkeys in Hin as [? ?]. congruence. }
        destruct (p o) as [|cause|]; simpl; [by apply Hdel| |by apply Hdel].
        unfold fifo_add_if_not_present; simpl. case_decide; simpl; [by apply Hdel|].
        pose proof (Hdel k0 q' Hrest true 0 true) as [Hd1 Hd2 Hd3]. simpl in *.
        apply Hset; try done; [by apply H3| |apply elem_of_app; right; by apply elem_of_list_singleton].
        intros k Hin. apply elem_of_app. left. by apply Hd3.
      + destruct Hf as (-> & -> & ->). split; simpl; try done.
        intros k Hin. pose proof (Hpre k (H4 k Hin)). apply elem_of_dkeys in Hin as [??]. congruence.
    - destruct (keyf o) as [k0|] eqn:Hk; [|done]. unfold fifo_add_if_not_present. case_decide; simpl; [done|].
      apply Hset; try done; [|apply elem_of_app; right; by apply elem_of_list_singleton].
      intros k Hin. apply elem_of_app. left. by apply H4.
  Qed.

  Lemma SI_call s c s' r n : SI keyf s → fcall keyf s c = (s', r, n) → SI keyf s'.
  Proof. intros HS Hc. pose proof (SI_step s c HS) as Hx. unfold fstep in Hx. by rewrite Hc in Hx. Qed.

  (** a call that does not notify leaves a quiet queue quiet; a call that
      suspends leaves it quiet *)
  Lemma quiet_call s c s' r n : SI keyf s → fcall keyf s c = (s', r, n) →
    (blocked r = true → quiet s' ∧ n = false) ∧ (quiet s → n = false → quiet s').
  Proof.
    intros [H1 H3 H4] Hc. unfold quiet. destruct c as [o|o|o| | |o|k|l| |p|o| | |]; simpl in Hc; simplify_eq; simpl; try done.
    1,2: destruct (keyf o); simplify_eq; done.
    - destruct (keyf o); [|by simplify_eq]. unfold fifo_delete in Hc. case_decide; simplify_eq; done.
    - destruct (keyf o); by simplify_eq.
    - destruct (index_items keyf l []) as [items|]; simplify_eq; [|done]. simpl. split; [done|]. intros [? ?].
      destruct (dkeys items); done.
    - split; [done|]. intros [-> ?]. simpl. destruct (filter _ _); done.
    - unfold fifo_pop in Hc. destruct (skip_stale _ _ _) as [[q' c'] found] eqn:Hs.
      destruct (skip_stale_spec _ _ _ _ _ _ Hs) as (pre & Hpre & Hf). destruct found as [[k0 o]|].
      + destruct Hf as (Hq & Hk & ->). destruct (p o) as [|cause|]; simplify_eq; simpl.
        * split; [done|]. intros [Hx _]. rewrite Hx in Hq. by destruct pre.
        * unfold fifo_add_if_not_present in Hc. destruct (decide _); simplify_eq; simpl.
          -- split; [by destruct cause|]. intros [Hx _]. rewrite Hx in Hq. by destruct pre.
          -- split; [by destruct cause|done].
        * split; [done|]. intros [Hx _]. rewrite Hx in Hq. by destruct pre.
      + destruct Hf as (-> & -> & ->). simplify_eq. simpl. split; [|tauto]. by destruct (f_closed s).
    - destruct (keyf o); simplify_eq; [|done]. unfold fifo_add_if_not_present in Hc. case_decide; simplify_eq; done.
  Qed.

  Definition YI y : Prop := SI keyf (y_fifo y) ∧ (y_waiting y ≠ [] → quiet (y_fifo y)).
  Lemma YI_init : YI fsys_init.
  Proof. split; [|done]. split; simpl; try done. apply dwf_nil. Qed.
  Lemma YI_step y l y' : YI y → ytrans keyf y l y' → YI y'.
  Proof.
    intros [HS HW] Ht. inversion Ht as [? t c s' r n Hc|? t p w1 w2 s' r n Hw Hc|? t p w1 w2 Hw|? t p w1 w2 Hw]; subst.
    1,2: pose proof (SI_call _ _ _ _ _ HS Hc) as HS';
      destruct (quiet_call _ _ _ _ _ HS Hc) as [Hb Hq]; unfold turn; destruct n;
      (split; [done|]); simpl; destruct (blocked r) eqn:Hbl; try done;
      [by destruct (Hb eq_refl)|by destruct (Hb eq_refl)|rewrite app_nil_r; intros ?; by apply Hq; [apply HW|]].
    - split; [done|]. simpl. intros _. apply HW. rewrite Hw. by destruct w1.
    - split; [done|]. simpl. done.
  Qed.

  Lemma no_stuck_waiter ls y : reach (ytrans keyf) fsys_init ls y → y_waiting y ≠ [] →
    (fstep keyf (y_fifo y) FListKeys).2 = FKeys [] ∧ (fstep keyf (y_fifo y) FIsClosed).2 = FBool false.
  Proof.
    intros Hr Hw. apply (reach_inv _ YI) in Hr; [|intros; by eapply YI_step|apply YI_init].
    destruct Hr as [[H1 H3 H4] HW]. destruct (HW Hw) as [Hq Hc]. unfold fstep. simpl. rewrite Hc. split; [|done].
    destruct (dkeys (f_items (y_fifo y))) as [|k ks]; [done|]. specialize (H4 k ltac:(left)). rewrite Hq in H4. by apply elem_of_nil in H4.
  Qed.

  (** once closed, no turn of any task ends suspended *)
  Lemma closed_call s c s' r n : fcall keyf s c = (s', r, n) → f_closed s = true → f_closed s' = true ∧ r ≠ FBlocked.
  Proof.
    intros Hc Hcl. split.
    - pose proof (closed_step keyf s c) as Hx. unfold fstep in Hx. rewrite Hc in Hx. simpl in Hx. rewrite Hx. by destruct c.
    - destruct c as [o|o|o| | |o|k|l| |p|o| | |]; simpl in Hc; simplify_eq; try done; try (by destruct (keyf o); simplify_eq).
      + destruct (keyf o); [|by simplify_eq]. unfold fifo_delete in Hc. case_decide; by simplify_eq.
      + destruct (index_items keyf l []); by simplify_eq.
      + unfold fifo_pop in Hc. destruct (skip_stale _ _ _) as [[q' c'] [[k0 o]|]].
        * destruct (p o) as [|cause|]; simplify_eq; try done. unfold fifo_add_if_not_present in Hc. destruct (decide _), cause; by simplify_eq.
        * rewrite Hcl in Hc. by simplify_eq.
      + destruct (keyf o); simplify_eq; [|done]. unfold fifo_add_if_not_present in Hc. case_decide; by simplify_eq.
  Qed.
  Definition closes (l : flabel K O T) : Prop := ∃ t r, l = YCall t FClose r.
  Lemma closed_reach ls y : reach (ytrans keyf) fsys_init ls y → Exists closes ls → f_closed (y_fifo y) = true.
  Proof.
    intros Hr. induction Hr as [|ls y1 l y2 Hr IH Ht]; [by intros ?%Exists_nil|].
    intros Hx. assert (f_closed (y_fifo y1) = true ∨ closes l) as Hor.
    { apply Exists_app in Hx as [Hx|Hx]; [left; by apply IH|right]. by apply Exists_cons in Hx as [?|?%Exists_nil]. }
    inversion Ht as [? t c s' r n Hc|? t p w1 w2 s' r n Hw Hc|? t p w1 w2 Hw|? t p w1 w2 Hw]; subst.
    - assert (f_closed s' = true); [|unfold turn; by destruct n].
      destruct Hor as [Hor|(? & ? & ?)]; [by eapply closed_call|]. simplify_eq. simpl in Hc. by simplify_eq.
    - destruct Hor as [Hor|(? & ? & ?)]; [|done]. assert (f_closed s' = true) by (by eapply closed_call). unfold turn; by destruct n.
    - by destruct Hor as [Hor|(? & ? & ?)].
    - by destruct Hor as [Hor|(? & ? & ?)].
  Qed.
  Lemma closed_turns ls y l y' : reach (ytrans keyf) fsys_init ls y → Exists closes ls → ytrans keyf y l y' →
    y_waiting y = [] ∧ (∀ t c, l ≠ YCall t c FBlocked) ∧ (∀ t, l ≠ YResume t FBlocked).
  Proof.
    intros Hr Hx Ht. pose proof (closed_reach _ _ Hr Hx) as Hcl. split.
    - destruct (y_waiting y) as [|w ws] eqn:Hw; [done|]. exfalso.
      apply (reach_inv _ YI) in Hr; [|intros; by eapply YI_step|apply YI_init]. destruct Hr as [_ HW].
      rewrite Hw in HW. destruct (HW ltac:(done)) as [_ ?]. congruence.
    - inversion Ht as [? t c s' r n Hc|? t p w1 w2 s' r n Hw Hc|? t p w1 w2 Hw|? t p w1 w2 Hw]; subst; try done;
        destruct (closed_call _ _ _ _ _ Hc Hcl) as [_ Hne]; split; intros; naive_solver.
  Qed.

  (** a notified task can always run, and gets a real answer unless the queue
      has meanwhile been emptied by others *)
  Lemma woken_runs y t p w1 w2 : y_woken y = w1 ++ (t, p) :: w2 → ∃ r y', ytrans keyf y (YResume t r) y'.
  Proof.
    intros Hw. destruct (fcall keyf (y_fifo y) (FPop p)) as [[s' r] n] eqn:Hc. eexists r, _. by eapply yt_resume.
  Qed.
End proofs.
