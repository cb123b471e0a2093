(** Proofs about objects under a condition: whole executions, the order of the lock, cancellation. *)
From Verif Require Import Base WorkQueue_model AsyncCond_model AsyncCond_spec AsyncCond_proofs.

Section cond.
  Context {St Op R L E : Type}.
  Context (enter : St → Op → St * part R L * notif) (resume : St → L → E → St * part R L * notif) (direct : Op → bool).
  Notation cst := (cst St Op R L).
  Notation cstep := (cstep enter resume direct).
  Notation atrans := (atrans enter resume direct).
  Notation ast := (ast St Op L).
  Notation inv := (inv (St := St) (Op := Op) (R := R) (L := L)).
  Implicit Types (s : cst) (a : ast).

  (** sections that do not await leave the lock free *)
  Definition quiet s : Prop := c_lockq s = [] ∧ c_locked s = false ∧ c_held s = None.
  Lemma quiet_after t o y s : c_lockq s = [] → (∀ x l n, y ≠ (x, PAwait l, n)) → quiet (after t o y s).
  Proof. intros H1 Hn. destruct y as [[x [r|l|]] n]; simpl; unfold quiet; simpl; rewrite ?H1; try done. by destruct (Hn x l n). Qed.
  Lemma quiet_again t o b s : no_await enter resume → quiet s → quiet (again enter t o b s).
  Proof.
    intros [Hn _] (H1&H2&H3). unfold again. rewrite H1, H2. simpl. destruct b.
    - unfold leave, quiet. simpl. by rewrite H1.
    - apply quiet_after; [done|]. intros x l n. apply Hn.
  Qed.
  Lemma quiet_step s l s' : no_await enter resume → quiet s → cstep s l s' → quiet s'.
  Proof.
    intros Hn (H1&H2&H3) Hs. unfold AsyncCond_model.cstep in Hs. destruct l as [o|t|t|e]; simpl in Hs; rewrite ?H1, ?H2, ?H3 in Hs; simpl in Hs.
    - destruct (direct o).
      + destruct (enter (c_obj s) o) as [[x [r|l|]] []]; simplify_eq. done.
      + simplify_eq. apply quiet_after; [done|]. intros x l n. by apply Hn.
    - destruct (find_cw t (c_condq s)) as [w|]; [|done]. destruct (cw_fut w); simplify_eq; by apply quiet_again.
    - destruct (find_cw t (c_condq s)) as [w|]; simplify_eq. done.
    - done.
  Qed.
  Lemma atomic (s0 : St) ls s : no_await enter resume → reach cstep (cond_init s0) ls s → quiet s.
  Proof. intros Hn. apply (reach_inv cstep quiet); [|done]. intros. by eapply quiet_step. Qed.
  Lemma mutex (s0 : St) ls s : reach cstep (cond_init s0) ls s → c_locked s = true ↔ c_held s ≠ None.
  Proof. intros H%reach_inv_c. by destruct H. Qed.

  Lemma imap_snoc {X Y} (f : nat → X → Y) l x : imap f (l ++ [x]) = imap f l ++ [f (length l) x].
  Proof. rewrite imap_app. simpl. by rewrite Nat.add_0_r. Qed.
  Definition follows (s0 : St) (ls : list (clabel Op E)) s (als : list (alabel Op R L E)) a : Prop :=
    reach atrans (ideal_init s0) als a ∧ agrees s a ∧ results als = c_log s ∧ entered direct als = c_ran s ∧
    begun als = imap pair (calls ls) ∧ (∀ t, ACancel t ∈ als → KCancel t ∈ ls) ∧ (no_await enter resume → Forall (λ l, ¬ queues l) als).
  Lemma refines_next (s0 : St) ls s : reach cstep (cond_init s0) ls s → c_next s = length (calls ls) ∧ ∃ als a, follows s0 ls s als a.
  Proof.
    intros Hr. cut (inv s ∧ (no_await enter resume → quiet s) ∧ c_next s = length (calls ls) ∧ ∃ als a, follows s0 ls s als a); [tauto|].
    apply (reach_trace_inv cstep (λ ls s, inv s ∧ (no_await enter resume → quiet s) ∧ c_next s = length (calls ls) ∧ ∃ als a, follows s0 ls s als a) (cond_init s0)); [| |exact Hr]; clear.
    - split; [apply init_inv|]. split; [done|]. split; [done|]. exists [], (ideal_init s0). split; [constructor|]. split; [done|]. repeat split; try done. intros t H. by apply elem_of_nil in H.
    - intros ls s l s' _ (Hi & Hq & Hx & als & a & H1 & H2 & H3 & H4 & H5 & H6 & H7) Hs.
      split; [by eapply step_inv|]. split; [intros Hn; eapply quiet_step; eauto|].
      assert (calls (ls ++ [l]) = calls ls ++ calls [l]) as Hcalls by apply omap_app.
      destruct (step_sims _ _ _ _ _ _ _ Hi H2 Hs) as [(S1&S2&S3&S4&S5)|(b&a'&S1&S2&S3&S4&S5&S6&S7&S8)].
      + assert (calls [l] = []) as Hl by (destruct l; try done; by destruct (S4 o)). rewrite Hcalls, Hl, app_nil_r.
        split; [congruence|]. exists als, a. split; [done|]. split; [done|]. split; [congruence|]. split; [congruence|]. rewrite Hcalls, Hl, app_nil_r. split; [done|]. split; [|done].
        intros t Ht. apply elem_of_app. left. by apply H6.
      + rewrite Hcalls. split. { rewrite app_length, S6, S5, Hx. by destruct l. }
        exists (als ++ [b]), a'. split; [by eapply reach_snoc|]. split; [done|].
        assert (results (als ++ [b]) = results als ++ results [b]) as -> by apply omap_app.
        assert (entered direct (als ++ [b]) = entered direct als ++ entered direct [b]) as -> by apply omap_app.
        assert (begun (als ++ [b]) = begun als ++ begun [b]) as -> by apply omap_app.
        split; [congruence|]. split; [congruence|]. split; [|split].
        * rewrite Hcalls, S5, H5. destruct l; simpl; rewrite ?app_nil_r; try done. by rewrite imap_snoc, <-Hx.
        * intros t [Ht|Ht]%elem_of_app; [apply elem_of_app; left; by apply H6|]. apply elem_of_list_singleton in Ht. rewrite (S8 _ (eq_sym Ht)). apply elem_of_app. right. left.
        * intros Hn. apply Forall_app. split; [by apply H7|]. constructor; [|constructor]. intros Hb%S7. destruct (Hq Hn) as (Q1&Q2&_). by rewrite Q1, Q2 in Hb.
  Qed.
  Lemma refines (s0 : St) ls s : reach cstep (cond_init s0) ls s → ∃ als a, follows s0 ls s als a.
  Proof. intros H. by destruct (refines_next _ _ _ H). Qed.

  (** ** Whose turn it is *)
  Lemma find_lw_head t w ws : lw_task w = t → find_lw (Op := Op) t (w :: ws) = Some w ∧ remove_lw t (w :: ws) = ws.
  Proof. intros Hw. simpl. by rewrite !decide_True. Qed.
  Lemma wake_split ds w ws : Forall (λ d, lw_live (Op := Op) d = false) ds → lw_live w = true →
    ∃ ds' w', wake_first (ds ++ w :: ws) = ds' ++ w' :: ws ∧ Forall (λ d, lw_live d = false) ds' ∧ lw_live w' = true ∧ lw_task <$> ds' = lw_task <$> ds ∧ lw_task w' = lw_task w.
  Proof.
    intros Hd Hw. destruct ds as [|[t o m f] ds]; simpl.
    - destruct w as [t o m f]. destruct f; [exists [], (LW t o m (FResult false))|exists [], (LW t o m (FResult cancelled))|exists [], (LW t o m FCancelled)]; repeat split; try done.
    - apply Forall_cons in Hd as [Hd Hds]. destruct f as [|b|].
      + exists (LW t o m (FResult false) :: ds), w. repeat split; try done. constructor; [|done]. revert Hd. unfold lw_live. simpl. by destruct m as [|[]].
      + exists (LW t o m (FResult b) :: ds), w. repeat split; try done. by constructor.
      + exists (LW t o m FCancelled :: ds), w. repeat split; try done. by constructor.
  Qed.
  Lemma live_not_free ds w ws : lw_live (Op := Op) w = true → is_free false (ds ++ w :: ws) = false.
  Proof.
    intros Hw. unfold is_free. rewrite forallb_app. simpl. assert (is_cancelled w = false) as ->; [|by rewrite andb_false_r].
    revert Hw. unfold lw_live, is_cancelled. destruct (lw_mode w) as [|[]], (lw_fut w); done.
  Qed.
  Lemma turn_lock ds : ∀ s w ws, inv s → c_locked s = false → c_lockq s = ds ++ w :: ws → Forall (λ d, lw_live d = false) ds → lw_live w = true →
    ∃ s', reach cstep s ((λ t, KRun t) <$> (lw_task <$> ds) ++ [lw_task w]) s' ∧ c_ran s' = c_ran s ++ [lw_task w].
  Proof.
    remember (length ds) as n eqn:Hlen. revert ds Hlen. induction n as [|n IH]; intros ds Hlen s w ws Hi Hl Hq Hd Hw.
    - destruct ds; [|done]. simpl in *. pose proof (i_lock _ Hi) as [Hk _]. specialize (Hk _ _ Hq Hl).
      eexists. split.
      + apply reach_one. unfold AsyncCond_model.cstep. simpl. rewrite Hq. destruct (find_lw_head (lw_task w) w ws eq_refl) as [-> ->].
        instantiate (1 := go enter (lw_task w) (lw_op w) (set_lock (c_locked s) ws s)).
        revert Hw. unfold lw_live. destruct (lw_fut w) as [|[]|], (lw_mode w) as [|[]]; done.
      + unfold go. by rewrite after_ran.
    - destruct ds as [|d ds]; [done|]. simpl in Hlen. injection Hlen as Hlen. apply Forall_cons in Hd as [Hd Hds]. simpl in Hq.
      pose proof (i_lock _ Hi) as [Hk _]. specialize (Hk _ _ Hq Hl).
      destruct (wake_split ds w ws Hds Hw) as (ds'&w'&Hwk&Hd'&Hw'&Ht1&Ht2).
      assert (∃ s1 ws', cstep s (KRun (lw_task d)) s1 ∧ c_locked s1 = false ∧ c_lockq s1 = ds' ++ w' :: ws' ∧ c_ran s1 = c_ran s) as (s1&ws'&Hs1&Hl1&Hq1&Hr1).
      { unfold AsyncCond_model.cstep. simpl. rewrite Hq. destruct (find_lw_head (lw_task d) d (ds ++ w :: ws) eq_refl) as [-> ->]. rewrite Hl, Hwk.
        pose proof (live_not_free ds' w' ws Hw') as Hnf. unfold again. simpl. rewrite ?Hl, ?Hnf.
        revert Hd Hk. unfold lw_live. destruct (lw_fut d) as [|[]|] eqn:Ef, (lw_mode d) as [|[]] eqn:Em; try done; intros _ _; simpl;
          (eexists; first [exists ws; split; [reflexivity|]; simpl; by rewrite ?Hwk|eexists; split; [reflexivity|]; simpl; rewrite <-app_assoc; done]). }
      destruct (IH ds' ltac:(by rewrite <-(fmap_length lw_task ds'), Ht1, fmap_length) s1 w' ws') as (s'&Hs'&Hr'); try done; [by eapply step_inv|].
      exists s'. split; [|by rewrite Hr', Hr1, Ht2]. change (reach cstep s (KRun (lw_task d) :: ((λ t, KRun t) <$> (lw_task <$> ds) ++ [lw_task w])) s'). eapply reach_cons; [exact Hs1|]. by rewrite <-Ht1, <-Ht2.
  Qed.

  (** ** Nothing left to run *)
  Lemma run_lock s w ws : inv s → c_locked s = false → c_lockq s = w :: ws → ∃ s', cstep s (KRun (lw_task w)) s'.
  Proof.
    intros Hi Hl Hq. pose proof (i_lock _ Hi) as [Hk _]. specialize (Hk _ _ Hq Hl). unfold AsyncCond_model.cstep. simpl. rewrite Hq.
    destruct (find_lw_head (lw_task w) w ws eq_refl) as [-> ->]. destruct (lw_fut w) as [|[]|], (lw_mode w) as [|[]]; eauto. all: done.
  Qed.
  Lemma run_cond s w : inv s → w ∈ c_condq s → cw_fut w ≠ FPending → ∃ s', cstep s (KRun (cw_task w)) s'.
  Proof.
    intros Hi Hw Hp. pose proof (i_tasks _ Hi) as Hn. unfold AsyncCond_model.cstep. simpl.
    assert (cw_task w ∈ at_cond s) as Hin by (apply elem_of_list_fmap; eauto).
    apply NoDup_app in Hn as (_&Hn1&Hn2). apply NoDup_app in Hn2 as (Hn2&_&_).
    destruct (find_lw (cw_task w) (c_lockq s)) as [v|] eqn:Ev.
    { exfalso. apply find_lw_split in Ev as (l&k&El&_&Et). apply (Hn1 (cw_task w)); [|set_solver]. unfold at_lock. rewrite El, <-Et, fmap_app. set_solver. }
    destruct (find_cw (cw_task w) (c_condq s)) as [v|] eqn:Ev2.
    2:{ by apply find_cw_none in Ev2. }
    apply find_cw_split in Ev2 as (l&k&El&_&Et). assert (v = w) as ->.
    { unfold at_cond in Hn2. rewrite El in Hw, Hn2. rewrite fmap_app in Hn2. simpl in Hn2. rewrite Et in Hn2. apply NoDup_app in Hn2 as (_&Hx&Hy). apply NoDup_cons in Hy as [Hy _].
      apply elem_of_app in Hw as [Hw|[Hw|Hw]%elem_of_cons]; [|done|].
      - exfalso. apply (Hx (cw_task w)); [apply elem_of_list_fmap; eauto|left].
      - exfalso. apply Hy. apply elem_of_list_fmap; eauto. }
    destruct (cw_fut w); eauto. done.
  Qed.
  Lemma rest (s0 : St) ls s : reach cstep (cond_init s0) ls s → at_rest enter resume direct s → c_held s = None →
    c_lockq s = [] ∧ c_locked s = false ∧ Forall (λ w, cw_fut w = FPending) (c_condq s).
  Proof.
    intros Hi%reach_inv_c Hr Hh. assert (c_locked s = false) as Hl. { destruct (c_locked s) eqn:Ec; [|done]. by destruct (proj1 (i_held _ Hi) Ec). }
    split; [|split; [done|]].
    - destruct (c_lockq s) as [|w ws] eqn:Eq; [done|]. destruct (run_lock _ _ _ Hi Hl Eq) as [s' Hs']. by destruct (Hr _ _ Hs').
    - apply Forall_forall. intros w Hw. destruct (cw_fut w) eqn:Ef; [done|..]; destruct (run_cond s w Hi Hw ltac:(by rewrite Ef)) as [s' Hs']; by destruct (Hr _ _ Hs').
  Qed.
  (** with the lock held, those who are not in line for it either wait to be notified, or can get in line *)
  Lemma rest_held (s0 : St) ls s : reach cstep (cond_init s0) ls s → at_rest enter resume direct s → Forall (λ w, cw_fut w = FPending) (c_condq s).
  Proof.
    intros Hi%reach_inv_c Hr. apply Forall_forall. intros w Hw. destruct (cw_fut w) eqn:Ef; [done|..]; destruct (run_cond s w Hi Hw ltac:(by rewrite Ef)) as [s' Hs']; by destruct (Hr _ _ Hs').
  Qed.

  (** ** Too late to enter *)
  Definition out t a : Prop := (∀ o, (t, o) ∉ a_waiting a) ∧ (∀ o, (t, o) ∉ a_ready a) ∧ ∀ o l, a_held a ≠ Some (t, o, l).
  Lemma out_turn t u o x p n w r h : t ≠ u → (∀ o, (t, o) ∉ w) → (∀ o, (t, o) ∉ r) → (∀ o l, h ≠ Some (t, o, l)) → out t (aturn (R := R) u o x p n w r h).
  Proof.
    intros Hu Hw Hr Hh.
    assert ((∀ o, (t, o) ∉ (woken n w r).1) ∧ ∀ o, (t, o) ∉ (woken n w r).2) as [H1 H2].
    { destruct n; simpl; [done| |].
      - destruct w as [|y w]; simpl; [split; [intros ? ?%elem_of_nil; done|done]|]. split; intros o' Hin; [apply (Hw o'); by right|].
        apply elem_of_app in Hin as [?|Hin]; [by apply (Hr o')|]. apply elem_of_list_singleton in Hin as <-. apply (Hw o'). left.
      - split; [intros ? ?%elem_of_nil; done|]. intros o' [?|?]%elem_of_app; [by apply (Hr o')|by apply (Hw o')]. }
    destruct p; (split; [|split]); simpl; try done.
    - intros ? ? [= ??]. congruence.
    - intros o' [?|Hin]%elem_of_app; [by apply (H1 o')|]. apply elem_of_list_singleton in Hin. by simplify_eq.
  Qed.
  Lemma ret_out t u (p : part R L) : t ≠ u → t ∉ (ret u p).*1.
  Proof. intros Hu. destruct p; simpl; [|apply not_elem_of_nil..]. intros Hx%elem_of_list_singleton. done. Qed.
  Lemma out_step t a b a' : out t a → atrans a b a' → t ∉ (begun [b]).*1 → out t a' ∧ t ∉ entered direct [b] ∧ t ∉ (results [b]).*1.
  Proof.
    intros (H1&H2&H3) Hs Hb. destruct Hs as [a u o x p n He Hd|a u o Hd|a u o r1 r2 x p n Hh Hr He|a u o l e x p n Hh He|a u o w1 w2 Hw|a u o r1 r2 Hr]; simpl in Hb.
    - assert (t ≠ u) as Hu by (intros ->; apply Hb; left). split; [by apply out_turn|]. split; [|pose proof (ret_out t u p Hu); by destruct p].
      unfold entered. simpl. destruct (direct o); [apply not_elem_of_nil|]. intros Hx%elem_of_list_singleton. done.
    - assert (t ≠ u) by (intros ->; apply Hb; left). split; [|split; apply not_elem_of_nil]. split; [done|]. split; [|done]. simpl. intros o' [?|Hin]%elem_of_app; [by apply (H2 o')|]. apply elem_of_list_singleton in Hin. by simplify_eq.
    - assert (t ≠ u) as Hu by (intros ->; apply (H2 o); rewrite Hr; apply elem_of_app; right; left). split; [|split; [|pose proof (ret_out t u p Hu); by destruct p]].
      + apply out_turn; try done. intros o' Hin. apply (H2 o'). rewrite Hr. apply elem_of_app. apply elem_of_app in Hin as [?|?]; [by left|right; by right].
      + intros Hx%elem_of_list_singleton. done.
    - assert (t ≠ u) as Hu by (intros ->; by apply (H3 o l)). split; [by apply out_turn|]. split; [apply not_elem_of_nil|]. pose proof (ret_out t u p Hu); by destruct p.
    - split; [|split; apply not_elem_of_nil]. split; [|done]. simpl. intros o' Hin. apply (H1 o'). rewrite Hw. apply elem_of_app. apply elem_of_app in Hin as [?|?]; [by left|right; by right].
    - split; [|split; apply not_elem_of_nil]. split; [done|]. split; [|done]. simpl. intros o' Hin. apply (H2 o'). rewrite Hr. apply elem_of_app. apply elem_of_app in Hin as [?|?]; [by left|right; by right].
  Qed.
  Lemma tn_task t o cq : (t, o) ∈ tn (Op := Op) cq → ∃ w, w ∈ cq ∧ cw_task w = t ∧ cw_fut w = FPending.
  Proof. unfold tn. rewrite elem_of_list_omap. intros (w&Hw&He). destruct (cw_fut w) eqn:Ef; simplify_eq. eauto. Qed.
  Lemma nf_task t o cq : (t, o) ∈ nf (Op := Op) cq → ∃ w, w ∈ cq ∧ cw_task w = t ∧ cw_fut w = FResult false.
  Proof. unfold nf. rewrite elem_of_list_omap. intros (w&Hw&He). destruct (cw_fut w) as [|[]|] eqn:Ef; simplify_eq. eauto. Qed.
  Lemma ak_task t o lq : (t, o) ∈ ak (Op := Op) lq → ∃ w, w ∈ lq ∧ lw_task w = t ∧ lw_live w = true.
  Proof. unfold ak. rewrite elem_of_list_omap. intros (w&Hw&He). destruct (lw_live w) eqn:Ef; simplify_eq. eauto. Qed.
  Lemma cancel_out s t s' a : inv s → cstep s (KCancel t) s' → agrees s' a → out t a ∧ t < c_next s.
  Proof.
    intros Hi Hs (H1&H2&H3&H4)%agrees_iff. pose proof (i_tasks _ Hi) as Hn. pose proof (i_next _ Hi) as Hx. unfold AsyncCond_model.cstep in Hs. simpl in Hs.
    assert (∀ o l, c_held s = Some (t, o, l) → t ∈ inside s) as Hins by (intros o l Ho; unfold inside; rewrite Ho; left).
    destruct (find_lw t (c_lockq s)) as [w|] eqn:Ew; simplify_eq.
    - apply find_lw_split in Ew as (l&k&El&_&Et). assert (t ∈ at_lock s) as Ht by (unfold at_lock; rewrite El, <-Et, fmap_app; set_solver).
      apply NoDup_app in Hn as (_&Hn&_). specialize (Hn _ Ht). rewrite not_elem_of_app in Hn. destruct Hn as [Hn1 Hn2].
      split; [|apply Hx; apply elem_of_app; by left]. simpl in *. split; [|split].
      + intros o Ho. rewrite H2 in Ho. apply tn_task in Ho as (v&Hv&Hvt&_). apply Hn1. rewrite <-Hvt. apply elem_of_list_fmap. eauto.
      + intros o Ho. rewrite H3 in Ho. apply elem_of_app in Ho as [Ho|Ho].
        * apply nf_task in Ho as (v&Hv&Hvt&_). apply Hn1. rewrite <-Hvt. apply elem_of_list_fmap. eauto.
        * apply ak_task in Ho as (v&Hv&Hvt&Hvl). unfold cancel_lw in Hv. apply elem_of_list_fmap in Hv as (v0&->&Hv0). case_decide as Hd; [|done]. revert Hvl. unfold lw_live. simpl. by destruct (lw_mode v0) as [|[]], (lw_fut v0).
      + intros o l' Hh. apply Hn2. eapply Hins. by rewrite <-H4.
    - destruct (find_cw t (c_condq s)) as [w|] eqn:Ecw; simplify_eq. apply find_lw_none in Ew. apply find_cw_split in Ecw as (l&k&El&_&Et).
      assert (t ∈ at_cond s) as Ht by (unfold at_cond; rewrite El, <-Et, fmap_app; set_solver).
      apply NoDup_app in Hn as (_&_&Hn). apply NoDup_app in Hn as (_&Hn&_). specialize (Hn _ Ht).
      split; [|apply Hx; apply elem_of_app; right; apply elem_of_app; by left]. simpl in *. split; [|split].
      + intros o Ho. rewrite H2 in Ho. apply tn_task in Ho as (v&Hv&Hvt&Hvf). unfold cancel_cw in Hv. apply elem_of_list_fmap in Hv as (v0&->&Hv0). case_decide as Hd; [|done]. simpl in Hvf. by destruct (cw_fut v0).
      + intros o Ho. rewrite H3 in Ho. apply elem_of_app in Ho as [Ho|Ho].
        * apply nf_task in Ho as (v&Hv&Hvt&Hvf). unfold cancel_cw in Hv. apply elem_of_list_fmap in Hv as (v0&->&Hv0). case_decide as Hd; [|done]. simpl in Hvf. by destruct (cw_fut v0).
        * apply ak_task in Ho as (v&Hv&Hvt&_). apply Ew. rewrite <-Hvt. apply elem_of_list_fmap. eauto.
      + intros o l' Hh. apply Hn. eapply Hins. by rewrite <-H4.
  Qed.
  Lemma out_reach s a t ls s' : inv s → agrees s a → out t a → t < c_next s → reach cstep s ls s' →
    (∃ k, c_ran s' = c_ran s ++ k ∧ t ∉ k) ∧ ∃ k, c_log s' = c_log s ++ k ∧ t ∉ k.*1.
  Proof.
    intros Hi Ha Ho Hx Hr. cut (inv s' ∧ t < c_next s' ∧ (∃ a', agrees s' a' ∧ out t a') ∧ (∃ k, c_ran s' = c_ran s ++ k ∧ t ∉ k) ∧ ∃ k, c_log s' = c_log s ++ k ∧ t ∉ k.*1); [tauto|].
    apply (reach_inv cstep (λ s', inv s' ∧ t < c_next s' ∧ (∃ a', agrees s' a' ∧ out t a') ∧ (∃ k, c_ran s' = c_ran s ++ k ∧ t ∉ k) ∧ ∃ k, c_log s' = c_log s ++ k ∧ t ∉ k.*1) s ls s'); [| |exact Hr].
    - intros s1 l s2 (I1&I2&(a1&I3&I4)&(k&I5&I6)&k2&I7&I8) Hs. split; [by eapply step_inv|].
      destruct (step_sims _ _ _ _ _ _ _ I1 I3 Hs) as [(S1&S2&S3&S4&S5)|(b&a'&S1&S2&S3&S4&S5&S6&S7&S8)].
      + split; [lia|]. split; [eauto|]. split; [exists k; by rewrite S3|exists k2; by rewrite S2].
      + destruct (out_step t a1 b a' I4 S1) as (O1&O2&O3).
        { rewrite S5. destruct l; simpl; try apply not_elem_of_nil. intros Hx'%elem_of_list_singleton. lia. }
        split; [lia|]. split; [eauto|]. split.
        * exists (k ++ entered direct [b]). rewrite S4, I5, app_assoc. split; [done|]. by apply not_elem_of_app.
        * exists (k2 ++ results [b]). rewrite S3, I7, app_assoc. split; [done|]. rewrite fmap_app. by apply not_elem_of_app.
    - split; [done|]. split; [done|]. split; [eauto|]. split; exists []; (split; [by rewrite app_nil_r|apply not_elem_of_nil]).
  Qed.
  Lemma too_late (s0 : St) ls s t s1 ls' s2 : reach cstep (cond_init s0) ls s → cstep s (KCancel t) s1 → reach cstep s1 ls' s2 →
    (∃ k, c_ran s2 = c_ran s ++ k ∧ t ∉ k) ∧ ∃ k, c_log s2 = c_log s ++ k ∧ t ∉ k.*1.
  Proof.
    intros Hr Hs Hr'. pose proof (reach_inv_c _ _ _ _ _ _ Hr) as Hi.
    destruct (refines s0 (ls ++ [KCancel t]) s1) as (als&a&_&Ha&_); [by eapply reach_snoc|].
    destruct (cancel_out _ _ _ _ Hi Hs Ha) as [Ho Hx].
    assert (c_ran s1 = c_ran s ∧ c_next s1 = c_next s ∧ c_log s1 = c_log s) as (Hra&Hne&Hlo).
    { unfold AsyncCond_model.cstep in Hs. simpl in Hs. destruct (find_lw t (c_lockq s)), (find_cw t (c_condq s)); by simplify_eq. }
    rewrite <-Hra, <-Hlo. eapply out_reach; [by eapply step_inv|done|done|lia|done].
  Qed.

  (** ** Back from wait, and the lock is held *)
  Lemma stays (si : cst) t o b f ls s' : inv si → c_locked si = true → LW t o (MAgain b) f ∈ c_lockq si → reach cstep si ls s' → Forall (λ l, ∀ e, l ≠ KResume e) ls →
    c_locked s' = true ∧ ∃ b' f', LW t o (MAgain b') f' ∈ c_lockq s'.
  Proof.
    intros Hi Hl Hw Hr Hf. cut (inv s' ∧ c_locked s' = true ∧ ∃ b' f', LW t o (MAgain b') f' ∈ c_lockq s'); [tauto|]. revert Hf.
    apply (reach_trace_inv cstep (λ ls s', Forall (λ l, ∀ e, l ≠ KResume e) ls → inv s' ∧ c_locked s' = true ∧ ∃ b' f', LW t o (MAgain b') f' ∈ c_lockq s') si ls s'); [eauto 6| |exact Hr].
    clear. intros ls s l s' _ IH Hs [Hf1 Hf2%Forall_inv]%Forall_app. destruct (IH Hf1) as (Hi&Hl&b&f&Hw). split; [by eapply step_inv|]. clear IH Hf1.
    pose proof (i_lock _ Hi) as [_ Hk]. pose proof (i_tasks _ Hi) as Hn. unfold AsyncCond_model.cstep in Hs. destruct l as [o'|u|u|e]; [..|by destruct (Hf2 e)]; simpl in Hs; rewrite ?Hl in Hs.
    - destruct (direct o'); [destruct (enter (c_obj s) o') as [[x [r|l|]] []]|]; simpl in Hs; simplify_eq; simpl; (split; [done|]); exists b, f; [done|]. apply elem_of_app. by left.
    - assert (∀ u o' c s1, c_locked s1 = true → again enter u o' c s1 = set_lock true (c_lockq s1 ++ [LW u o' (MAgain c) FPending]) s1) as Hag by (intros u' o' c s1 H1; unfold again; by rewrite H1).
      destruct (find_lw u (c_lockq s)) as [w|] eqn:Ew.
      + destruct (find_lw_split _ _ _ Ew) as (l&k&El&Er&Et).
        assert (∀ c, lw_fut w ≠ FResult c) as Hnr.
        { intros c Hc. rewrite El in Hk. destruct (Hk (length l) w) as [_ ?]; [by apply list_lookup_middle|by eexists|congruence]. }
        rewrite El in Hw. rewrite Er in Hs.
        assert (LW t o (MAgain b) f ∈ l ++ k ∨ w = LW t o (MAgain b) f) as Hwc. { apply elem_of_app in Hw as [?|[?|?]%elem_of_cons]; [left; apply elem_of_app; by left|by right|left; apply elem_of_app; by right]. }
        destruct (lw_fut w) as [|c|] eqn:Ef; [done|by destruct (Hnr c)|].
        destruct (lw_mode w) as [|c] eqn:Em; rewrite ?Hag in Hs by done; simplify_eq; simpl; (split; [done|]).
        * destruct Hwc as [?|Hwc]; [by exists b, f|]. rewrite Hwc in Em. done.
        * destruct Hwc as [?|Hwc]; [exists b, f; apply elem_of_app; by left|]. exists true, FPending. rewrite Hwc. simpl. apply elem_of_app. right. left.
      + destruct (find_cw u (c_condq s)) as [w|] eqn:Ecw; [|done]. destruct (cw_fut w); rewrite ?Hag in Hs by done; simplify_eq; simpl; (split; [done|]); exists b, f; apply elem_of_app; by left.
    - destruct (find_lw u (c_lockq s)) as [w|] eqn:Ew.
      + simplify_eq. simpl. split; [done|]. destruct (decide (t = u)) as [<-|Hu].
        * exists b, (cancel_fut f). unfold cancel_lw. apply elem_of_list_fmap. exists (LW t o (MAgain b) f). simpl. by rewrite decide_True.
        * exists b, f. unfold cancel_lw. apply elem_of_list_fmap. exists (LW t o (MAgain b) f). simpl. by rewrite decide_False.
      + destruct (find_cw u (c_condq s)) as [w|] eqn:Ecw; simplify_eq. simpl. split; [done|]. by exists b, f.
  Qed.
End cond.
