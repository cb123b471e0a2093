(** Proofs about objects under a condition. *)
From Verif Require Import Base WorkQueue_model AsyncCond_model AsyncCond_spec.

Section cond.
  Context {St Op R L E : Type}.
  Context (enter : St → Op → St * part R L * notif) (resume : St → L → E → St * part R L * notif) (direct : Op → bool).
  Notation cst := (cst St Op R L).
  Notation lwaiter := (lwaiter Op).
  Notation cwaiter := (cwaiter Op).
  Notation cstep := (cstep enter resume direct).
  Notation atrans := (atrans enter resume direct).
  Notation ast := (ast St Op L).
  Implicit Types (s : cst) (lq : list lwaiter) (cq : list cwaiter) (a : ast).

  Definition tn cq : list (nat * Op) := omap (λ w, match cw_fut w with FPending => Some (cw_task w, cw_op w) | _ => None end) cq.
  Definition nf cq : list (nat * Op) := omap (λ w, match cw_fut w with FResult false => Some (cw_task w, cw_op w) | _ => None end) cq.
  Definition ak lq : list (nat * Op) := omap (λ w, if lw_live w then Some (lw_task w, lw_op w) else None) lq.
  Lemma tn_app cq cq' : tn (cq ++ cq') = tn cq ++ tn cq'.
  Proof. apply omap_app. Qed.
  Lemma nf_app cq cq' : nf (cq ++ cq') = nf cq ++ nf cq'.
  Proof. apply omap_app. Qed.
  Lemma ak_app lq lq' : ak (lq ++ lq') = ak lq ++ ak lq'.
  Proof. apply omap_app. Qed.
  Lemma tn_cons w cq : tn (w :: cq) = (match cw_fut w with FPending => [(cw_task w, cw_op w)] | _ => [] end) ++ tn cq.
  Proof. unfold tn. simpl. by destruct (cw_fut w). Qed.
  Lemma nf_cons w cq : nf (w :: cq) = (match cw_fut w with FResult false => [(cw_task w, cw_op w)] | _ => [] end) ++ nf cq.
  Proof. unfold nf. simpl. by destruct (cw_fut w) as [|[]|]. Qed.
  Lemma ak_cons w lq : ak (w :: lq) = (if lw_live w then [(lw_task w, lw_op w)] else []) ++ ak lq.
  Proof. unfold ak. simpl. by destruct (lw_live w). Qed.
  Lemma ak_wake lq : ak (wake_first lq) = ak lq.
  Proof. by destruct lq as [|[t o [|[]] []] lq]. Qed.
  Lemma ak_cancelled lq : forallb is_cancelled lq = true → ak lq = [].
  Proof.
    induction lq as [|[t o m f] lq IH]; [done|]. simpl. intros [H1 H2]%andb_prop. unfold is_cancelled in H1. simpl in H1. destruct f; try done.
    unfold ak, lw_live in *. simpl. by destruct m as [|[]]; apply IH.
  Qed.
  Lemma notify_tn n cq r : tn (notify n cq) = (woken n (tn cq) r).1.
  Proof.
    destruct n; simpl; [done| |].
    - induction cq as [|[t o f] cq IH]; [done|]. destruct f as [|b|]; simpl.
      + done.
      + unfold tn in *. simpl. by rewrite IH.
      + unfold tn in *. simpl. by rewrite IH.
    - induction cq as [|[t o f] cq IH]; [done|]. by destruct f.
  Qed.
  Lemma notify_nf n cq r k : r ≡ₚ nf cq ++ k → (woken n (tn cq) r).2 ≡ₚ nf (notify n cq) ++ k.
  Proof.
    intros Hr. destruct n; simpl; [done| |].
    - assert (nf (notify_one cq) ≡ₚ nf cq ++ take 1 (tn cq)) as Hn.
      { clear Hr. induction cq as [|[t o f] cq IH]; [done|]. destruct f as [|b|]; simpl.
        - unfold nf, tn. simpl. rewrite take_0. solve_Permutation.
        - unfold nf, tn in *. simpl. destruct b; [done|]. simpl. by rewrite IH.
        - unfold nf, tn in *. simpl. done. }
      rewrite Hn. destruct (tn cq) as [|x l]; simpl.
      + by rewrite app_nil_r.
      + rewrite take_0, Hr. solve_Permutation.
    - assert (nf (notify_every cq) ≡ₚ nf cq ++ tn cq) as Hn.
      { clear Hr. induction cq as [|[t o f] cq IH]; [done|]. destruct f as [|b|]; unfold nf, tn in *; simpl.
        - rewrite IH. solve_Permutation.
        - destruct b; [done|]. simpl. by rewrite IH.
        - done. }
      rewrite Hn, Hr. solve_Permutation.
  Qed.
  Lemma notify_tasks n cq : cw_task <$> notify n cq = cw_task <$> cq.
  Proof.
    destruct n; simpl; [done| |].
    - induction cq as [|[t o f] cq IH]; [done|]. destruct f; [done|..]; (change (t :: (cw_task <$> notify_one cq) = t :: (cw_task <$> cq)); by rewrite IH).
    - unfold notify_every. rewrite <-list_fmap_compose. apply list_fmap_ext. intros i [t o []] _; done.
  Qed.
  Lemma wake_tasks lq : lw_task <$> wake_first lq = lw_task <$> lq.
  Proof. by destruct lq as [|[t o m []] lq]. Qed.
  Lemma wake_done lq w lq' : wake_first lq = w :: lq' → lw_fut w ≠ FPending.
  Proof. destruct lq as [|[t o m []] lq]; simpl; intros; by simplify_eq. Qed.
  Lemma wake_later lq i w : wake_first lq !! S i = Some w → lq !! S i = Some w.
  Proof. by destruct lq as [|[t o m []] lq]. Qed.
  Lemma find_lw_split t lq w : find_lw t lq = Some w → ∃ l k, lq = l ++ w :: k ∧ remove_lw t lq = l ++ k ∧ lw_task w = t.
  Proof.
    induction lq as [|v lq IH]; simpl; [done|]. case_decide as Hd.
    - intros [= <-]. by exists [], lq.
    - intros (l&k&->&->&?)%IH. by exists (v :: l), k.
  Qed.
  Lemma find_cw_split t cq w : find_cw t cq = Some w → ∃ l k, cq = l ++ w :: k ∧ remove_cw t cq = l ++ k ∧ cw_task w = t.
  Proof.
    induction cq as [|v cq IH]; simpl; [done|]. case_decide as Hd.
    - intros [= <-]. by exists [], cq.
    - intros (l&k&->&->&?)%IH. by exists (v :: l), k.
  Qed.
  Lemma find_lw_none t lq : find_lw t lq = None ↔ t ∉ lw_task <$> lq.
  Proof.
    induction lq as [|v lq IH]; simpl; [split; [intros _; apply not_elem_of_nil|done]|]. rewrite not_elem_of_cons. case_decide as Hd.
    - split; [done|]. intros [H _]. by destruct H.
    - rewrite IH. naive_solver.
  Qed.
  Lemma find_cw_none t cq : find_cw t cq = None ↔ t ∉ cw_task <$> cq.
  Proof.
    induction cq as [|v cq IH]; simpl; [split; [intros _; apply not_elem_of_nil|done]|]. rewrite not_elem_of_cons. case_decide as Hd.
    - split; [done|]. intros [H _]. by destruct H.
    - rewrite IH. naive_solver.
  Qed.
  Lemma cancel_lw_split (l : list lwaiter) w k : NoDup (lw_task <$> l ++ w :: k) →
    cancel_lw (lw_task w) (l ++ w :: k) = l ++ LW (lw_task w) (lw_op w) (lw_mode w) (cancel_fut (lw_fut w)) :: k.
  Proof.
    intros Hn. rewrite fmap_app in Hn. simpl in Hn. apply NoDup_app in Hn as (_&H1&H2). apply NoDup_cons in H2 as [H2 _].
    unfold cancel_lw. rewrite fmap_app. simpl. rewrite decide_True by done. f_equal; [|f_equal].
    - rewrite <-(list_fmap_id l) at 2. apply list_fmap_ext. intros i v Hv. rewrite decide_False; [done|]. intros He.
      apply (H1 (lw_task v)); [apply elem_of_list_fmap; exists v; split; [done|]; by eapply elem_of_list_lookup_2|]. rewrite He. left.
    - rewrite <-(list_fmap_id k) at 2. apply list_fmap_ext. intros i v Hv. rewrite decide_False; [done|]. intros He.
      apply H2. rewrite <-He. apply elem_of_list_fmap; exists v; split; [done|]; by eapply elem_of_list_lookup_2.
  Qed.
  Lemma cancel_cw_split (l : list cwaiter) w k : NoDup (cw_task <$> l ++ w :: k) →
    cancel_cw (cw_task w) (l ++ w :: k) = l ++ CW (cw_task w) (cw_op w) (cancel_fut (cw_fut w)) :: k.
  Proof.
    intros Hn. rewrite fmap_app in Hn. simpl in Hn. apply NoDup_app in Hn as (_&H1&H2). apply NoDup_cons in H2 as [H2 _].
    unfold cancel_cw. rewrite fmap_app. simpl. rewrite decide_True by done. f_equal; [|f_equal].
    - rewrite <-(list_fmap_id l) at 2. apply list_fmap_ext. intros i v Hv. rewrite decide_False; [done|]. intros He.
      apply (H1 (cw_task v)); [apply elem_of_list_fmap; exists v; split; [done|]; by eapply elem_of_list_lookup_2|]. rewrite He. left.
    - rewrite <-(list_fmap_id k) at 2. apply list_fmap_ext. intros i v Hv. rewrite decide_False; [done|]. intros He.
      apply H2. rewrite <-He. apply elem_of_list_fmap; exists v; split; [done|]; by eapply elem_of_list_lookup_2.
  Qed.
  Lemma cancel_lw_tasks t lq : lw_task <$> cancel_lw t lq = lw_task <$> lq.
  Proof. unfold cancel_lw. rewrite <-list_fmap_compose. apply list_fmap_ext. intros i w _. simpl. by case_decide. Qed.
  Lemma cancel_cw_tasks t cq : cw_task <$> cancel_cw t cq = cw_task <$> cq.
  Proof. unfold cancel_cw. rewrite <-list_fmap_compose. apply list_fmap_ext. intros i w _. simpl. by case_decide. Qed.

  Definition is_result (w : lwaiter) : Prop := ∃ b, lw_fut w = FResult b.
  (** the lock and its waiters *)
  Definition lock_ok (locked : bool) lq : Prop :=
    (∀ w lq', lq = w :: lq' → locked = false → lw_fut w ≠ FPending) ∧ (∀ i w, lq !! i = Some w → is_result w → i = 0 ∧ locked = false).
  Record inv s : Prop := {
    i_lock : lock_ok (c_locked s) (c_lockq s);
    i_held : c_locked s = true ↔ c_held s ≠ None;
    i_tasks : NoDup (at_lock s ++ at_cond s ++ inside s);
    i_next : ∀ t, t ∈ at_lock s ++ at_cond s ++ inside s → t < c_next s
  }.
  Definition no_results lq : Prop := ∀ i w, lq !! i = Some w → ¬ is_result w.

  Lemma lock_wake lq : no_results lq → lock_ok false (wake_first lq).
  Proof. intros Hr. split; [intros w lq' H _; by eapply wake_done|]. intros [|i] w H1 H2; [done|]. apply wake_later in H1. by destruct (Hr _ _ H1). Qed.
  Lemma lock_taken lq : no_results lq → lock_ok true lq.
  Proof. intros Hr. split; [done|]. intros i w H1 H2. by destruct (Hr _ _ H1). Qed.
  Lemma free_results locked lq : is_free locked lq = true → locked = false ∧ no_results lq ∧ ak lq = [].
  Proof.
    unfold is_free. intros [H1%negb_true_iff H2]%andb_prop. split; [done|]. split; [|by apply ak_cancelled].
    intros i w Hw [b Hb]. rewrite forallb_forall in H2. specialize (H2 w). rewrite <-elem_of_list_In in H2. specialize (H2 (elem_of_list_lookup_2 _ _ _ Hw)).
    unfold is_cancelled in H2. by rewrite Hb in H2.
  Qed.
  Lemma lock_append locked lq t o m : lock_ok locked lq → is_free locked lq = false → lock_ok locked (lq ++ [LW t o m FPending]).
  Proof.
    intros [H1 H2] Hf. split.
    - intros w lq' H Hl. subst locked. destruct lq as [|w0 lq0]; [done|]. simpl in H. injection H as <- <-. by eapply H1.
    - intros i w Hw Hr. apply lookup_app_Some in Hw as [Hw|[_ Hw]]; [by eapply H2|]. apply list_lookup_singleton_Some in Hw as [_ <-]. destruct Hr as [b Hb]. done.
  Qed.
  (** the first waiter leaves, the lock being its *)
  Lemma lock_first l w k : lock_ok false (l ++ w :: k) → is_result w → l = [] ∧ no_results k.
  Proof.
    intros [H1 H2] Hr. destruct (H2 (length l) w) as [Hl _]; [by apply list_lookup_middle|done|]. destruct l; [|done]. split; [done|].
    intros i v Hv Hr'. by destruct (H2 (S i) v Hv Hr').
  Qed.
  Lemma lock_result locked l w k : lock_ok locked (l ++ w :: k) → is_result w → locked = false.
  Proof. intros [_ H2] Hr. destruct (H2 (length l) w) as [_ Hl]; [by apply list_lookup_middle|done|done]. Qed.
  (** a waiter leaves that was cancelled *)
  Lemma lock_quit locked l w k : lock_ok locked (l ++ w :: k) → lw_fut w ≠ FPending → lock_ok locked (if locked then l ++ k else wake_first (l ++ k)).
  Proof.
    intros [H1 H2] Hw. destruct locked.
    - split; [done|]. intros i v Hv Hr. exfalso. apply lookup_app_Some in Hv as [Hv|[Hv1 Hv2]].
      + destruct (H2 i v) as [_ ?]; [by apply lookup_app_l_Some|done|done].
      + destruct (H2 (S i) v) as [_ ?]; [|done|done]. rewrite lookup_app_r by lia. replace (S i - length l) with (S (i - length l)) by lia. done.
    - split; [intros v lq' H _; by eapply wake_done|]. intros [|i] v Hv Hr; [done|]. apply wake_later in Hv. exfalso.
      apply lookup_app_Some in Hv as [Hv|[Hv1 Hv2]].
      + destruct (H2 (S i) v) as [? _]; [by apply lookup_app_l_Some|done|done].
      + destruct (H2 (S (S i)) v) as [? _]; [|done|done]. rewrite lookup_app_r by lia. replace (S (S i) - length l) with (S (S i - length l)) by lia. done.
  Qed.
  Lemma lock_cancel locked t lq : lock_ok locked lq → lock_ok locked (cancel_lw t lq).
  Proof.
    intros [H1 H2]. unfold cancel_lw. split.
    - intros w lq' H Hl. destruct lq as [|w0 lq0]; simpl in *; simplify_eq. case_decide; [|by eapply H1]. simpl. specialize (H1 _ _ eq_refl eq_refl). by destruct (lw_fut w0).
    - intros i w Hw [b Hb]. rewrite list_lookup_fmap in Hw. destruct (lq !! i) as [v|] eqn:Ev; [|done]. simpl in Hw. simplify_eq. apply (H2 _ _ Ev).
      case_decide; simpl in Hb; [|by exists b]. destruct (lw_fut v) eqn:Ef; try done. by eexists.
  Qed.

  (** the tasks of a state, without their places *)
  Definition tasks s : list nat := at_lock s ++ at_cond s ++ inside s.
  Lemma init_inv (s0 : St) : inv (cond_init s0).
  Proof. split; simpl; [split; [done|by intros i w H]|split; [done|by intros []]|apply NoDup_nil_2|intros t H; by apply elem_of_nil in H]. Qed.

  (** the end of a part of the section of t, the lock being taken and nobody else inside *)
  Lemma after_inv t o y s : no_results (c_lockq s) → NoDup (t :: at_lock s ++ at_cond s) → (∀ u, u ∈ t :: at_lock s ++ at_cond s → u < c_next s) → inv (after t o y s).
  Proof.
    intros Hr Hn Hx. destruct y as [[x p] n]. unfold after. destruct p as [r|l|]; split; simpl; try done; unfold at_lock, at_cond, inside in *; simpl.
    - by apply lock_wake.
    - rewrite wake_tasks, notify_tasks, app_nil_r. by apply NoDup_cons in Hn as [_ Hn].
    - rewrite wake_tasks, notify_tasks, app_nil_r. intros u Hu. apply Hx. by right.
    - by apply lock_taken.
    - rewrite notify_tasks. eapply NoDup_Permutation_proper; [|exact Hn]. solve_Permutation.
    - rewrite notify_tasks. intros u Hu. apply Hx. set_solver.
    - by apply lock_wake.
    - rewrite wake_tasks, fmap_app, notify_tasks, app_nil_r. eapply NoDup_Permutation_proper; [|exact Hn]. simpl. solve_Permutation.
    - rewrite wake_tasks, fmap_app, notify_tasks, app_nil_r. intros u Hu. apply Hx. set_solver.
  Qed.
  Lemma leave_inv t s : no_results (c_lockq s) → NoDup (at_lock s ++ at_cond s) → (∀ u, u ∈ at_lock s ++ at_cond s → u < c_next s) → inv (leave t s).
  Proof.
    intros Hr Hn Hx. split; simpl; try done; unfold at_lock, at_cond, inside in *; simpl.
    - by apply lock_wake.
    - by rewrite wake_tasks, app_nil_r.
    - by rewrite wake_tasks, app_nil_r.
  Qed.
  Lemma again_inv t o b s : lock_ok (c_locked s) (c_lockq s) → (c_locked s = true ↔ c_held s ≠ None) →
    NoDup (t :: tasks s) → (∀ u, u ∈ t :: tasks s → u < c_next s) → inv (again enter t o b s).
  Proof.
    intros Hl Hh Hn Hx. unfold again. destruct (is_free (c_locked s) (c_lockq s)) eqn:Ef.
    - apply free_results in Ef as (Hf & Hr & _).
      assert (c_held s = None) as Hd. { destruct (c_held s) eqn:Ed; [|done]. assert (c_locked s = true) by (by apply Hh). congruence. }
      unfold tasks, inside in *. rewrite Hd, app_nil_r in *. destruct b.
      + apply leave_inv; [done|by apply NoDup_cons in Hn as [_ Hn]|]. intros u Hu. apply Hx. by right.
      + unfold go. apply after_inv; done.
    - split; simpl; [by apply lock_append|done| |]; unfold tasks, at_lock, at_cond, inside in *; simpl; rewrite fmap_app; simpl.
      + eapply NoDup_Permutation_proper; [|exact Hn]. solve_Permutation.
      + intros u Hu. apply Hx. set_solver.
  Qed.

  Lemma step_inv s l s' : inv s → cstep s l s' → inv s'.
  Proof.
    intros Hi Hs. pose proof Hi as [H1 H2 H3 H4]. unfold AsyncCond_model.cstep in Hs. destruct l as [o|t|t|e]; simpl in Hs.
    - destruct (direct o).
      { destruct (enter (c_obj s) o) as [[x [r|l|]] []]; simplify_eq. split; simpl; try done. intros t Ht. apply H4 in Ht. lia. }
      destruct (is_free (c_locked s) (c_lockq s)) eqn:Ef; simplify_eq.
      + apply free_results in Ef as (Hf & Hr & _).
        assert (c_held s = None) as Hd. { destruct (c_held s) eqn:Ed; [|done]. assert (c_locked s = true) by (by apply H2). congruence. }
        unfold inside in *. rewrite Hd, app_nil_r in *. unfold go. apply after_inv; simpl; [done| |].
        * apply NoDup_cons. split; [|done]. intros Hu%H4. lia.
        * intros u [->|Hu]%elem_of_cons; [lia|]. apply H4 in Hu. lia.
      + split; simpl; [by apply lock_append|done| |]; unfold at_lock, at_cond, inside in *; simpl; rewrite fmap_app; simpl.
        * eapply (NoDup_Permutation_proper _ (c_next s :: _)); [|apply NoDup_cons; split; [|exact H3]]; [solve_Permutation|]. intros Hu%H4. lia.
        * intros u Hu. assert (u = c_next s ∨ u < c_next s) by (rewrite !elem_of_app in Hu; rewrite elem_of_list_singleton in Hu; specialize (H4 u); rewrite !elem_of_app in H4; tauto). lia.
    - destruct (find_lw t (c_lockq s)) as [w|] eqn:Ew.
      + destruct (find_lw_split _ _ _ Ew) as (l&k&El&Er&Et).
        assert (NoDup (t :: (lw_task <$> l ++ k) ++ at_cond s ++ inside s) ∧ ∀ u, u ∈ t :: (lw_task <$> l ++ k) ++ at_cond s ++ inside s → u < c_next s) as (Hn&Hx).
        { unfold at_lock in *. rewrite El, fmap_app in H3, H4. simpl in H3, H4. rewrite Et in H3, H4.
          assert (NoDup (t :: (lw_task <$> l ++ k) ++ at_cond s ++ inside s)) as Hn by (eapply NoDup_Permutation_proper; [|exact H3]; rewrite fmap_app; solve_Permutation).
          split; [done|]. intros u Hu. apply H4. rewrite fmap_app in Hu. set_solver. }
        assert (lw_fut w ≠ FPending → inv (again enter t (lw_op w) true (if c_locked s then set_lock (c_locked s) (remove_lw t (c_lockq s)) s else set_lock (c_locked s) (wake_first (remove_lw t (c_lockq s))) s)) ∧
                 inv (quits t (if c_locked s then set_lock (c_locked s) (remove_lw t (c_lockq s)) s else set_lock (c_locked s) (wake_first (remove_lw t (c_lockq s))) s))) as Hq.
        { intros Hp. rewrite Er. rewrite El in H1. pose proof (lock_quit _ _ _ _ H1 Hp) as Hk.
          assert (∀ s2, s2 = (if c_locked s then set_lock (c_locked s) (l ++ k) s else set_lock (c_locked s) (wake_first (l ++ k)) s) →
            c_locked s2 = c_locked s ∧ c_lockq s2 = (if c_locked s then l ++ k else wake_first (l ++ k)) ∧ c_held s2 = c_held s ∧ tasks s2 = (lw_task <$> l ++ k) ++ at_cond s ++ inside s ∧ c_next s2 = c_next s) as Hs2.
          { intros s2 ->. destruct (c_locked s) eqn:Ec; simpl; repeat split; try done; unfold tasks, at_lock; simpl; by rewrite wake_tasks. }
          destruct (Hs2 _ eq_refl) as (E1&E2&E3&E4&E5). split.
          - apply again_inv; [by rewrite E1, E2|by rewrite E1, E3|by rewrite E4|by rewrite E4, E5].
          - revert E1 E2 E3 E4 E5. generalize (if c_locked s then set_lock (c_locked s) (l ++ k) s else set_lock (c_locked s) (wake_first (l ++ k)) s). intros s2 E1 E2 E3 E4 E5. clear Hs2.
            split; simpl; [by rewrite E1, E2|by rewrite E1, E3| |].
            + change (NoDup (tasks s2)). rewrite E4. by apply NoDup_cons in Hn as [_ Hn].
            + change (∀ u, u ∈ tasks s2 → u < c_next s2). rewrite E4, E5. intros u Hu. apply Hx. by right. }
        assert (∀ b, lw_fut w = FResult b → c_locked s = false ∧ c_held s = None ∧ l = [] ∧ no_results k) as Hres.
        { intros b Hb. assert (is_result w) as Hw by (by eexists). rewrite El in H1. pose proof (lock_result _ _ _ _ H1 Hw) as Hf. split; [done|]. split.
          - destruct (c_held s) eqn:Ed; [|done]. assert (c_locked s = true) by (by apply H2). congruence.
          - rewrite Hf in H1. by apply (lock_first l w k). }
        destruct (lw_fut w) as [|[]|] eqn:Ef, (lw_mode w) as [|b'] eqn:Em; try done.
        * simplify_eq. by apply Hq.
        * simplify_eq. by apply Hq.
        * simplify_eq. destruct (Hres false eq_refl) as (Hf&Hd&->&Hr). unfold inside in *. rewrite Hd, app_nil_r in *. simpl in *. unfold go. apply after_inv; simpl; unfold at_lock, at_cond in *; simpl; rewrite Er; done.
        * destruct (Hres false eq_refl) as (Hf&Hd&->&Hr). unfold inside in *. rewrite Hd, app_nil_r in *. simpl in *. destruct b'; injection Hs as <-.
          -- apply leave_inv; simpl; unfold at_lock, at_cond in *; simpl; rewrite Er; [done|by apply NoDup_cons in Hn as [_ Hn]|intros u Hu; apply Hx; by right].
          -- unfold go. apply after_inv; simpl; unfold at_lock, at_cond in *; simpl; rewrite Er; done.
        * simplify_eq. by apply Hq.
        * simplify_eq. by apply Hq.
      + destruct (find_cw t (c_condq s)) as [w|] eqn:Ecw; [|done]. destruct (find_cw_split _ _ _ Ecw) as (l&k&El&Er&Et).
        assert (∀ b, inv (again enter t (cw_op w) b (set_cond (remove_cw t (c_condq s)) s))) as Hq.
        { intros b. rewrite Er. unfold at_cond in *. rewrite El, fmap_app in H3, H4. simpl in H3, H4. rewrite Et in H3, H4.
          apply again_inv; simpl; [done|done| |]; unfold tasks, at_lock, at_cond, inside in *; simpl; rewrite fmap_app.
          - eapply NoDup_Permutation_proper; [|exact H3]. solve_Permutation.
          - intros u Hu. apply H4. set_solver. }
        destruct (cw_fut w); simplify_eq; apply Hq.
    - destruct (find_lw t (c_lockq s)) as [w|] eqn:Ew; simplify_eq.
      + split; simpl; [by apply lock_cancel|done| |]; unfold at_lock in *; simpl; by rewrite cancel_lw_tasks.
      + destruct (find_cw t (c_condq s)) as [w|] eqn:Ecw; simplify_eq. split; simpl; [done|done| |]; unfold at_cond in *; simpl; by rewrite cancel_cw_tasks.
    - destruct (c_held s) as [[[t o] l]|] eqn:Ed; simplify_eq. simpl in Hs. simplify_eq. unfold inside in *. rewrite Ed in *.
      assert (c_locked s = true) as Hl by (by apply H2). apply after_inv.
      + intros i w Hw Hr. destruct H1 as [_ H1]. destruct (H1 _ _ Hw Hr). congruence.
      + eapply NoDup_Permutation_proper; [|exact H3]. solve_Permutation.
      + intros u Hu. apply H4. set_solver.
  Qed.
  Lemma reach_inv_c (s0 : St) ls s : reach cstep (cond_init s0) ls s → inv s.
  Proof. intros H. eapply (reach_inv cstep inv); [|apply init_inv|exact H]. intros. by eapply step_inv. Qed.

  (** ** The ideal machine does the same *)
  Definition ret (t : nat) (p : part R L) : list (nat * R) := match p with PReturn r => [(t, r)] | _ => [] end.
  Lemma agrees_iff s a : agrees s a ↔ a_obj a = c_obj s ∧ a_waiting a = tn (c_condq s) ∧ a_ready a ≡ₚ nf (c_condq s) ++ ak (c_lockq s) ∧ a_held a = c_held s.
  Proof. done. Qed.
  Lemma agrees_after t o x p n s w r : w = tn (c_condq s) → r ≡ₚ nf (c_condq s) ++ ak (c_lockq s) → agrees (after t o (x, p, n) s) (aturn t o x p n w r None).
  Proof.
    intros -> Hr. apply agrees_iff. pose proof (notify_nf n _ _ _ Hr) as Hn. pose proof (notify_tn n (c_condq s) r) as Ht. destruct p; simpl; repeat split; try done.
    - by rewrite ak_wake.
    - by rewrite tn_app, Ht.
    - by rewrite nf_app, app_nil_r, ak_wake.
  Qed.
  Lemma after_log t o x p n s : c_log (after t o (x, p, n) s) = c_log s ++ ret t p.
  Proof. destruct p; simpl; by rewrite ?app_nil_r. Qed.
  Lemma after_ran t o y s : c_ran (after t o y s) = c_ran s.
  Proof. by destruct y as [[x []] n]. Qed.
  Lemma after_next t o y s : c_next (after t o y s) = c_next s.
  Proof. by destruct y as [[x []] n]. Qed.
  Lemma agrees_leave t s a : agrees s a → c_held s = None → agrees (leave t s) a.
  Proof. intros (H1&H2&H3&H4)%agrees_iff Hh. apply agrees_iff. simpl. rewrite ak_wake. by rewrite <-Hh. Qed.

  (** one step: nothing, or one step of the ideal machine *)
  Definition sims s (l : clabel Op E) s' a : Prop :=
    (agrees s' a ∧ c_log s' = c_log s ∧ c_ran s' = c_ran s ∧ (∀ o, l ≠ KCall o) ∧ c_next s' = c_next s) ∨
    ∃ b a', atrans a b a' ∧ agrees s' a' ∧ c_log s' = c_log s ++ results [b] ∧ c_ran s' = c_ran s ++ entered direct [b] ∧
      begun [b] = match l with KCall o => [(c_next s, o)] | _ => [] end ∧ c_next s' = c_next s + length (begun [b]) ∧
      (queues b → is_free (c_locked s) (c_lockq s) = false) ∧ (∀ t, b = ACancel t → l = KCancel t).

  Lemma perm_split {X} (x : X) (l k : list X) : l ≡ₚ x :: k → ∃ l1 l2, l = l1 ++ x :: l2 ∧ l1 ++ l2 ≡ₚ k.
  Proof.
    intros H. destruct (elem_of_list_split l x) as (l1&l2&->); [rewrite H; left|]. exists l1, l2. split; [done|].
    apply (Permutation_cons_inv (a := x)). rewrite <-H. solve_Permutation.
  Qed.
  (** a task whose turn it is enters *)
  Lemma go_sims t o s s1 a (l : clabel Op E) : agrees s a → c_held s = None → c_obj s1 = c_obj s → c_log s1 = c_log s → c_next s1 = c_next s →
    tn (c_condq s1) = tn (c_condq s) → nf (c_condq s) ++ ak (c_lockq s) ≡ₚ (t, o) :: nf (c_condq s1) ++ ak (c_lockq s1) →
    c_ran s1 = c_ran s → (∀ o, l ≠ KCall o) → sims s l (go enter t o s1) a.
  Proof.
    intros (H1&H2&H3&H4)%agrees_iff Hh Ho Hl Hx Ht Hp Hra Hk. right. rewrite Hp in H3. apply perm_split in H3 as (r1&r2&Hr&Hr').
    unfold go. rewrite Ho. destruct (enter (c_obj s) o) as [[x p] n] eqn:Ee. eexists (AGo t o p), _. split; [|split; [|split; [|split; [|split; [|split; [|split]]]]]].
    - eapply at_go; [by rewrite H4|exact Hr|by rewrite H1].
    - rewrite H4, Hh. apply agrees_after; simpl; [by rewrite H2, Ht|done].
    - rewrite after_log. simpl. rewrite Hl. by destruct p.
    - rewrite after_ran. simpl. by rewrite Hra.
    - destruct l; try done. by destruct (Hk o0).
    - rewrite after_next. simpl. rewrite Hx. lia.
    - by intros (?&?&?).
    - done.
  Qed.
  Lemma again_sims t o (b : bool) s s1 a l : agrees s a → (c_locked s = true ↔ c_held s ≠ None) → c_obj s1 = c_obj s → c_log s1 = c_log s → c_next s1 = c_next s → c_held s1 = c_held s → c_locked s1 = c_locked s →
    tn (c_condq s1) = tn (c_condq s) → nf (c_condq s) ++ ak (c_lockq s) ≡ₚ (if b then [] else [(t, o)]) ++ nf (c_condq s1) ++ ak (c_lockq s1) →
    c_ran s1 = c_ran s → (∀ o, l ≠ KCall o) → sims s l (again enter t o b s1) a.
  Proof.
    intros Ha Hi Ho Hl Hx Hd Hk Ht Hp Hra Hc. unfold again. destruct (is_free (c_locked s1) (c_lockq s1)) eqn:Ef.
    - apply free_results in Ef as (Hf&_&_). rewrite Hk in Hf.
      assert (c_held s = None) as Hn. { destruct (c_held s) eqn:Ed; [|done]. assert (c_locked s = true) by (by apply Hi). congruence. }
      destruct b; [|by eapply go_sims]. left. split; [|by rewrite <-Hl, <-Hx, <-Hra]. apply agrees_leave; [|congruence].
      apply agrees_iff in Ha as (H1&H2&H3&H4). apply agrees_iff. rewrite Ho, Ht, Hd. split; [done|]. split; [done|]. split; [|done]. by rewrite H3, Hp.
    - left. split; [|by rewrite <-Hl, <-Hx, <-Hra]. apply agrees_iff in Ha as (H1&H2&H3&H4). apply agrees_iff. simpl. rewrite Ho, Ht, Hd. split; [done|]. split; [done|]. split; [|done].
      rewrite H3, Hp, ak_app. destruct b; [by rewrite app_nil_r|]. change (ak [LW t o (MAgain false) FPending]) with [(t, o)]. solve_Permutation.
  Qed.

  Lemma step_sims s l s' a : inv s → agrees s a → cstep s l s' → sims s l s' a.
  Proof.
    intros [H1 H2 H3 H4] Ha Hs. unfold AsyncCond_model.cstep in Hs. pose proof (proj1 (agrees_iff _ _) Ha) as (A1&A2&A3&A4). destruct l as [o|t|t|e]; simpl in Hs.
    - destruct (direct o) eqn:Ed.
      { destruct (enter (c_obj s) o) as [[x [r|l|]] []] eqn:Ee; simplify_eq. right. eexists (ACall (c_next s) o (PReturn r)), _. split; [|split; [|split; [|split; [|split; [|split; [|split]]]]]].
        - eapply at_call; [by rewrite A1|left; eauto].
        - apply agrees_iff. done.
        - done.
        - simpl. unfold entered. simpl. by rewrite Ed, app_nil_r.
        - done.
        - simpl. lia.
        - by intros (?&?&?).
        - done. }
      destruct (is_free (c_locked s) (c_lockq s)) eqn:Ef; simplify_eq; right.
      + pose proof (free_results _ _ Ef) as (Hf & Hr & Hk).
        assert (c_held s = None) as Hd. { destruct (c_held s) eqn:Ed'; [|done]. assert (c_locked s = true) by (by apply H2). congruence. }
        unfold go. simpl. destruct (enter (c_obj s) o) as [[x p] n] eqn:Ee. eexists (ACall (c_next s) o p), _. split; [|split; [|split; [|split; [|split; [|split; [|split]]]]]].
        * eapply at_call; [by rewrite A1|right; by rewrite A4].
        * rewrite A4, Hd. by apply agrees_after.
        * rewrite after_log. by destruct p.
        * rewrite after_ran. simpl. unfold entered. simpl. by rewrite Ed.
        * done.
        * rewrite after_next. simpl. lia.
        * by intros (?&?&?).
        * done.
      + eexists (AQueue (c_next s) o), _. split; [by apply at_queue|]. split; [|split; [|split; [|split; [|split; [|split]]]]]; simpl; try (first [reflexivity|lia|by rewrite app_nil_r|done]).
        apply agrees_iff. simpl. split; [done|]. split; [done|]. split; [|done]. rewrite ak_app, A3. change (ak [LW (c_next s) o MEnter FPending]) with [(c_next s, o)]. solve_Permutation.
    - assert (∀ o, KRun t ≠ KCall (E := E) (Op := Op) o) as Hc by done.
      destruct (find_lw t (c_lockq s)) as [w|] eqn:Ew.
      + destruct (find_lw_split _ _ _ Ew) as (l&k&El&Er&Et).
        assert (ak (c_lockq s) ≡ₚ (if lw_live w then [(t, lw_op w)] else []) ++ ak (remove_lw t (c_lockq s))) as Hk.
        { rewrite Er, El, !ak_app, ak_cons, Et. destruct (lw_live w); simpl; [solve_Permutation|done]. }
        assert (∀ b, lw_fut w = FResult b → c_held s = None) as Hres.
        { intros b Hb. rewrite El in H1. assert (c_locked s = false) as Hf by (eapply lock_result; [exact H1|by eexists]).
          destruct (c_held s) eqn:Ed; [|done]. assert (c_locked s = true) by (by apply H2). congruence. }
        set (s2 := if c_locked s then set_lock (c_locked s) (remove_lw t (c_lockq s)) s else set_lock (c_locked s) (wake_first (remove_lw t (c_lockq s))) s) in Hs.
        assert (c_obj s2 = c_obj s ∧ c_log s2 = c_log s ∧ c_next s2 = c_next s ∧ c_held s2 = c_held s ∧ c_locked s2 = c_locked s ∧ c_condq s2 = c_condq s ∧ ak (c_lockq s2) = ak (remove_lw t (c_lockq s)) ∧ c_ran s2 = c_ran s) as (E1&E2&E3&E4&E5&E6&E7&E8).
        { unfold s2. destruct (c_locked s) eqn:Ec; simpl; rewrite ?ak_wake; done. }
        clearbody s2. unfold lw_live in Hk.
        assert (lw_fut w = FResult true ∨ lw_fut w = FCancelled → ak (c_lockq s) ≡ₚ ak (remove_lw t (c_lockq s))) as Hdead.
        { intros Hw. rewrite Hk at 1. destruct Hw as [-> | ->]; by destruct (lw_mode w) as [|[]]. }
        assert (lw_fut w = FResult true ∨ lw_fut w = FCancelled → lw_mode w = MEnter → sims s (KRun t) (quits t s2) a) as Hq.
        { intros Hw _. left. split; [|by simpl; rewrite E2, E3, E8]. apply agrees_iff. simpl. rewrite E1, E6, E4, E7. split; [done|]. split; [done|]. split; [|done]. by rewrite A3, (Hdead Hw). }
        assert (lw_fut w = FResult true ∨ lw_fut w = FCancelled → sims s (KRun t) (again enter t (lw_op w) true s2) a) as Hg.
        { intros Hw. apply again_sims; try done; [by rewrite E6|]. rewrite E6, E7. simpl. by rewrite (Hdead Hw). }
        destruct (lw_fut w) as [|[]|] eqn:Ef, (lw_mode w) as [|b'] eqn:Em; try done; try (injection Hs as <-; first [apply Hq; auto|apply Hg; auto]; fail).
        * injection Hs as <-. eapply go_sims; try done; [by eapply Hres|]. simpl. rewrite Hk. solve_Permutation.
        * destruct b'; injection Hs as <-.
          -- left. split; [|done]. apply agrees_leave; [|by eapply Hres]. apply agrees_iff. simpl. split; [done|]. split; [done|]. split; [|done]. by rewrite A3, Hk.
          -- eapply go_sims; try done; [by eapply Hres|]. simpl. rewrite Hk. solve_Permutation.
      + destruct (find_cw t (c_condq s)) as [w|] eqn:Ecw; [|done]. destruct (find_cw_split _ _ _ Ecw) as (l&k&El&Er&Et).
        assert (∀ b, cw_fut w ≠ FPending → (b = false → cw_fut w = FResult false) → (b = true → cw_fut w ≠ FResult false) → sims s (KRun t) (again enter t (cw_op w) b (set_cond (remove_cw t (c_condq s)) s)) a) as Hg.
        { intros b Hw Hw1 Hw2. apply again_sims; try done; simpl; rewrite Er, El.
          - rewrite !tn_app, tn_cons. f_equal. by destruct (cw_fut w).
          - rewrite !nf_app, nf_cons, Et. destruct b.
            + specialize (Hw2 eq_refl). by destruct (cw_fut w) as [|[]|].
            + rewrite Hw1 by done. simpl. solve_Permutation. }
        destruct (cw_fut w) as [|[]|] eqn:Ef; try done; injection Hs as <-; by apply Hg.
    - destruct (find_lw t (c_lockq s)) as [w|] eqn:Ew; simplify_eq.
      + destruct (find_lw_split _ _ _ Ew) as (l&k&El&_&Et).
        assert (ak (cancel_lw t (c_lockq s)) = ak (l ++ k) ∧ ak (c_lockq s) ≡ₚ (if lw_live w then [(t, lw_op w)] else []) ++ ak (l ++ k)) as [Hk1 Hk2].
        { split.
          - rewrite El, <-Et, cancel_lw_split.
            + rewrite !ak_app. f_equal. rewrite ak_cons. unfold lw_live; simpl. destruct w as [? ? [|[]] [|[]|]]; done.
            + rewrite <-El. apply NoDup_app in H3 as [H3 _]. exact H3.
          - rewrite El, !ak_app, ak_cons, Et. destruct (lw_live w); simpl; [solve_Permutation|done]. }
        destruct (lw_live w) eqn:El'.
        * right. assert (a_ready a ≡ₚ (t, lw_op w) :: nf (c_condq s) ++ ak (l ++ k)) as Hp by (rewrite A3, Hk2; simpl; solve_Permutation).
          apply perm_split in Hp as (r1&r2&Hr&Hr'). eexists (ACancel t), _. split; [by eapply at_cancel_ready|]. split; [|split; [|split; [|split; [|split; [|split]]]]]; simpl; try (first [reflexivity|lia|by rewrite app_nil_r|by intros (?&?&?)|by intros ? [= ->]]).
          apply agrees_iff. simpl. by rewrite Hk1.
        * left. split; [|done]. apply agrees_iff. simpl. split; [done|]. split; [done|]. split; [|done]. by rewrite A3, Hk2, Hk1.
      + destruct (find_cw t (c_condq s)) as [w|] eqn:Ecw; simplify_eq. destruct (find_cw_split _ _ _ Ecw) as (l&k&El&_&Et).
        assert (cancel_cw t (c_condq s) = l ++ CW (cw_task w) (cw_op w) (cancel_fut (cw_fut w)) :: k) as Hcw.
        { rewrite El, <-Et. apply cancel_cw_split. rewrite <-El. apply NoDup_app in H3 as (_&_&H3). apply NoDup_app in H3 as [H3 _]. exact H3. }
        rewrite Hcw. rewrite El in A2, A3. rewrite tn_app, tn_cons in A2. rewrite nf_app, nf_cons in A3. rewrite Et in *.
        destruct (cw_fut w) as [|[]|] eqn:Ef.
        * right. eexists (ACancel t), _. split; [by eapply at_cancel_waiting|]. split; [|split; [|split; [|split; [|split; [|split]]]]]; simpl; try (first [reflexivity|lia|by rewrite app_nil_r|by intros (?&?&?)|by intros ? [= ->]]).
          apply agrees_iff. simpl. rewrite tn_app, nf_app, tn_cons, nf_cons. done.
        * left. split; [|done]. apply agrees_iff. simpl. rewrite tn_app, nf_app, tn_cons, nf_cons. done.
        * right. assert (a_ready a ≡ₚ (t, cw_op w) :: nf l ++ nf k ++ ak (c_lockq s)) as Hp by (rewrite A3; simpl; solve_Permutation).
          apply perm_split in Hp as (r1&r2&Hr&Hr'). eexists (ACancel t), _. split; [by eapply at_cancel_ready|]. split; [|split; [|split; [|split; [|split; [|split]]]]]; simpl; try (first [reflexivity|lia|by rewrite app_nil_r|by intros (?&?&?)|by intros ? [= ->]]).
          apply agrees_iff. simpl. rewrite tn_app, nf_app, tn_cons. split; [done|]. split; [done|]. split; [|done]. rewrite Hr', nf_cons. simpl. solve_Permutation.
        * left. split; [|done]. apply agrees_iff. simpl. rewrite tn_app, nf_app, tn_cons, nf_cons. done.
    - destruct (c_held s) as [[[t o] l]|] eqn:Ed; simplify_eq. simpl in Hs. simplify_eq. right. destruct (resume (c_obj s) l e) as [[x p] n] eqn:Ee.
      eexists (AResume t o e p), _. split; [|split; [|split; [|split; [|split; [|split; [|split]]]]]].
      + eapply at_resume; [done|by rewrite A1].
      + by apply agrees_after.
      + rewrite after_log. by destruct p.
      + rewrite after_ran. simpl. by rewrite app_nil_r.
      + done.
      + rewrite after_next. simpl. lia.
      + by intros (?&?&?).
      + done.
  Qed.
End cond.
