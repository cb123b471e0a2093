(** Informers that do not end; concrete runs. *)
From Verif Require Import Base Listener_model Listener_spec Listener_proofs InformerStop_model InformerStop_spec InformerStop_proofs.
Section proofs.
  Context {N : Type}.
  Notation ist := (ist N).
  Notation istep := (istep (N:=N)).
  Implicit Types (s : ist) (l : ilab N) (ls : list (ilab N)).

  (** ** run waits for the callbacks *)
  Lemma lis_step_handling j (l : llabel N) xs xs' k x n : lis_step j l xs xs' → (k = j → l ≠ LReturn ∧ l ≠ LRaise) → xs !! k = Some (true, x) → l_run x = RHandling n →
    ∃ x', xs' !! k = Some (true, x') ∧ l_run x' = RHandling n.
  Proof.
    intros (b&y&y'&Hj&Hs&->) Hl Hk Hn. destruct (decide (k = j)) as [->|Hne]; [|rewrite list_lookup_insert_ne by done; by exists x].
    rewrite list_lookup_insert by by apply lookup_lt_Some in Hj. rewrite Hk in Hj. injection Hj as <- <-. exists y'. split; [done|]. destruct (Hl eq_refl).
    destruct Hs; simpl in *; try done; try (by destruct got, cur); naive_solver.
  Qed.
  Lemma map_handling (f : bool * lis N → bool * lis N) (k : nat) (xs : list (bool * lis N)) x n : (∀ b y, (f (b, y)).1 = b ∨ (f (b, y)).1 = true) → (∀ y, l_run (f y).2 = l_run y.2) → xs !! k = Some (true, x) → l_run x = RHandling n →
    ∃ x', (f <$> xs) !! k = Some (true, x') ∧ l_run x' = RHandling n.
  Proof.
    intros H1 H2 Hk Hn. exists (f (true, x)).2. rewrite list_lookup_fmap, Hk. simpl. rewrite H2. split; [|done]. f_equal. apply injective_projections; [|done]. simpl. by destruct (H1 true x).
  Qed.
  Lemma drop_handling (j k : nat) (xs : list (bool * lis N)) x n : xs !! k = Some (true, x) → l_run x = RHandling n → ∃ x' : lis N, alter drop_call j xs !! k = Some (true, x') ∧ l_run x' = RHandling n.
  Proof. intros Hk Hn. destruct (decide (k = j)) as [->|Hne]; [rewrite list_lookup_alter, Hk; eexists; by split|rewrite list_lookup_alter_ne by done; by exists x]. Qed.
  Lemma callback_step s l s' k0 : inv s → in_callback s k0 → i_run s ≠ REnd → istep s l s' → ¬ callback_returns k0 l → l ≠ ICancelAgain → in_callback s' k0 ∧ i_run s' ≠ REnd.
  Proof.
    intros Hi (x0&n0&Hj0&Hn0) Hre Hs Hl1 Hl2.
    assert (Hm : listeners_started s = true) by (pose proof (Forall_lookup_1 _ _ _ _ (v_made _ Hi) Hj0); done).
    assert (Hend : i_proc s ≠ QEnd). { intros E. pose proof (Forall_lookup_1 _ _ _ _ (v_over _ Hi E) Hj0 eq_refl) as [_ ?]. simpl in *. congruence. }
    icases Hs; try (split; [exists x0, n0; by split|]; simpl; congruence); try done.
    - split; [|done]. destruct (lis_step_handling _ _ _ _ _ _ _ Hx ltac:(done) Hj0 Hn0) as (x'&?&?). by exists x', n0.
    - exfalso. pose proof (v_lock _ Hi Hr) as E. unfold listeners_started in Hm. by rewrite E in Hm.
    - split; [|done]. destruct (drop_handling j k0 _ _ _ Hj0 Hn0) as (x'&?&?). by exists x', n0.
    - split; [|done]. destruct (map_handling (λ x, (true, x.2)) k0 _ _ _ ltac:(by right) ltac:(done) Hj0 Hn0) as (x'&?&?). by exists x', n0.
    - split; [|done]. destruct (map_handling stop_lis k0 _ _ _ ltac:(by left) ltac:(done) Hj0 Hn0) as (x'&?&?). by exists x', n0.
    - split; [|by destruct (i_stopped s)]. destruct (i_stopped s); [by exists x0, n0|]. exists x0, n0. split; [|done]. simpl. by apply lookup_app_l_Some.
    - split; [|done]. exists x0, n0. split; [|done]. simpl. by apply lookup_app_l_Some.
    - split; [|done]. destruct (lis_step_handling _ _ _ _ _ _ _ Hx ltac:(done) Hj0 Hn0) as (x'&?&?). by exists x', n0.
    - split; [|by destruct a]. destruct a as [| |j' ns c]; [by exists x0, n0..|]. destruct (drop_handling j' k0 _ _ _ Hj0 Hn0) as (x'&?&?). by exists x', n0.
    - split; [|done]. destruct (lis_step_handling _ _ _ _ k0 x0 n0 Hx) as (x'&?&?); try done; [|by exists x', n0]. intros ->. split; intros ->; apply Hl1; unfold callback_returns; auto.
    - split; [|done]. destruct (lis_step_handling _ _ _ _ k0 x0 n0 Hx) as (x'&?&?); try done; [|by exists x', n0]. intros ->. split; intros ->; done.
  Qed.
  Lemma waits_for_callback ls s j ls' s' : reach istep is_init ls s → in_callback s j → i_run s ≠ REnd → reach istep s ls' s' →
    (∀ l, l ∈ ls' → ¬ callback_returns j l ∧ l ≠ ICancelAgain) → in_callback s' j ∧ i_run s' ≠ REnd.
  Proof.
    intros Hr Hc He Hr'. pose proof (inv_reach _ _ Hr) as Hi. intros Hn. assert (inv s' ∧ in_callback s' j ∧ i_run s' ≠ REnd) as (_&?&?); [|done].
    induction Hr' as [|ls' s1 l s2 Hr1 IH Hs]; [done|]. destruct IH as (I1&I2&I3); [intros l' Hl'; apply Hn, elem_of_app; by left|].
    destruct (Hn l) as [Hn1 Hn2]; [apply elem_of_app; right; by apply elem_of_list_singleton|]. split; [by eapply inv_step|]. by eapply callback_step.
  Qed.

  (** ** run that ended without stopping the processor *)
  Definition leaked s : Prop := i_run s = REnd ∧ i_stopped s = false ∧ (i_proc s = QNew ∨ i_proc s = QWait).
  Lemma leaked_step s l s' : leaked s → istep s l s' → leaked s'.
  Proof.
    intros (H1&H2&H3) Hs. unfold leaked. icases Hs; simpl; try (by split_and!); try congruence; try (destruct Hr as [[n Hr]|Hr]; congruence); try (destruct H3; congruence).
    - destruct Hr as [Hr|[Hr|[Hr|[n Hr]]]]; congruence.
    - split_and!; try done. by right.
    - rewrite H2. simpl. by rewrite H2.
    - destruct a; by split_and!.
  Qed.
  Lemma leaked_listener s j b x : inv s → leaked s → i_lis s !! j = Some (b, x) → l_stop x = false ∧ l_pump x ≠ PStopped ∧ l_run x ≠ RStopped.
  Proof.
    intros Hi (H1&H2&H3) Hj. assert (l_stop x = false) as Hst.
    { pose proof (v_stop _ Hi) as Hs. destruct H3 as [E|E]; rewrite E in Hs; by apply (Forall_lookup_1 _ _ _ _ Hs Hj). }
    pose proof (Forall_lookup_1 _ _ _ _ (v_shape _ Hi) Hj) as [Hp Hr]; simpl in *. split_and!; [done| |].
    - intros E. rewrite E in Hp. congruence.
    - intros E. specialize (Hr E). rewrite Hr in Hp. congruence.
  Qed.
  Lemma leaked_stays ls s ls' s' : reach istep is_init ls s → leaked s → reach istep s ls' s' → leaked s' ∧ ∀ j b x, i_lis s' !! j = Some (b, x) → l_stop x = false ∧ l_pump x ≠ PStopped ∧ l_run x ≠ RStopped.
  Proof.
    intros Hr Hl Hr'. assert (inv s') as Hi by (eapply inv_reach, reach_app; done). assert (leaked s') as Hl'; [|split; [done|]; intros j b x; by apply leaked_listener].
    eapply (reach_inv istep leaked); [apply leaked_step|exact Hl|exact Hr'].
  Qed.
End proofs.

(** ** concrete runs *)
Ltac lone := first [by constructor | apply l_wake; [by left|by right; left] | apply l_wake; [by right|by left] | apply l_wake; [by left|by left]].
Ltac ione := lazymatch goal with
  | |- istep _ IRun _ => by apply s_run
  | |- istep _ IItem _ => by apply s_item
  | |- istep _ (IGet _) _ => by apply s_get
  | |- istep _ (IDist _ _) _ => apply s_dist; [done|done|repeat constructor]
  | |- istep _ (ICall _) _ => eapply s_call; [reflexivity|eexists _, _, _; split_and!; [reflexivity|by constructor|reflexivity]]
  | |- istep _ (IAdded _) _ => eapply s_added; [reflexivity|reflexivity|reflexivity]
  | |- istep _ IPopped _ => apply s_popped; left; by eexists
  | |- istep _ ICancel _ => apply s_cancel; by left
  | |- istep _ ICancelAgain _ => by apply s_again_lock
  | |- istep _ IClose _ => by apply s_close
  | |- istep _ IReflEnd _ => by apply s_refl_end
  | |- istep _ IReflJoined _ => by apply s_refl_joined
  | |- istep _ IProcStart _ => by apply s_proc_start
  | |- istep _ IHandler _ => by apply s_handler
  | |- istep _ ILockDone _ => eapply s_lock_done; [reflexivity|reflexivity|by right]
  | |- istep _ ILock _ => by eapply s_lock
  | |- istep _ (ILis _ (LPut _)) _ => eapply s_callstep; [reflexivity|eexists _, _, _; split_and!; [reflexivity|lone|reflexivity]]
  | |- istep _ (ILis _ LJoined) _ => eapply s_callstep; [reflexivity|eexists _, _, _; split_and!; [reflexivity|lone|reflexivity]]
  | |- istep _ (ILis _ _) _ => eapply s_task; [reflexivity|reflexivity|eexists _, _, _; split_and!; [reflexivity|lone|reflexivity]]
  end.
Ltac igo := eapply reach_cons; [ione|]; cbn.
(** a handler is registered, and the informer is started *)
Definition up : list (ilab nat) := [IHandler; ILockDone; IRun; IProcStart].
Definition up_s : ist nat := IS RPop (FRun false) QWait false [(true, lis_init)] [] 0 None.
Lemma up_runs : reach istep is_init up up_s.
Proof. unfold up, is_init. do 4 igo. apply reach_nil. Qed.
(** its run is cancelled twice while another handler is being added *)
Definition twice : list (ilab nat) := [IHandler; ILock; ICancel; IClose; IReflEnd; IReflJoined; ICancelAgain].
Definition twice_s : ist nat := IS REnd FEnd QWait false [(true, lis_init)] [] 0 (Some ABlock).
Lemma twice_runs : reach istep is_init (up ++ twice) twice_s.
Proof. unfold up, twice, is_init. simpl app. do 11 igo. apply reach_nil. Qed.
Lemma twice_refuted : ∃ ls (s : ist nat), reach istep is_init ls s ∧ i_run s = REnd ∧ (∃ x, i_lis s !! 0 = Some (true, x)) ∧
  ∀ ls' s', reach istep s ls' s' → i_proc s' ≠ QEnd ∧ ∀ j b x, i_lis s' !! j = Some (b, x) → l_stop x = false ∧ l_pump x ≠ PStopped ∧ l_run x ≠ RStopped.
Proof.
  exists (up ++ twice), twice_s. split_and!; [apply twice_runs|done|by eexists|]. intros ls' s' Hr.
  assert (leaked twice_s) as Hl by (split_and!; [done|done|by right]). destruct (leaked_stays _ _ _ _ twice_runs Hl Hr) as ((_&_&H)&?). split; [destruct H; congruence|done].
Qed.
(** a callback of the first handler is running, run waits for this handler to take a notification, and another handler is being added *)
Definition deliver (n : nat) : list (ilab nat) := [IItem; IGet []; IDist n [0]; ICall 0; ILis 0 (LPut n)].
Definition taken : list (ilab nat) := [ILis 0 LGet; ILis 0 LJoined; IAdded 0; IPopped; ILis 0 LWake].
Definition stuck : list (ilab nat) :=
  ILis 0 LStartPump :: ILis 0 LStartRun :: deliver 1 ++ taken ++ [ILis 0 LPutNext; ILis 0 LFetch; ILis 0 LWake; ILis 0 LNextJoined; ILis 0 (LCall 1)] ++
  deliver 2 ++ taken ++ [ILis 0 LPutNext] ++ deliver 3 ++ taken ++ deliver 4 ++ [IHandler; ILock].
Definition stuck_s : ist nat := IS (RAdd 4 [0] true) (FRun false) QWait false [(true, stall_s)] [] 0 (Some ABlock).
Lemma stuck_runs : reach istep is_init (up ++ stuck) stuck_s.
Proof. unfold up, stuck, deliver, taken, is_init. simpl app. repeat igo. apply reach_nil. Qed.
Definition stuck_inv (s : ist nat) : Prop := i_run s = RAdd 4 [0] true ∧ i_proc s = QWait ∧ i_stopped s = false ∧ i_lis s = [(true, stall_s)] ∧ i_adder s = Some ABlock.
Lemma stuck_step s l s' : stuck_inv s → istep s l s' → ¬ callback_returns 0 l → l ≠ ICancel → l ≠ IACancel → stuck_inv s'.
Proof.
  intros (H1&H2&H3&H4&H5) Hs Hn1 Hn2 Hn3. unfold stuck_inv. icases Hs; simpl; try (by split_and!); try congruence.
  - rewrite H1 in Hr. injection Hr as <- <- <-. rewrite H4 in Hj. injection Hj as <- <-. done.
  - destruct Hr as [[n Hr]|Hr]; congruence.
  - unfold block_free in Hb. by rewrite H1 in Hb.
  - exfalso. destruct Hx as (b&y&y'&Hy&Hx&->). rewrite H4 in Hy. destruct j; [|done]. injection Hy as <- <-. unfold stall_s in Hx. inversion Hx; subst; try done; apply Hn1; unfold callback_returns; naive_solver.
  - exfalso. destruct Hx as (b&y&y'&Hy&Hx&->). rewrite H4 in Hy. destruct j; [|done]. injection Hy as <- <-. unfold stall_s in Hx. inversion Hx; subst; done.
Qed.
Lemma stuck_refuted : ∃ ls (s : ist nat), reach istep is_init ls s ∧ in_callback s 0 ∧ i_adder s = Some ABlock ∧
  ∀ ls' s', reach istep s ls' s' → (∀ l, l ∈ ls' → ¬ callback_returns 0 l ∧ l ≠ ICancel ∧ l ≠ IACancel) → in_callback s' 0 ∧ i_adder s' = Some ABlock.
Proof.
  exists (up ++ stuck), stuck_s. split_and!; [apply stuck_runs|by exists stall_s, 1|done|]. intros ls' s' Hr Hn.
  assert (stuck_inv s') as (?&?&?&E&?); [|split; [exists stall_s, 1; by rewrite E|done]]. revert Hn. induction Hr as [|ls' s1 l s2 Hr1 IH Hs]; intros Hn; [done|].
  destruct (Hn l) as (?&?&?); [apply elem_of_app; right; by apply elem_of_list_singleton|]. eapply stuck_step; [|done..]. apply IH. intros l' Hl'. apply Hn, elem_of_app. by left.
Qed.
Lemma cancelled_case : ∃ s, reach istep is_init (up ++ stuck ++ [ICancel]) s ∧ in_callback s 0 ∧ i_run s = RClose.
Proof.
  eexists. split; [|split].
  - rewrite app_assoc. eapply reach_app; [apply stuck_runs|]. apply reach_one. by eapply s_cancel_add.
  - by eexists _, 1.
  - done.
Qed.
