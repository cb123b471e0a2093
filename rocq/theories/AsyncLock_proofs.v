(** Proofs about objects under a lock. *)
From Coq Require Import Sorted.
From Verif Require Import Base Store_model FakeSource_model AsyncLock_model AsyncLock_spec.

Lemma sorted_sublist {A} (R : A → A → Prop) l k : sublist l k → StronglySorted R k → StronglySorted R l.
Proof.
  induction 1 as [|x l k H IH|x l k H IH]; intros Hs; [constructor|..]; apply StronglySorted_inv in Hs as [H1 H2]; [|by apply IH].
  constructor; [by apply IH|]. apply Forall_forall. intros y Hy. eapply Forall_forall in H2; [done|]. by eapply elem_of_submseteq, sublist_submseteq.
Qed.
Lemma seq_sorted a n : StronglySorted lt (seq a n).
Proof. revert a. induction n as [|n IH]; intros a; simpl; constructor; [done|]. apply Forall_forall. intros x ?%elem_of_seq. lia. Qed.

Section lock.
  Context {St Op R L : Type} (enter : St → Op → St * part R L) (resume : St → L → St * part R L) (keeps : Op → bool).
  Notation lst := (lst St Op R L).
  Notation waiter := (waiter Op).
  Notation lstep := (lstep enter resume keeps).
  Notation after := (after (R := R) (L := L) (St := St) keeps).
  Implicit Types (s : lst) (ws : list waiter) (w : waiter) (o : Op).

  Definition live_of ws : list nat := w_call <$> filter (λ w, is_cancelled w = false) ws.
  Definition is_result w : Prop := ∃ b, w_fut w = FResult b.
  Record inv s : Prop := {
    i_wake : ∀ w ws, l_waiters s = w :: ws → l_locked s = false → w_fut w ≠ FPending;
    i_first : ∀ i w, l_waiters s !! i = Some w → is_result w → i = 0 ∧ l_locked s = false;
    i_held : l_held s ≠ None → l_locked s = true;
    i_kept : ∀ t o x, (t, o, x) ∈ l_log s → keeps o = true → l_locked s = true ∧ l_held s = None;
    i_locked : l_locked s = true → l_held s = None → ∃ t o x, (t, o, x) ∈ l_log s ∧ keeps o = true;
    i_order : sublist (ended s ++ inside s ++ live_of (l_waiters s)) (seq 0 (l_next s));
    i_all : ended s ++ inside s ++ waiting s ++ l_gone s ≡ₚ seq 0 (l_next s)
  }.

  (** waiters *)
  Lemma wake_calls ws : w_call <$> wake_first ws = w_call <$> ws.
  Proof. by destruct ws as [|[t o []] ws]. Qed.
  Lemma wake_live ws : live_of (wake_first ws) = live_of ws.
  Proof. by destruct ws as [|[t o []] ws]. Qed.
  Lemma wake_done ws w ws' : wake_first ws = w :: ws' → w_fut w ≠ FPending.
  Proof. destruct ws as [|[t o []] ws]; simpl; intros; by simplify_eq. Qed.
  Lemma wake_later ws i w : wake_first ws !! S i = Some w → ws !! S i = Some w.
  Proof. by destruct ws as [|[t o []] ws]. Qed.
  Lemma live_cons w ws : live_of (w :: ws) = (if is_cancelled w then [] else [w_call w]) ++ live_of ws.
  Proof. unfold live_of. rewrite filter_cons. by destruct (is_cancelled w) eqn:E; case_decide. Qed.
  Lemma live_app ws ws' : live_of (ws ++ ws') = live_of ws ++ live_of ws'.
  Proof. unfold live_of. by rewrite filter_app, fmap_app. Qed.
  Lemma remove_live t ws : sublist (live_of (remove t ws)) (live_of ws).
  Proof.
    induction ws as [|w ws IH]; [done|]. simpl. rewrite live_cons. case_decide; [apply sublist_inserts_l; done|].
    rewrite live_cons. by apply sublist_app.
  Qed.
  Lemma cancel_calls t ws : w_call <$> cancel t ws = w_call <$> ws.
  Proof. unfold cancel. rewrite <-list_fmap_compose. apply list_fmap_ext. intros i w _. simpl. by case_decide. Qed.
  Lemma cancel_live t ws : sublist (live_of (cancel t ws)) (live_of ws).
  Proof.
    induction ws as [|w ws IH]; [done|]. cbn [cancel fmap list_fmap]. change (list_fmap _ _ _ ws) with (cancel t ws). rewrite !live_cons. apply sublist_app; [|done].
    destruct w as [t' o f]. simpl. case_decide; [|done]. destruct f; unfold is_cancelled; simpl; [apply sublist_nil_l|done|done].
  Qed.
  Lemma find_split t ws w : find_waiter t ws = Some w → ∃ l k, ws = l ++ w :: k ∧ remove t ws = l ++ k ∧ w_call w = t.
  Proof.
    induction ws as [|v ws IH]; simpl; [done|]. case_decide as Hd.
    - intros [= <-]. by exists [], ws.
    - intros (l&k&->&->&?)%IH. by exists (v :: l), k.
  Qed.
  Lemma find_first w ws : find_waiter (w_call w) (w :: ws) = Some w ∧ remove (w_call w) (w :: ws) = ws.
  Proof. simpl. by rewrite !decide_True. Qed.

  Lemma init_inv (s0 : St) : inv (lock_init s0).
  Proof. split; simpl; try done. intros t o x H. by apply elem_of_nil in H. Qed.

  (** the end of a part of a section of call t, which is the next one in order *)
  Lemma after_inv t o p x ws n log gone :
    (∀ i w, ws !! i = Some w → ¬ is_result w) → (∀ t o x, (t, o, x) ∈ log → keeps o = false) →
    sublist (((λ x, x.1.1) <$> log) ++ [t] ++ live_of ws) (seq 0 n) → ((λ x, x.1.1) <$> log) ++ [t] ++ (w_call <$> ws) ++ gone ≡ₚ seq 0 n →
    inv (after t o p x ws n log gone).
  Proof.
    intros Hr Hk Ho Ha. unfold AsyncLock_model.after. destruct p as [r|l]; [destruct (keeps o) eqn:Ek|]; split; simpl; try done.
    - intros i w H1 H2. by destruct (Hr i w H1).
    - intros _ _. exists t, o, (OReturned r). split; [apply elem_of_app; right; by apply elem_of_list_singleton|done].
    - unfold ended, inside. simpl. by rewrite fmap_app, <-app_assoc.
    - unfold ended, inside, waiting. simpl. by rewrite fmap_app, <-app_assoc.
    - intros w ws' H _. by eapply wake_done.
    - intros [|i] w H1 H2; [done|]. apply wake_later in H1. by destruct (Hr _ w H1).
    - intros t' o' x' [H|H%elem_of_list_singleton]%elem_of_app H'; [by rewrite (Hk _ _ _ H) in H'|]. simplify_eq. congruence.
    - unfold ended, inside. simpl. by rewrite wake_live, fmap_app, <-app_assoc.
    - unfold ended, inside, waiting. simpl. by rewrite wake_calls, fmap_app, <-app_assoc.
    - intros i w H1 H2. by destruct (Hr i w H1).
    - intros t' o' x' H H'. by rewrite (Hk _ _ _ H) in H'.
  Qed.
  Lemma free_log s : inv s → l_locked s = false → ∀ t o x, (t, o, x) ∈ l_log s → keeps o = false.
  Proof. intros Hi Hl t o x H. destruct (keeps o) eqn:E; [|done]. apply (i_kept _ Hi) in H; [|done]. destruct H as [H _]. congruence. Qed.
  Lemma held_log s t o l : inv s → l_held s = Some (t, o, l) → ∀ t o x, (t, o, x) ∈ l_log s → keeps o = false.
  Proof. intros Hi Hl t' o' x H. destruct (keeps o') eqn:E; [|done]. apply (i_kept _ Hi) in H; [|done]. destruct H as [_ H]. congruence. Qed.
  Lemma free_held s : inv s → l_locked s = false → l_held s = None.
  Proof. intros Hi Hl. destruct (l_held s) eqn:E; [|done]. pose proof (i_held _ Hi) as H. rewrite E, Hl in H. by specialize (H ltac:(done)). Qed.

  Lemma step_inv s l s' : inv s → lstep s l s' → inv s'.
  Proof.
    intros Hi Hs. unfold AsyncLock_model.lstep in Hs. destruct l as [o|t|t| |]; simpl in Hs.
    - destruct (negb (l_locked s) && forallb is_cancelled (l_waiters s)) eqn:E.
      + apply andb_prop in E as [E1%negb_true_iff E2]. destruct (enter (l_obj s) o) as [x p]. simplify_eq.
        assert (∀ i w, l_waiters s !! i = Some w → w_fut w = FCancelled) as Hc.
        { intros i w Hw. eapply forallb_True in E2 || idtac. rewrite forallb_forall in E2. specialize (E2 w). rewrite <-elem_of_list_In in E2.
          specialize (E2 (elem_of_list_lookup_2 _ _ _ Hw)). unfold is_cancelled in E2. by destruct (w_fut w). }
        assert (live_of (l_waiters s) = []) as Hl.
        { unfold live_of. replace (filter _ _) with (@nil waiter); [done|]. symmetry. clear -E2. induction (l_waiters s) as [|w ws IH]; [done|]. simpl in E2. apply andb_prop in E2 as [E1 E2].
          rewrite filter_cons. rewrite decide_False by congruence. by apply IH. }
        pose proof (free_held s Hi E1) as Hh. apply after_inv.
        * intros i w Hw [b Hb]. rewrite (Hc i w Hw) in Hb. done.
        * by apply free_log.
        * pose proof (i_order _ Hi) as Ho. unfold ended, inside in Ho. rewrite Hh, Hl in Ho. simpl in Ho. rewrite app_nil_r in Ho. rewrite Hl, app_nil_r, seq_S. by apply sublist_app.
        * pose proof (i_all _ Hi) as Ha. unfold ended, inside, waiting in Ha. rewrite Hh in Ha. simpl in Ha. rewrite seq_S, <-Ha. simpl. solve_Permutation.
      + simplify_eq. destruct Hi as [H1 H2 H3 H4 H5 H6 H7]. split; simpl; try done.
        * intros w ws Hw Hl. destruct (l_waiters s) as [|w0 ws0] eqn:Ew; simpl in *; simplify_eq; [by rewrite Hl in E|]. by eapply H1.
        * intros i w Hw Hr. apply lookup_app_Some in Hw as [Hw|[_ Hw]]; [by eapply H2|]. apply list_lookup_singleton_Some in Hw as [_ <-]. destruct Hr as [b Hb]. done.
        * unfold ended, inside in *. simpl. change (0 :: seq 1 (l_next s)) with (seq 0 (S (l_next s))). rewrite live_app, seq_S, !app_assoc. rewrite !app_assoc in H6. by apply sublist_app.
        * unfold ended, inside, waiting in *. simpl. change (0 :: seq 1 (l_next s)) with (seq 0 (S (l_next s))). rewrite fmap_app, seq_S, <-H7. simpl. solve_Permutation.
    - destruct (find_waiter t (l_waiters s)) as [w|] eqn:Ef; [|done]. simpl in Hs. destruct (find_split _ _ _ Ef) as (pre&post&Ew&Er&Et).
      assert (inv (LS (l_obj s) (l_locked s) (if l_locked s then remove t (l_waiters s) else wake_first (remove t (l_waiters s))) (l_held s) (l_next s) (l_log s) (l_gone s ++ [t]))) as Hgone.
      { pose proof Hi as [H1 H2 H3 H4 H5 H6 H7]. split; simpl; try done.
        - intros v ws Hv Hl. rewrite Hl in Hv. by eapply wake_done.
        - intros i v Hv Hr. destruct (l_locked s) eqn:El.
          + exfalso. apply elem_of_list_lookup_2 in Hv. rewrite Er in Hv. assert (v ∈ l_waiters s) as Hj by (rewrite Ew; set_solver). apply elem_of_list_lookup in Hj as [j Hj]. destruct (H2 _ _ Hj Hr). congruence.
          + split; [|done]. destruct i as [|i]; [done|]. apply wake_later in Hv. exfalso. rewrite Er in Hv.
            assert (∃ j, l_waiters s !! S j = Some v) as [j Hj].
            { rewrite Ew. apply lookup_app_Some in Hv as [Hv|[Hv1 Hv2]].
              - exists i. by apply lookup_app_l_Some.
              - exists (S i). rewrite lookup_app_r by lia. replace (S (S i) - length pre) with (S (S i - length pre)) by lia. done. }
            by destruct (H2 _ _ Hj Hr).
        - unfold ended, inside in *. simpl. etrans; [|exact H6]. apply sublist_app; [done|]. apply sublist_app; [done|].
          destruct (l_locked s); rewrite ?wake_live; apply remove_live.
        - unfold ended, inside, waiting in *. simpl. rewrite <-H7.
          assert (w_call <$> (if l_locked s then remove t (l_waiters s) else wake_first (remove t (l_waiters s))) = w_call <$> remove t (l_waiters s)) as -> by (destruct (l_locked s); rewrite ?wake_calls; done).
          rewrite Er, Ew, !fmap_app. simpl. rewrite Et. solve_Permutation. }
      destruct (w_fut w) as [|[]|] eqn:Efut; [done|by simplify_eq| |by simplify_eq].
      destruct (enter (l_obj s) (w_op w)) as [x p]. simplify_eq.
      assert (l_waiters s !! length pre = Some w) as Hlk by (rewrite Ew; by apply list_lookup_middle).
      destruct (i_first _ Hi _ _ Hlk) as [Hz Hl]; [by eexists|]. destruct pre; [|done]. simpl in *. rewrite Er. pose proof (free_held s Hi Hl) as Hh. apply after_inv.
      + intros i v Hv Hr. destruct (i_first _ Hi (S i) v) as [? _]; [by rewrite Ew|done|done].
      + by apply free_log.
      + pose proof (i_order _ Hi) as Ho. unfold ended, inside in Ho. rewrite Hh, Ew, live_cons in Ho. unfold is_cancelled in Ho. by rewrite Efut in Ho.
      + pose proof (i_all _ Hi) as Ha. unfold ended, inside, waiting in Ha. rewrite Hh, Ew in Ha. done.
    - destruct (find_waiter t (l_waiters s)) as [w|] eqn:Ef; [|done]. simplify_eq. pose proof Hi as [H1 H2 H3 H4 H5 H6 H7]. split; simpl; try done.
      + intros v ws Hv Hl. destruct (l_waiters s) as [|w0 ws0] eqn:Ew; [done|]. specialize (H1 w0 ws0 eq_refl Hl). simpl in Hv. simplify_eq. case_decide; [|done]. simpl. by destruct (w_fut w0).
      + intros i v Hv Hr. unfold cancel in Hv. rewrite list_lookup_fmap in Hv. destruct (l_waiters s !! i) as [w0|] eqn:E0; [|done]. simpl in Hv. simplify_eq. apply (H2 i w0 E0).
        destruct Hr as [b Hb]. case_decide; [|by eexists]. simpl in Hb. destruct (w_fut w0) eqn:E1; simpl in Hb; simplify_eq. by eexists.
      + unfold ended, inside in *. simpl. etrans; [|exact H6]. apply sublist_app; [done|]. apply sublist_app; [done|]. apply cancel_live.
      + unfold ended, inside, waiting in *. simpl. by rewrite cancel_calls.
    - destruct (l_held s) as [[[t o] l]|] eqn:Eh; [|done]. simpl in Hs. destruct (resume (l_obj s) l) as [x p]. simplify_eq.
      assert (l_locked s = true) as Hl by (apply (i_held _ Hi); by rewrite Eh). apply after_inv.
      + intros i v Hv Hr. destruct (i_first _ Hi i v Hv Hr). congruence.
      + by eapply held_log.
      + pose proof (i_order _ Hi) as Ho. unfold ended, inside in Ho. by rewrite Eh in Ho.
      + pose proof (i_all _ Hi) as Ha. unfold ended, inside, waiting in Ha. by rewrite Eh in Ha.
    - destruct (l_held s) as [[[t o] l]|] eqn:Eh; [|done]. simpl in Hs. simplify_eq. assert (l_locked s = true) as Hl by (apply (i_held _ Hi); by rewrite Eh).
      pose proof (held_log s t o l Hi Eh) as Hk. pose proof Hi as [H1 H2 H3 H4 H5 H6 H7]. unfold ended, inside, waiting in H6, H7. rewrite Eh in H6, H7.
      destruct (keeps o) eqn:Ek; split; simpl; try done.
      + intros i v Hv Hr. destruct (H2 i v Hv Hr). congruence.
      + intros _ _. exists t, o, OAborted. split; [apply elem_of_app; right; by apply elem_of_list_singleton|done].
      + unfold ended, inside. simpl. by rewrite fmap_app, <-app_assoc.
      + unfold ended, inside, waiting. simpl. by rewrite fmap_app, <-app_assoc.
      + intros w ws' H _. by eapply wake_done.
      + intros [|i] v Hv Hr; [done|]. apply wake_later in Hv. by destruct (H2 _ v Hv Hr).
      + intros t' o' x' [H|H%elem_of_list_singleton]%elem_of_app H'; [by rewrite (Hk _ _ _ H) in H'|]. simplify_eq. congruence.
      + unfold ended, inside. simpl. by rewrite wake_live, fmap_app, <-app_assoc.
      + unfold ended, inside, waiting. simpl. by rewrite wake_calls, fmap_app, <-app_assoc.
  Qed.
  Lemma reach_inv' (s0 : St) ls s : reach lstep (lock_init s0) ls s → inv s.
  Proof. apply reach_inv; [|apply init_inv]. intros; by eapply step_inv. Qed.

  (** ** One section at a time *)
  Notation parts := (parts enter resume).
  Notation alone := (alone enter resume).
  Notation serial := (serial enter resume).
  Definition at_held (s1 : St) (h : option (nat * Op * L)) (x : St) : Prop :=
    match h with None => s1 = x | Some (_, o, l) => parts s1 o x (PAwait l) end.
  Lemma after_serial (s0 s1 : St) t o p x ws n log gone :
    serial s0 log s1 → parts s1 o x p → ∃ s2 : St, serial s0 (l_log (after t o p x ws n log gone)) s2 ∧ at_held s2 (l_held (after t o p x ws n log gone)) x ∧ l_obj (after t o p x ws n log gone) = x.
  Proof.
    intros Hs Hp. unfold AsyncLock_model.after. destruct p as [r|l]; [|by exists s1].
    exists x. assert (serial s0 (log ++ [(t, o, OReturned r)]) x) by (by eapply serial_snoc). by destruct (keeps o).
  Qed.
  Lemma atomic (s0 : St) ls s : reach lstep (lock_init s0) ls s → ∃ s1 : St, serial s0 (l_log s) s1 ∧ at_held s1 (l_held s) (l_obj s).
  Proof.
    induction 1 as [|ls s1 l s2 Hr IH Hs]; [exists s0; split; [constructor|done]|]. apply reach_inv' in Hr as Hi. destruct IH as (x1&Hx&Hh).
    assert (∀ (t : nat) o p x ws n gone (y : St), serial s0 (l_log s1) y → parts y o x p → s2 = after t o p x ws n (l_log s1) gone → ∃ x2, serial s0 (l_log s2) x2 ∧ at_held x2 (l_held s2) (l_obj s2)) as Ha.
    { intros t o p x ws n gone y H1 H2 ->. destruct (after_serial s0 y t o p x ws n (l_log s1) gone H1 H2) as (x2&?&?&Ho). exists x2. by rewrite Ho. }
    unfold AsyncLock_model.lstep in Hs. destruct l as [o|t|t| |]; simpl in Hs.
    - destruct (negb (l_locked s1) && forallb is_cancelled (l_waiters s1)) eqn:E; [|simplify_eq; by exists x1].
      apply andb_prop in E as [E1%negb_true_iff E2]. rewrite (free_held s1 Hi E1) in Hh. simpl in Hh. subst x1. destruct (enter (l_obj s1) o) as [x p] eqn:Ee. simplify_eq.
      eapply Ha; [done| |done]. by constructor.
    - destruct (find_waiter t (l_waiters s1)) as [w|] eqn:Ef; [|done]. simpl in Hs. destruct (find_split _ _ _ Ef) as (pre&post&Ew&Er&Et).
      destruct (w_fut w) as [|[]|] eqn:Efut; [done|simplify_eq; by exists x1| |simplify_eq; by exists x1].
      assert (l_waiters s1 !! length pre = Some w) as Hlk by (rewrite Ew; by apply list_lookup_middle).
      destruct (i_first _ Hi _ _ Hlk) as [Hz Hl]; [by eexists|]. rewrite (free_held s1 Hi Hl) in Hh. simpl in Hh. subst x1.
      destruct (enter (l_obj s1) (w_op w)) as [x p] eqn:Ee. simplify_eq. eapply Ha; [done| |done]. by constructor.
    - destruct (find_waiter t (l_waiters s1)) as [w|] eqn:Ef; [|done]. simplify_eq. by exists x1.
    - destruct (l_held s1) as [[[t o] l]|] eqn:Eh; [|done]. simpl in Hs, Hh. destruct (resume (l_obj s1) l) as [x p] eqn:Ee. simplify_eq.
      eapply Ha; [done| |done]. by eapply parts_resume.
    - destruct (l_held s1) as [[[t o] l]|] eqn:Eh; [|done]. simpl in Hs, Hh. exists (l_obj s1).
      assert (serial s0 (l_log s1 ++ [(t, o, OAborted)]) (l_obj s1)) by (eapply serial_snoc; [done|by eexists]). destruct (keeps o); by simplify_eq.
  Qed.
  Lemma one_at_a_time (s0 : St) ls s : reach lstep (lock_init s0) ls s →
    ∃ s1 : St, serial s0 (l_log s) s1 ∧ (l_held s = None → l_obj s = s1) ∧ ∀ t o l, l_held s = Some (t, o, l) → parts s1 o (l_obj s) (PAwait l).
  Proof. intros (s1&H1&H2)%atomic. exists s1. split; [done|]. destruct (l_held s) as [[[t o] l]|]; split; try done. intros ??? [= -> -> ->]. done. Qed.

  (** ** Order *)
  Lemma in_order (s0 : St) ls s : reach lstep (lock_init s0) ls s → StronglySorted lt (ended s ++ inside s ++ live s).
  Proof. intros Hi%reach_inv'. eapply sorted_sublist; [exact (i_order _ Hi)|apply seq_sorted]. Qed.
  (** the calls are those made, and only cancelled ones give up *)
  Record cinv (ls : list (label Op)) s : Prop := {
    c_next : l_next s = length (calls ls);
    c_log : ∀ t o x, (t, o, x) ∈ l_log s → calls ls !! t = Some o;
    c_held : ∀ t o l, l_held s = Some (t, o, l) → calls ls !! t = Some o;
    c_wait : ∀ w, w ∈ l_waiters s → calls ls !! w_call w = Some (w_op w) ∧ (¬ wants w → LCancel (w_call w) ∈ ls);
    c_gone : ∀ t, t ∈ l_gone s → LCancel t ∈ ls
  }.
  Lemma wake_in w ws : w ∈ wake_first ws → ∃ v, v ∈ ws ∧ w_call v = w_call w ∧ w_op v = w_op w ∧ (wants v → wants w).
  Proof.
    destruct ws as [|[t o []] ws]; simpl; try (intros H; by exists w).
    intros [->|H]%elem_of_cons; [exists (W t o FPending)|exists w]; split_and!; try done; [by left|by right|by right].
  Qed.
  Lemma calls_mono (ls ls' : list (label Op)) t o : calls ls !! t = Some o → calls (ls ++ ls') !! t = Some o.
  Proof. intros H. unfold calls. rewrite omap_app. by apply lookup_app_l_Some. Qed.
  Lemma after_cinv ls t o p x ws n log gone :
    n = length (calls ls) → (∀ t o x, (t, o, x) ∈ log → calls ls !! t = Some o) → calls ls !! t = Some o →
    (∀ w, w ∈ ws → calls ls !! w_call w = Some (w_op w) ∧ (¬ wants w → LCancel (w_call w) ∈ ls)) → (∀ t, t ∈ gone → LCancel t ∈ ls) →
    cinv ls (after t o p x ws n log gone).
  Proof.
    intros H1 H2 H3 H4 H5.
    assert (∀ w, w ∈ wake_first ws → calls ls !! w_call w = Some (w_op w) ∧ (¬ wants w → LCancel (w_call w) ∈ ls)) as H4'.
    { intros w (v&Hv&<-&<-&Hw)%wake_in. destruct (H4 v Hv) as [? Hc]. split; [done|]. intros ?. apply Hc. tauto. }
    assert (∀ r t' o' x', (t', o', x') ∈ log ++ [(t, o, OReturned r)] → calls ls !! t' = Some o') as H2'.
    { intros r t' o' x' [?|H%elem_of_list_singleton]%elem_of_app; [by eapply H2|]. by simplify_eq. }
    unfold AsyncLock_model.after. destruct p as [r|l]; [destruct (keeps o)|]; split; simpl; try done; try by apply H2'. intros ??? [= <- <- <-]. done.
  Qed.
  Lemma reach_cinv (s0 : St) ls s : reach lstep (lock_init s0) ls s → cinv ls s.
  Proof.
    induction 1 as [|ls s1 l s2 Hr IH Hs]; [split; simpl; try done; intros ? ?; set_solver|]. destruct IH as [H1 H2 H3 H4 H5].
    assert (∀ t o x, (t, o, x) ∈ l_log s1 → calls (ls ++ [l]) !! t = Some o) as G2 by (intros; by eapply calls_mono, H2).
    assert (∀ t o k, l_held s1 = Some (t, o, k) → calls (ls ++ [l]) !! t = Some o) as G3 by (intros; by eapply calls_mono, H3).
    assert (∀ w, w ∈ l_waiters s1 → calls (ls ++ [l]) !! w_call w = Some (w_op w) ∧ (¬ wants w → LCancel (w_call w) ∈ ls ++ [l])) as G4.
    { intros w Hw. destruct (H4 w Hw) as [Ha Hb]. split; [by apply calls_mono|]. intros Hc. apply elem_of_app. left. auto. }
    assert (∀ t, t ∈ l_gone s1 → LCancel t ∈ ls ++ [l]) as G5 by (intros; apply elem_of_app; left; auto).
    assert ((∀ o, l ≠ LCall o) → l_next s1 = length (calls (ls ++ [l]))) as G1.
    { intros Hn. unfold calls. rewrite omap_app, app_length. unfold calls in H1. rewrite <-H1. destruct l; [by edestruct Hn|..]; simpl; lia. }
    assert (∀ w ws, w ∈ wake_first ws → (∀ v, v ∈ ws → v ∈ l_waiters s1) → calls (ls ++ [l]) !! w_call w = Some (w_op w) ∧ (¬ wants w → LCancel (w_call w) ∈ ls ++ [l])) as G6.
    { intros w ws (v&Hv&<-&<-&Hw)%wake_in Hi. destruct (G4 v (Hi v Hv)) as [? Hc]. split; [done|]. intros ?. apply Hc. tauto. }
    unfold AsyncLock_model.lstep in Hs. destruct l as [o|t|t| |]; simpl in Hs.
    - assert (S (l_next s1) = length (calls (ls ++ [LCall o]))) as Hn by (unfold calls in *; rewrite omap_app, app_length, <-H1; simpl; lia).
      assert (calls (ls ++ [LCall o]) !! l_next s1 = Some o) as Ho.
      { rewrite H1. unfold calls. rewrite omap_app. by apply list_lookup_middle. }
      destruct (negb _ && _); [destruct (enter _ _); simplify_eq; by apply after_cinv|]. simplify_eq. split; simpl; try done.
      intros w [Hw|Hw%elem_of_list_singleton]%elem_of_app; [by apply G4|]. subst w. split; [done|]. intros Hw. destruct Hw. by left.
    - destruct (find_waiter t (l_waiters s1)) as [w|] eqn:Ef; [|done]. simpl in Hs. destruct (find_split _ _ _ Ef) as (pre&post&Ew&Er&Et).
      assert (w ∈ l_waiters s1) as Hin by (rewrite Ew; set_solver).
      assert (∀ v, v ∈ remove t (l_waiters s1) → v ∈ l_waiters s1) as Hsub by (rewrite Er, Ew; set_solver).
      destruct (w_fut w) as [|[]|] eqn:Efut; [done| | |].
      2: { destruct (enter _ _). simplify_eq. apply after_cinv; [by apply G1|done|by apply G4|intros; by apply G4, Hsub|done]. }
      all: simplify_eq; split; simpl; try done; [by apply G1| |].
      all: try (intros v Hv; destruct (l_locked s1); [by apply G4, Hsub|by eapply G6]).
      all: intros t [Ht|Ht%elem_of_list_singleton]%elem_of_app; [by apply G5|]; subst t; apply G4; [done|]; intros [?|?]; congruence.
    - destruct (find_waiter t (l_waiters s1)) as [w|] eqn:Ef; simplify_eq. split; simpl; try done; [by apply G1|].
      intros v (v0&->&Hv)%elem_of_list_fmap. destruct (G4 v0 Hv) as [Ha Hb]. case_decide as Hd; [|done]. simpl. split; [done|]. intros _. rewrite Hd. apply elem_of_app. right. by apply elem_of_list_singleton.
    - destruct (l_held s1) as [[[t o] l]|] eqn:Eh; [|done]. simpl in Hs. destruct (resume _ _). simplify_eq. apply after_cinv; eauto.
    - destruct (l_held s1) as [[[t o] l]|] eqn:Eh; [|done]. simpl in Hs.
      assert (∀ t' o' x', (t', o', x') ∈ l_log s1 ++ [(t, o, OAborted)] → calls (ls ++ [LAbort]) !! t' = Some o') as G2'.
      { intros t' o' x' [?|H%elem_of_list_singleton]%elem_of_app; [by eapply G2|]. simplify_eq. by eapply G3. }
      destruct (keeps o); simplify_eq; split; simpl; try done; try by apply G1. intros w Hw. by eapply G6.
  Qed.

  Lemma each_once (s0 : St) ls s : reach lstep (lock_init s0) ls s → ended s ++ inside s ++ waiting s ++ l_gone s ≡ₚ seq 0 (length (calls ls)).
  Proof. intros Hr. rewrite <-(c_next _ _ (reach_cinv _ _ _ Hr)). by eapply i_all, reach_inv'. Qed.
  Lemma gave_up (s0 : St) ls s t : reach lstep (lock_init s0) ls s → t ∈ l_gone s → LCancel t ∈ ls.
  Proof. intros Hr. apply (c_gone _ _ (reach_cinv _ _ _ Hr)). Qed.
  (** a call cancelled while it waited does not get the lock *)
  Definition refused t s : Prop := (t ∈ waiting s ∨ t ∈ l_gone s) ∧ ∀ w, w ∈ l_waiters s → w_call w = t → ¬ wants w.
  Lemma places (s0 : St) ls s : reach lstep (lock_init s0) ls s → NoDup (ended s ++ inside s ++ waiting s ++ l_gone s).
  Proof. intros Hr. rewrite (each_once _ _ _ Hr). apply NoDup_seq. Qed.
  Lemma wake_waiting ws t : t ∈ w_call <$> wake_first ws ↔ t ∈ w_call <$> ws.
  Proof. by rewrite wake_calls. Qed.
  Lemma wake_refused ws t : (∀ w, w ∈ ws → w_call w = t → ¬ wants w) → ∀ w, w ∈ wake_first ws → w_call w = t → ¬ wants w.
  Proof.
    intros H w Hw. destruct ws as [|[t1 o1 f1] ws]; [by apply H|]. simpl in Hw. destruct f1; try (by apply H).
    apply elem_of_cons in Hw as [->|Hw]; [|apply H; by apply elem_of_cons; right]. simpl. intros ->. exfalso. apply (H (W t o1 FPending)); [by apply elem_of_cons; left|done|by left].
  Qed.
  Lemma after_refused t i o p x ws n log gone : (t ∈ w_call <$> ws ∨ t ∈ gone) → (∀ w, w ∈ ws → w_call w = t → ¬ wants w) → refused t (after i o p x ws n log gone).
  Proof.
    intros H1 H2. unfold after. destruct p; [destruct (keeps o)|]; split; simpl; try done; unfold waiting; simpl; [by rewrite wake_waiting|by apply wake_refused].
  Qed.
  Lemma refused_step (s0 : St) ls s l s' t : reach lstep (lock_init s0) ls s → lstep s l s' → refused t s → refused t s'.
  Proof.
    intros Hr Hs [Hp Hw]. assert (reach lstep (lock_init s0) (ls ++ [l]) s') as Hr' by (by eapply reach_snoc). pose proof (places _ _ _ Hr') as Hnd. unfold AsyncLock_model.lstep in Hs. destruct l as [o|i|i| |]; simpl in Hs.
    - destruct (negb (l_locked s) && _); [destruct (enter (l_obj s) o); simplify_eq; by apply after_refused|]. simplify_eq. split.
      + unfold waiting. simpl. rewrite fmap_app, elem_of_app. tauto.
      + simpl. intros w [Hin|Hin]%elem_of_app; [by apply Hw|]. apply elem_of_list_singleton in Hin as ->. simpl. intros <-. exfalso.
        unfold waiting in Hnd. simpl in Hnd. rewrite fmap_app in Hnd. simpl in Hnd. apply NoDup_app in Hnd as (_&_&Hnd). apply NoDup_app in Hnd as (_&_&Hnd). apply NoDup_app in Hnd as (N1&N2&_).
        apply NoDup_app in N1 as (_&N1&_). destruct Hp as [Hp|Hp]; [eapply N1; [done|by apply elem_of_list_singleton]|]. eapply N2; [|done]. apply elem_of_app. right. by apply elem_of_list_singleton.
    - destruct (find_waiter i (l_waiters s)) as [w|] eqn:Ef; [|done]. simpl in Hs. destruct (find_split _ _ _ Ef) as (a&b&Ews&Erm&Hc).
      assert (∀ v, v ∈ remove i (l_waiters s) → w_call v = t → ¬ wants v) as Hw2. { intros v Hv. apply Hw. rewrite Ews. rewrite Erm in Hv. set_solver. }
      assert (i = t ∨ (t ∈ w_call <$> remove i (l_waiters s) ∨ t ∈ l_gone s)) as Hp2.
      { destruct Hp as [Hp|Hp]; [|by right; right]. unfold waiting in Hp. rewrite Ews, fmap_app in Hp. simpl in Hp. rewrite Erm, fmap_app. set_solver. }
      destruct (w_fut w) as [|[]|] eqn:Eu; simplify_eq.
      + split; simpl; [|destruct (l_locked s); [done|by apply wake_refused]]. unfold waiting. simpl. destruct Hp2 as [->|[?|?]]; [set_solver| |set_solver]. left. destruct (l_locked s); [done|by rewrite wake_waiting].
      + destruct (enter (l_obj s) (w_op w)); simplify_eq. apply after_refused; [|done]. destruct Hp2 as [E|?]; [|done]. exfalso. apply (Hw w); [rewrite Ews; set_solver|done|by right].
      + split; simpl; [|destruct (l_locked s); [done|by apply wake_refused]]. unfold waiting. simpl. destruct Hp2 as [->|[?|?]]; [set_solver| |set_solver]. left. destruct (l_locked s); [done|by rewrite wake_waiting].
    - destruct (find_waiter i (l_waiters s)) as [w0|]; simplify_eq. split; [unfold waiting in *; simpl; by rewrite cancel_calls|]. simpl. intros w (v&->&Hv)%elem_of_list_fmap. case_decide as Hd; [|by apply Hw]. simpl.
      intros Ht. specialize (Hw v Hv Ht). unfold wants in *. simpl. destruct (w_fut v) as [|[]|]; simpl; naive_solver.
    - destruct (l_held s) as [[[i o] y]|]; [|done]. simpl in Hs. destruct (resume (l_obj s) y); simplify_eq. by apply after_refused.
    - destruct (l_held s) as [[[i o] y]|]; [|done]. simpl in Hs. simplify_eq. destruct (keeps o); split; simpl; try done; unfold waiting in *; simpl; [by rewrite wake_waiting|by apply wake_refused].
  Qed.
  Lemma too_late (s0 : St) l1 s1 t s2 l2 s3 : reach lstep (lock_init s0) l1 s1 → lstep s1 (LCancel t) s2 → reach lstep s2 l2 s3 → ¬ got_lock s3 t.
  Proof.
    intros H1 Hs H2. assert (refused t s2) as Hd.
    { unfold AsyncLock_model.lstep in Hs. simpl in Hs. destruct (find_waiter t (l_waiters s1)) as [w|] eqn:Ef; simplify_eq. destruct (find_split _ _ _ Ef) as (a&b&Ews&_&Hc). split.
      - left. unfold waiting. simpl. rewrite cancel_calls, Ews, fmap_app. set_solver.
      - simpl. intros u (v&->&Hv)%elem_of_list_fmap. case_decide as Hd; [|done]. simpl. intros _. unfold wants. simpl. destruct (w_fut v); simpl; naive_solver. }
    assert (refused t s3 ∧ ∃ ls, reach lstep (lock_init s0) ls s3) as [[Hp _] (ls&Hr)].
    { assert (reach lstep (lock_init s0) (l1 ++ [LCancel t]) s2) as Hr2 by (by eapply reach_snoc). clear H1 Hs. revert Hr2 Hd. generalize (l1 ++ [LCancel t]). intros l0 Hr2 Hd. induction H2 as [|l2 s3 l s4 H3 IH Hs]; [by split; [|eexists]|].
      destruct IH as [IH1 (ls&IH2)]. split; [by eapply refused_step|]. eexists. by eapply reach_snoc. }
    pose proof (places _ _ _ Hr) as Hnd. unfold got_lock. intros Hg. rewrite (assoc_L (++)) in Hnd. apply NoDup_app in Hnd as (_&Hnd&_). eapply Hnd; [done|]. unfold waiting in *. set_solver.
  Qed.
  Lemma own_op (s0 : St) ls s t o x : reach lstep (lock_init s0) ls s → (t, o, x) ∈ l_log s → calls ls !! t = Some o.
  Proof. intros Hr. apply (c_log _ _ (reach_cinv _ _ _ Hr)). Qed.

  (** ** Nobody waits for a free lock in vain *)
  Lemma after_got t o p x ws n log gone : got_lock (after t o p x ws n log gone) t.
  Proof. unfold got_lock, ended, inside, AsyncLock_model.after. destruct p as [r|l]; [destruct (keeps o)|]; simpl; rewrite ?fmap_app; set_solver. Qed.
  Lemma turn_inv s ds w ws : inv s → l_locked s = false → l_waiters s = ds ++ w :: ws → Forall (λ d, ¬ wants d) ds → wants w →
    ∃ s', reach lstep s ((λ d, LRun (w_call d)) <$> ds ++ [w]) s' ∧ got_lock s' (w_call w).
  Proof.
    revert s w. induction ds as [|d ds IH]; intros s w Hi Hl Hw Hd Hwants.
    - pose proof (i_wake _ Hi _ _ Hw Hl) as Hp. destruct Hwants as [?|Hf]; [done|]. destruct (find_first w ws) as [F1 F2].
      destruct (enter (l_obj s) (w_op w)) as [x p] eqn:Ee.
      exists (after (w_call w) (w_op w) p x ws (l_next s) (l_log s) (l_gone s)). split; [|apply after_got].
      apply reach_one. unfold AsyncLock_model.lstep. cbn [lrun]. cbn [app] in Hw. rewrite Hw, F1, F2. simpl. rewrite Hf, Ee. done.
    - apply Forall_cons in Hd as [Hd1 Hd2]. cbn [app] in Hw. destruct (find_first d (ds ++ w :: ws)) as [F1 F2].
      assert (lstep s (LRun (w_call d)) (LS (l_obj s) (l_locked s) (wake_first (ds ++ w :: ws)) (l_held s) (l_next s) (l_log s) (l_gone s ++ [w_call d]))) as Hs.
      { unfold AsyncLock_model.lstep. cbn [lrun]. rewrite Hw, F1, F2. simpl. pose proof (i_wake _ Hi _ _ Hw Hl) as Hp. unfold wants in Hd1. rewrite Hl. destruct (w_fut d) as [|[]|]; tauto. }
      pose proof (step_inv _ _ _ Hi Hs) as Hi'.
      assert (∃ w', wake_first (ds ++ w :: ws) = ds ++ w' :: ws ∧ w_call w' = w_call w ∧ wants w') as (w'&E1&E2&E3).
      { destruct ds as [|d' ds].
        - cbn [app]. destruct w as [t o f]. destruct Hwants as [Hf|Hf]; simpl in Hf; subst f; [exists (W t o (FResult false))|exists (W t o (FResult false))]; split_and!; try done; by right.
        - exists w. split_and!; try done. apply Forall_cons in Hd2 as [Hd2 _]. destruct d' as [t o []]; try done. destruct Hd2. by left. }
      destruct (IH _ w' Hi') as (s'&Hr&Hg); [done|by simpl; rewrite E1|done|done|].
      exists s'. rewrite E2 in Hg. split; [|done]. rewrite fmap_app in Hr |- *. cbn [fmap list_fmap] in Hr |- *. rewrite E2 in Hr. simpl. by eapply reach_cons.
  Qed.
  Lemma turn (s0 : St) ls s ds w ws : reach lstep (lock_init s0) ls s → l_locked s = false → l_waiters s = ds ++ w :: ws → Forall (λ d, ¬ wants d) ds → wants w →
    ∃ s', reach lstep s ((λ d, LRun (w_call d)) <$> ds ++ [w]) s' ∧ got_lock s' (w_call w).
  Proof. intros Hi%reach_inv'. by apply turn_inv. Qed.
  Lemma who_holds (s0 : St) ls s : reach lstep (lock_init s0) ls s → l_locked s = true → inside s ≠ [] ∨ ∃ t, kept keeps s t.
  Proof.
    intros Hi%reach_inv' Hl. unfold inside. destruct (l_held s) as [[[t o] l]|] eqn:Eh; [by left|right].
    destruct (i_locked _ Hi Hl Eh) as (t&o&x&?&?). exists t, o. split; [done|]. left. by eexists.
  Qed.

  (** ** A method that keeps the lock *)
  Lemma kept_locked s t : inv s → kept keeps s t → l_locked s = true.
  Proof. intros Hi (o&Hk&[[x Hx]|[l Hl]]); [by apply (i_kept _ Hi) in Hx as [? _]|apply (i_held _ Hi); by rewrite Hl]. Qed.
  Lemma kept_step s t l s' : inv s → kept keeps s t → lstep s l s' → kept keeps s' t ∧ ∀ t', got_lock s' t' → got_lock s t'.
  Proof.
    intros Hi Hk Hs. pose proof (kept_locked s t Hi Hk) as Hl. unfold AsyncLock_model.lstep in Hs. destruct l as [o|t0|t0| |]; simpl in Hs.
    - rewrite Hl in Hs. simpl in Hs. simplify_eq. done.
    - destruct (find_waiter t0 (l_waiters s)) as [w|] eqn:Ef; [|done]. simpl in Hs. destruct (find_split _ _ _ Ef) as (pre&post&Ew&Er&Et).
      destruct (w_fut w) as [|[]|] eqn:Efut; [done|by simplify_eq| |by simplify_eq].
      assert (l_waiters s !! length pre = Some w) as Hlk by (rewrite Ew; by apply list_lookup_middle).
      destruct (i_first _ Hi _ _ Hlk) as [Hz Hl']; [by eexists|]. congruence.
    - destruct (find_waiter t0 (l_waiters s)) as [w|] eqn:Ef; by simplify_eq.
    - destruct (l_held s) as [[[t0 o0] l0]|] eqn:Eh; [|done]. simpl in Hs.
      destruct Hk as (o&Hk&[[x Hx]|[l Hh]]); [apply (i_kept _ Hi) in Hx; [|done]; destruct Hx; congruence|]. rewrite Eh in Hh. simplify_eq.
      destruct (resume _ _) as [x p]. simplify_eq. split.
      + exists o. split; [done|]. unfold AsyncLock_model.after. rewrite Hk. destruct p as [r|l']; simpl; [|right; by eexists]. left. exists (OReturned r). apply elem_of_app. right. by apply elem_of_list_singleton.
      + intros t'. unfold got_lock, ended, inside, AsyncLock_model.after. rewrite Hk, Eh. destruct p; simpl; rewrite ?fmap_app; simpl; set_solver.
    - destruct (l_held s) as [[[t0 o0] l0]|] eqn:Eh; [|done]. simpl in Hs.
      destruct Hk as (o&Hk&[[x Hx]|[l Hh]]); [apply (i_kept _ Hi) in Hx; [|done]; destruct Hx; congruence|]. rewrite Eh in Hh. simplify_eq. rewrite Hk. split.
      + exists o. split; [done|]. left. exists OAborted. simpl. apply elem_of_app. right. by apply elem_of_list_singleton.
      + intros t'. unfold got_lock, ended, inside. rewrite Eh. simpl. rewrite ?fmap_app; simpl; set_solver.
  Qed.
  Lemma last_one (s0 : St) ls s t ls' s' : reach lstep (lock_init s0) ls s → kept keeps s t → reach lstep s ls' s' → ∀ t', got_lock s' t' → got_lock s t'.
  Proof.
    intros Hi%reach_inv' Hk Hr. assert (inv s' ∧ kept keeps s' t ∧ ∀ t', got_lock s' t' → got_lock s t') as (_&_&?); [|done].
    induction Hr as [|ls2 s1 l s2 Hr IH Hs]; [done|]. destruct IH as (H1&H2&H3). destruct (kept_step _ _ _ _ H1 H2 Hs) as [H4 H5]. split; [by eapply step_inv|]. split; [done|]. auto.
  Qed.

  (** ** Sections that await nothing *)
  Lemma never_waits (step : St → Op → St * R) (s0 : St) ls s : no_await enter keeps step → reach lstep (lock_init s0) ls s →
    l_locked s = false ∧ l_waiters s = [] ∧ l_held s = None ∧ l_gone s = [] ∧ ended s = seq 0 (length (calls ls)) ∧
    ∃ h, exec step s0 h (l_obj s) ∧ h.*1 = calls ls ∧ (snd <$> l_log s) = (OReturned <$> h.*2).
  Proof.
    intros [He Hk] Hr. induction Hr as [|ls s1 l s2 Hr IH Hs].
    { split_and!; try done. exists []. split_and!; try done. constructor. }
    destruct IH as (H1&H2&H3&H4&H5&h&H6&H7&H8). unfold AsyncLock_model.lstep in Hs. destruct l as [o|t|t| |]; simpl in Hs.
    2-5: rewrite ?H2, ?H3 in Hs; done.
    rewrite H1, H2 in Hs. simpl in Hs. rewrite He in Hs. simpl in Hs. rewrite Hk in Hs. simplify_eq. simpl. split_and!; try done.
    - pose proof (c_next _ _ (reach_cinv _ _ _ Hr)) as Hn. unfold ended in *. simpl. rewrite fmap_app, H5. unfold calls. rewrite omap_app, app_length. simpl. rewrite Nat.add_comm. change (1 + ?n) with (S n).
      rewrite seq_S. simpl. rewrite Hn. done.
    - exists (h ++ [(o, (step (l_obj s1) o).2)]). split_and!.
      + apply exec_snoc. exists (l_obj s1). split; [done|]. by destruct (step (l_obj s1) o).
      + rewrite fmap_app, H7. unfold calls. by rewrite omap_app.
      + rewrite !fmap_app, H8. done.
  Qed.
End lock.

(** ** The fake source *)
Section source.
  Context {K V : Type} `{EqDecision K} (keyof : nat → K).
  Notation fsrc := (fsrc K V).
  Implicit Types (s : fsrc).
  Lemma change_parts ty r v s : fchange keyof ty r v false s =
    match fchange keyof ty r v true s with (s', FDone) => (FS (f_heap s') (f_items s') (f_changes s') ((λ w, w ++ [WRef ty r]) <$> f_watchers s'), FDone) | x => x end.
  Proof. unfold fchange. destruct ty; try done. by destruct (dget _ _). Qed.
  Lemma change_res ty r v d s : (fchange keyof ty r v d s).2 = FDone ∨ (fchange keyof ty r v d s).2 = FKeyError.
  Proof. unfold fchange. destruct ty; try (by left). destruct (dget _ _); [by left|by right]. Qed.
  Lemma source_parts s o s' p : parts (s_enter keyof) (s_resume keyof) s (SOp o) s' p →
    match p with
    | PReturn r => ∃ r', r = SRes r' ∧ fstep keyof s o = (s', r')
    | PAwait (APut ty r) => ∃ v, o = FChange ty r v false ∧ fchange keyof ty r v true s = (s', FDone)
    | PAwait (AWatch rc) => o = FWatch rc ∧ s' = s ∧ ∃ w, (fwatch keyof rc s).2 = FWatching w
    | PAwait (AWatching w) => ∃ rc, o = FWatch rc ∧ fwatch keyof rc s = (s', FWatching w)
    | PAwait AShutdown => False
    end.
  Proof.
    induction 1 as [s' p He|s1 l s2 p Hp IH He].
    - destruct o as [ty r v d| |rc]; simpl in He.
      + destruct (fchange keyof ty r v true s) as [s1 x] eqn:Ec. pose proof (change_res ty r v true s) as Hx. pose proof (change_parts ty r v s) as Hc. rewrite Ec in Hx, Hc. simpl in Hx. destruct Hx as [->| ->].
        * destruct d; simplify_eq; [by eexists|]. by exists v.
        * simplify_eq. eexists. split; [done|]. simpl. by destruct d.
      + simplify_eq. by eexists.
      + destruct (fwatch keyof rc s) as [s1 x] eqn:Ew.
        assert (x = FFuture ∧ s1 = s ∨ ∃ w, x = FWatching w) as [[-> ->]|[w ->]].
        { unfold fwatch in Ew. destruct (rc <? _)%Z; [simplify_eq; right; by eexists|]. destruct (_ <? rc)%Z; simplify_eq; [by left|right; by eexists]. }
        * simplify_eq. eexists. split; [done|]. simpl. done.
        * simplify_eq. split_and!; try done. exists w. by rewrite Ew.
    - destruct l as [ty r|rc|w|]; [| | |done].
      + destruct IH as (v&->&Hc). simpl in He. simplify_eq. eexists. split; [done|]. simpl. by rewrite change_parts, Hc.
      + destruct IH as (->&->&w&Hw). simpl in He. destruct (fwatch keyof rc s) as [s3 x] eqn:Ew. simpl in Hw. subst x. simplify_eq. by exists rc.
      + destruct IH as (rc&->&Hw). simpl in He. simplify_eq. by eexists.
  Qed.
  Lemma shutdown_parts s s' p : parts (s_enter keyof) (s_resume keyof) s SShutdown s' p → s' = s ∧ (p = PAwait AShutdown ∨ p = PReturn SShut).
  Proof. induction 1 as [s' p He|s1 l s2 p Hp IH He]; simpl in *; simplify_eq; [by auto|]. destruct IH as [-> [?|?]]; simplify_eq. simpl in He. simplify_eq. auto. Qed.
  (** a call of a source without tasks *)
  Lemma source_alone t s o x s' : alone (s_enter keyof) (s_resume keyof) s o x s' → ∃ h, seen (t, o, x) h ∧ exec (fstep keyof) s h s'.
  Proof.
    destruct o as [o|].
    - destruct x as [r|]; simpl.
      + intros (r'&->&Hf)%source_parts. exists [(o, r')]. split; [constructor|by apply exec_one].
      + intros [[ty r|rc|w|] Hp%source_parts]; [| | |done].
        * destruct Hp as (v&->&Hc). exists [(FChange ty r v true, FDone)]. split; [constructor|by apply exec_one].
        * destruct Hp as (->&->&_). exists []. split; [constructor|constructor].
        * destruct Hp as (rc&->&Hw). exists [(FWatch rc, FWatching w)]. split; [constructor|by apply exec_one].
    - intros Ha. exists []. split; [constructor|]. apply exec_nil_iff. destruct x as [r|]; [|destruct Ha as [l Ha]]; simpl in Ha; by apply shutdown_parts in Ha as [-> _].
  Qed.
  Lemma source_serial s h s' : serial (s_enter keyof) (s_resume keyof) s h s' → ∃ hs, Forall2 seen h hs ∧ exec (fstep keyof) s (concat hs) s'.
  Proof.
    induction 1 as [s|s h s1 t o x s2 Hs (hs&H1&H2) Ha]; [exists []; split; constructor|]. destruct (source_alone t _ _ _ _ Ha) as (h'&H3&H4).
    exists (hs ++ [h']). split; [apply Forall2_app; [done|by constructor]|]. rewrite concat_app. simpl. rewrite app_nil_r. apply exec_app. by eexists.
  Qed.
  Notation lstep := (lstep (s_enter keyof) (s_resume keyof) s_keeps).
  Lemma source_history ls (s : lst fsrc (sop V) (sres K V) await) : reach lstep (lock_init (f_init : fsrc)) ls s →
    ∃ hs (s1 : fsrc), Forall2 seen (l_log s) hs ∧ exec (fstep keyof) f_init (concat hs) s1 ∧ (l_held s = None → l_obj s = s1).
  Proof. intros (s1&Hs&Hn&_)%one_at_a_time. destruct (source_serial _ _ _ Hs) as (hs&?&?). by exists hs, s1. Qed.
End source.

(** ** Cases *)
Definition src_run (ls : list (label (sop nat))) : option (lst (fsrc nat nat) (sop nat) (sres nat nat) await) :=
  foldl (λ s l, s ← s; lrun (s_enter own) (s_resume own) s_keeps s l) (Some (lock_init f_init)) ls.
Lemma src_reach ls s : src_run ls = Some s → reach (lstep (s_enter own) (s_resume own) s_keeps) (lock_init f_init) ls s.
Proof.
  revert s. induction ls as [|l ls IH] using rev_ind; intros s H; unfold src_run in *; [simpl in H; simplify_eq; constructor|].
  rewrite foldl_app in H. simpl in H. destruct (foldl _ _ ls) as [s1|] eqn:E; [|done]. eapply reach_snoc; [by apply IH|done].
Qed.
Notation src_reached := (reach (lstep (s_enter own) (s_resume own) s_keeps) (lock_init (f_init : fsrc nat nat))).
Lemma busy_case : ∃ s, src_reached busy_trace s ∧
  l_log s = [(0, SOp (FWatch 0), OReturned (SRes (FWatching 0))); (1, add3, OReturned (SRes FDone));
             (2, SOp FList, OReturned (SRes (FListed [Copy 3 (10, 1)] 1))); (4, SOp FList, OReturned (SRes (FListed [Copy 3 (10, 1)] 1)))] ∧
  l_gone s = [3] ∧ l_waiters s = [] ∧ f_watchers (l_obj s) = [[WRef EAdded 3]].
Proof. eexists. split; [apply src_reach; by vm_compute|by split_and!]. Qed.
Lemma cut_case : ∃ s, src_reached cut_trace s ∧
  (2, SOp FList, OReturned (SRes (FListed [Copy 3 (10, 1)] 1))) ∈ l_log s ∧ f_watchers (l_obj s) !! 0 = Some [].
Proof. eexists. split; [apply src_reach; by vm_compute|]. split; [|done]. apply (elem_of_list_lookup_2 _ 2). done. Qed.
Lemma orphan_case : ∃ s w, src_reached cut_trace s ∧ is_Some (f_watchers (l_obj s) !! w) ∧ ∀ t o, (t, o, OReturned (SRes (FWatching w))) ∉ l_log s.
Proof.
  eexists _, 1. split; [apply src_reach; by vm_compute|]. split; [by eexists|]. intros t o H. simpl in H. rewrite !elem_of_cons, elem_of_nil in H. naive_solver.
Qed.
Lemma shut_case : ∃ s, src_reached shut_trace s ∧ l_log s = [(0, add3, OReturned (SRes FDone)); (1, SShutdown, OReturned SShut)] ∧ kept s_keeps s 1 ∧ waiting s = [2].
Proof.
  eexists. split; [apply src_reach; by vm_compute|]. split_and!; [done| |done]. exists SShutdown. split; [done|]. left. exists (OReturned SShut). apply (elem_of_list_lookup_2 _ 1). done.
Qed.

(** ** The store *)
Lemma store_history {K O V N} `{EqDecision K} `{EqDecision V} `{EqDecision N} (keyf : O → option K) (fs : dict N (O → option (list V))) ls s :
  reach (lstep (L := Empty_set) (λ s o, ((sstep keyf s o).1, PReturn (sstep keyf s o).2)) (λ s l, match l with end) (λ _, false)) (lock_init (store_init fs)) ls s →
  l_waiters s = [] ∧ ∃ h, exec (sstep keyf) (store_init fs) h (l_obj s) ∧ h.*1 = calls ls ∧ (snd <$> l_log s) = (OReturned <$> h.*2).
Proof. intros Hr. eapply never_waits in Hr as (_&?&_&_&_&?); [by split|]. by split. Qed.
