From Verif Require Import Base Clock_model Clock_spec Clock_proofs.
Local Open Scope Z_scope.

Lemma filter_sub {A} (P : A → Prop) `{∀ x, Decision (P x)} (l : list A) : filter P l `sublist_of` l.
Proof. induction l as [|x l IH]; [done|]. rewrite filter_cons. destruct (decide (P x)); [by apply sublist_skip|by apply sublist_cons]. Qed.

Lemma sub_NoDup {A} (k l : list A) : NoDup l → k `sublist_of` l → NoDup k.
Proof.
  intros Hl Hs. induction Hs as [|x k l Hs IH|x k l Hs IH]; [done|..]; apply NoDup_cons in Hl as [Hx Hl]; [|by apply IH].
  apply NoDup_cons. split; [|by apply IH]. intros Hin. apply Hx. eapply elem_of_submseteq; [done|by apply sublist_submseteq].
Qed.

Section step.
  Context (t0 : Z).
  Implicit Types (h : chist) (s : clock) (e : cop * cres).

  (** the pieces of CI that do not depend on the time *)
  Lemma CI_set h s c t : CI t0 h s → (∃ d, c = CStep d ∧ t = c_time s + d) ∨ c = CSetTime t → ∃ s', set_time s t = (s', CNone) ∧ CI t0 (h ++ [(c, CNone)]) s'.
  Proof.
    intros HC Hc. pose proof (λ i, timer_state i t0 h s HC) as HT. pose proof (λ i, ticker_state i t0 h s HC) as HK.
    destruct (set_waiters_spec t (c_waiters s) (c_queues s)) as (ws' & qs' & Hs & Hlen & Hsub & Hmv).
    { apply HC. } { intros w Hw. destruct (ci_ws _ _ _ HC w Hw) as (H1 & H2 & H3). split; [|done]. intros Hsk _. by destruct (H3 Hsk) as [_ ->]. }
    unfold set_time. rewrite Hs. eexists. split; [done|].
    assert (Htm : ∀ i, timer_step i (c_time s, timer_of i t0 h) (c, CNone) = (t, match timer_of i t0 h with TPending tg => if bool_decide (tg <= t) then TFired t else TPending tg | tm => tm end)).
    { intros i. destruct Hc as [(d & -> & ->)| ->]; simpl; by destruct (timer_of i t0 h). }
    assert (Htk : ∀ i, ticker_step i (c_time s, ticker_of i t0 h) (c, CNone) = (t, match ticker_of i t0 h with
       | KTicker st p l u => KTicker st p (Z.max l t) (if bool_decide (tick_number st p l < tick_number st p t) then match u with Some _ => u | None => Some t end else u) | KNone => KNone end)).
    { intros i. destruct Hc as [(d & -> & ->)| ->]; simpl; by destruct (ticker_of i t0 h). }
    assert (Hgot : ∀ i, got i (h ++ [(c, CNone)]) = got i h). { intros i. rewrite got_snoc. by destruct Hc as [(d & -> & _)| ->]; rewrite app_nil_r. }
    assert (Hwq : ∀ w, w ∈ ws' → ∃ w0, w0 ∈ c_waiters s ∧ w_queue w0 = w_queue w ∧ w_step w0 = w_step w ∧ w_skip w0 = w_skip w ∧
       (w_skip w0 = false → w_step w0 = 0 → qs' !! w_queue w = c_queues s !! w_queue w)).
    { intros w Hw. assert (Hin : w ∈ wq (w_queue w) ws') by (by apply wq_elem). specialize (Hmv (w_queue w)). unfold moved in Hmv.
      destruct (wq (w_queue w) (c_waiters s)) as [|w0 [|w1 l]] eqn:Hw0.
      - destruct Hmv as [_ Hmv]. rewrite Hmv in Hin. by apply elem_of_nil in Hin.
      - assert (w0 ∈ wq (w_queue w) (c_waiters s)) as [Hw0in Hw0q]%wq_elem by (rewrite Hw0; left). exists w0. split; [done|]. split; [done|].
        destruct (bool_decide (w_target w0 <= t)).
        + destruct Hmv as [Hq Hmv]. destruct (bool_decide_reflect (w_step w0 = 0)) as [Hz|Hz]; [rewrite Hmv in Hin; by apply elem_of_nil in Hin|].
          destruct Hmv as (tg & _ & Hmv). rewrite Hmv in Hin. apply elem_of_list_singleton in Hin as ->. done.
        + destruct Hmv as [Hq Hmv]. rewrite Hmv in Hin. by apply elem_of_list_singleton in Hin as ->.
      - exfalso. pose proof (ci_nodup _ _ _ HC) as Hnd. assert (Hsl : w_queue <$> (wq (w_queue w) (c_waiters s)) `sublist_of` (w_queue <$> c_waiters s)) by (apply fmap_sublist, filter_sub).
        assert (Hnd2 : NoDup (w_queue <$> wq (w_queue w) (c_waiters s))) by (by eapply sub_NoDup). 
        assert (w_queue w0 = w_queue w) by (apply (wq_elem _ w0 (c_waiters s)); rewrite Hw0; left). assert (w_queue w1 = w_queue w) by (apply (wq_elem _ w1 (c_waiters s)); rewrite Hw0; right; left).
        rewrite Hw0 in Hnd2. csimpl in Hnd2. apply NoDup_cons in Hnd2 as [Hx _]. apply Hx. apply elem_of_cons. left. congruence. }
    split; simpl.
    - done.
    - eapply sub_NoDup; [|done]. apply HC.
    - intros w Hw. destruct (Hwq w Hw) as (w0 & Hin & Hq & Hst & Hsk & Hqq). destruct (ci_ws _ _ _ HC w0 Hin) as (H1 & H2 & H3). rewrite Hlen, <-Hq, <-Hst, <-Hsk. split; [done|]. split; [done|].
      intros Hf. destruct (H3 Hf) as [H4 H5]. split; [done|]. rewrite Hq. rewrite Hqq by done. by rewrite <-Hq.
    - intros i. rewrite !foldl_app. simpl. rewrite HT, HK, Htm, Htk. done.
    - intros i. rewrite timer_of_snoc, HT, Htm. simpl. pose proof (ci_timer _ _ _ HC i) as H. specialize (Hmv i). unfold timer_ok, queued in *. destruct (timer_of i t0 h) as [|tg|tf|]; simpl.
      + intros w Hw. unfold moved in Hmv. destruct (wq i (c_waiters s)) as [|w0 [|w1 l]] eqn:Hw0.
        * destruct Hmv as [_ Hmv]. rewrite Hmv in Hw. by apply elem_of_nil in Hw.
        * specialize (H w0 ltac:(left)). destruct (bool_decide (w_target w0 <= t)); destruct Hmv as [_ Hmv]; [|rewrite Hmv in Hw; by apply elem_of_list_singleton in Hw as ->].
          destruct (bool_decide (w_step w0 = 0)); [rewrite Hmv in Hw; by apply elem_of_nil in Hw|]. destruct Hmv as (tg & _ & Hmv). rewrite Hmv in Hw. by apply elem_of_list_singleton in Hw as ->.
        * destruct Hmv as [_ Hmv]. rewrite Hmv in Hw. by apply H.
      + destruct H as (H1 & H2 & H3). rewrite H1 in Hmv. unfold moved in Hmv. simpl in Hmv. destruct (bool_decide_reflect (tg <= t)) as [Ht|Ht].
        * destruct Hmv as [Hq Hw]. rewrite Hw, Hgot, H3, Hq, H2. done.
        * destruct Hmv as [Hq Hw]. rewrite Hw, Hq, Hgot. done.
      + destruct H as (H1 & H2). rewrite H1 in Hmv. destruct Hmv as [Hq Hw]. rewrite Hw, Hgot, Hq. done.
      + destruct H as (H1 & H2). rewrite H1 in Hmv. destruct Hmv as [Hq Hw]. rewrite Hw, Hgot, Hq. done.
    - intros i. rewrite Hlen. intros Hi. rewrite timer_of_snoc, ticker_of_snoc, HT, HK, Htm, Htk, Hgot. simpl. destruct (ci_new _ _ _ HC i Hi) as (-> & -> & ->). done.
    - intros i. rewrite ticker_of_snoc, HK, Htk. simpl. intros Hn. destruct (ci_kinds _ _ _ HC i) as [d Hd]; [by destruct (ticker_of i t0 h)|]. exists d. apply elem_of_app. by left.
    - intros Hm i. pose proof (ci_ticker _ _ _ HC (not_misused_app _ _ Hm) i) as H. rewrite ticker_of_snoc, HK, Htk. simpl. destruct (ticker_of i t0 h) as [|st p l u]; [done|]. destruct H as [Hl H]. simpl.
      split; [lia|]. intros Hp. destruct (H Hp) as [H1 H2]. specialize (Hmv i). rewrite H1, H2 in Hmv. unfold moved in Hmv. simpl in Hmv. set (n := tick_number st p l) in *.
      assert (Hle : st + (n + 1) * p <= t ↔ n < tick_number st p t).
      { unfold tick_number. split; intros Hx.
        - assert (n + 1 <= (t - st) / p); [|lia]. apply Z.div_le_lower_bound; lia.
        - assert (Hy : (n + 1) * p <= (t - st) / p * p) by nia. pose proof (Z.mul_div_le (t - st) p Hp). lia. }
      destruct (bool_decide_reflect (st + (n + 1) * p <= t)) as [Ht|Ht].
      + rewrite (bool_decide_true (n < tick_number st p t)) by (by apply Hle). destruct Hmv as [Hq Hw]. rewrite bool_decide_false in Hw by lia. destruct Hw as (tg & Ha & ->). rewrite Hq.
        rewrite advance_pos in Ha by (done || lia). injection Ha as <-. assert (Hmax : l <= t). { destruct (decide (l <= t)); [done|]. apply Hle in Ht. unfold n, tick_number in Ht. assert ((t - st) / p <= (l - st) / p) by (apply Z.div_le_mono; lia). lia. }
        rewrite Z.max_r by done. unfold tick_number. split; [done|]. by destruct u.
      + rewrite (bool_decide_false (n < tick_number st p t)) by (intros ?; by apply Ht, Hle). destruct Hmv as [-> ->]. split; [|done].
        assert (tick_number st p (Z.max l t) = n) as ->; [|done]. destruct (decide (l <= t)); [|by rewrite Z.max_l by lia]. rewrite Z.max_r by lia.
        assert (n <= tick_number st p t) by (unfold n, tick_number; apply Z.div_le_mono; lia). assert (¬ n < tick_number st p t) by (intros ?; by apply Ht, Hle). lia.
  Qed.

  Lemma CI_stop h s j : CI t0 h s →
    CI t0 (h ++ [(CStop j, CBool (negb (bool_decide (wq j (c_waiters s) = []))))]) (Clock (c_time s) (filter (λ w, w_queue w ≠ j) (c_waiters s)) (c_queues s) false).
  Proof.
    intros HC. pose proof (λ i, timer_state i t0 h s HC) as HT. pose proof (λ i, ticker_state i t0 h s HC) as HK. set (b := CBool _). split; simpl.
    - done.
    - eapply sub_NoDup; [apply (ci_nodup _ _ _ HC)|]. apply fmap_sublist, filter_sub.
    - intros w [_ Hw]%elem_of_list_filter. by apply (ci_ws _ _ _ HC).
    - intros i. rewrite !foldl_app. simpl. rewrite HT, HK. done.
    - intros i. rewrite timer_of_snoc, HT. simpl. pose proof (ci_timer _ _ _ HC i) as H. unfold timer_ok, queued in *. destruct (bool_decide_reflect (i = j)) as [<-|Hne]; simpl.
      + rewrite filter_queue_same, !got_snoc, !app_nil_r. destruct (timer_of i t0 h) as [|tg|tf|]; simpl.
        * by intros w ?%elem_of_nil.
        * destruct H as (H1 & H2 & H3). rewrite H3, H2. done.
        * by destruct H as [_ ->].
        * by destruct H as [_ ->].
      + rewrite filter_queue_other by done. rewrite !got_snoc, !app_nil_r. done.
    - intros i Hi. rewrite timer_of_snoc, ticker_of_snoc, HT, HK, got_snoc. simpl. destruct (ci_new _ _ _ HC i Hi) as (-> & -> & ->). destruct (bool_decide (i = j)); done.
    - intros i. rewrite ticker_of_snoc, HK. simpl. intros Hn. destruct (ci_kinds _ _ _ HC i Hn) as [d Hd]. exists d. apply elem_of_app. by left.
    - intros Hm i. pose proof (ci_ticker _ _ _ HC (not_misused_app _ _ Hm) i) as H. rewrite ticker_of_snoc, HK. simpl. pose proof (ci_kinds _ _ _ HC i) as Hkinds.
      destruct (ticker_of i t0 h) as [|st p l u]; [done|]. destruct (Hkinds ltac:(done)) as [d Hd].
      assert (i ≠ j). { intros ->. destruct (Hm j d 0 b) as [Hx _]; [apply elem_of_app; by left|]. apply Hx. apply elem_of_app. right. by left. }
      simpl in *. by rewrite filter_queue_other.
  Qed.
  Lemma CI_reset h s j d n w : CI t0 h s → list_find (λ w, w_queue w = j) (c_waiters s) = Some (n, w) →
    CI t0 (h ++ [(CReset j d, CBool true)]) (Clock (c_time s) (<[n := Waiter j (c_time s + d) (w_step w) (w_skip w)]> (c_waiters s)) (c_queues s) false).
  Proof.
    intros HC Hf. pose proof (λ i, timer_state i t0 h s HC) as HT. pose proof (λ i, ticker_state i t0 h s HC) as HK.
    destruct (find_wq j _ n w Hf (ci_nodup _ _ _ HC) (Waiter j (c_time s + d) (w_step w) (w_skip w)) eq_refl) as (F1 & F2 & F3 & F4 & F5 & F6). split; simpl.
    - done.
    - rewrite F4. apply HC.
    - intros w' Hw'. destruct (decide (w_queue w' = j)) as [Hj|Hj].
      + assert (w' ∈ wq j (<[n:=Waiter j (c_time s + d) (w_step w) (w_skip w)]> (c_waiters s))) as Hin by (by apply wq_elem). rewrite F2 in Hin. apply elem_of_list_singleton in Hin as ->. simpl.
        pose proof (ci_ws _ _ _ HC w F5) as H. by rewrite F6 in H.
      + assert (w' ∈ wq (w_queue w') (<[n:=Waiter j (c_time s + d) (w_step w) (w_skip w)]> (c_waiters s))) as Hin by (by apply wq_elem). rewrite F3 in Hin by done. apply wq_elem in Hin as [Hin _].
        by apply (ci_ws _ _ _ HC).
    - intros i. rewrite !foldl_app. simpl. rewrite HT, HK. done.
    - intros i. rewrite timer_of_snoc, HT. simpl. pose proof (ci_timer _ _ _ HC i) as H. unfold timer_ok, queued in *. destruct (bool_decide_reflect (i = j)) as [->|Hne]; simpl.
      + rewrite F2, !got_snoc, !app_nil_r. rewrite F1 in H. destruct (timer_of j t0 h) as [|tg|tf|]; simpl.
        * intros w' ->%elem_of_list_singleton. simpl. apply H. by left.
        * destruct H as (H1 & H2 & H3). injection H1 as ->. simpl. done.
        * by destruct H as [H _].
        * by destruct H as [H _].
      + rewrite F3 by done. rewrite !got_snoc, !app_nil_r. done.
    - intros i Hi. rewrite timer_of_snoc, ticker_of_snoc, HT, HK, got_snoc. simpl. destruct (ci_new _ _ _ HC i Hi) as (-> & -> & ->). destruct (bool_decide (i = j)); done.
    - intros i. rewrite ticker_of_snoc, HK. simpl. intros Hn. destruct (ci_kinds _ _ _ HC i Hn) as [d' Hd]. exists d'. apply elem_of_app. by left.
    - intros Hm i. pose proof (ci_ticker _ _ _ HC (not_misused_app _ _ Hm) i) as H. rewrite ticker_of_snoc, HK. simpl. pose proof (ci_kinds _ _ _ HC i) as Hkinds.
      destruct (ticker_of i t0 h) as [|st p l u]; [done|]. destruct (Hkinds ltac:(done)) as [d' Hd].
      assert (i ≠ j). { intros ->. destruct (Hm j d' d (CBool true)) as [_ Hx]; [apply elem_of_app; by left|]. apply Hx. apply elem_of_app. right. by left. }
      simpl in *. by rewrite F3.
  Qed.
  Lemma CI_get h s j t : CI t0 h s → c_queues s !! j = Some (Some t) →
    CI t0 (h ++ [(CGet j, CItem (Some t))]) (Clock (c_time s) (c_waiters s) (<[j := None]> (c_queues s)) false).
  Proof.
    intros HC Hq. pose proof (λ i, timer_state i t0 h s HC) as HT. pose proof (λ i, ticker_state i t0 h s HC) as HK. assert (Hlt : (j < length (c_queues s))%nat) by (by apply lookup_lt_Some in Hq).
    split; simpl.
    - done.
    - apply HC.
    - intros w Hw. rewrite insert_length. destruct (ci_ws _ _ _ HC w Hw) as (H1 & H2 & H3). split; [done|]. split; [done|]. intros Hs. destruct (H3 Hs) as [H4 H5]. split; [done|].
      destruct (decide (j = w_queue w)) as [->|]; [by rewrite list_lookup_insert|by rewrite list_lookup_insert_ne].
    - intros i. rewrite !foldl_app. simpl. rewrite HT, HK. done.
    - intros i. rewrite timer_of_snoc, HT. simpl. pose proof (ci_timer _ _ _ HC i) as H. unfold timer_ok, queued in *. simpl. rewrite !got_snoc. destruct (decide (j = i)) as [->|Hne].
      + rewrite list_lookup_insert by done. unfold got at 2 4 6. simpl. rewrite bool_decide_true by done. rewrite Hq in H. destruct (timer_of i t0 h) as [|tg|tf|]; [done|by destruct H as (_ & ? & _)|..].
        * rewrite app_nil_r. done.
        * rewrite app_nil_r. done.
      + rewrite list_lookup_insert_ne by done. unfold got at 2 4 6. simpl. rewrite bool_decide_false by done. rewrite !app_nil_r. done.
    - intros i. rewrite insert_length. intros Hi. rewrite timer_of_snoc, ticker_of_snoc, HT, HK, got_snoc. simpl. destruct (ci_new _ _ _ HC i Hi) as (-> & -> & ->). unfold got. simpl.
      rewrite !bool_decide_false by lia. done.
    - intros i. rewrite ticker_of_snoc, HK. simpl. intros Hn. destruct (ci_kinds _ _ _ HC i) as [d Hd]; [|exists d; apply elem_of_app; by left]. intros Hx. rewrite Hx in Hn. by destruct (bool_decide (j = i)).
    - intros Hm i. pose proof (ci_ticker _ _ _ HC (not_misused_app _ _ Hm) i) as H. rewrite ticker_of_snoc, HK. simpl. destruct (bool_decide_reflect (j = i)) as [->|Hne]; simpl.
      + destruct (ticker_of i t0 h) as [|st p l u]; [done|]. destruct H as [Hl H]. simpl. split; [done|]. intros Hp. destruct (H Hp) as [H1 H2]. split; [done|]. by rewrite list_lookup_insert.
      + destruct (ticker_of i t0 h) as [|st p l u]; [done|]. destruct H as [Hl H]. simpl. split; [done|]. intros Hp. destruct (H Hp) as [H1 H2]. split; [done|]. by rewrite list_lookup_insert_ne.
  Qed.

  Lemma CI_step h s c : CI t0 h s → (∀ d, c = CNewTicker d → 0 <= d) → CI t0 (h ++ [(c, (cstep s c).2)]) (cstep s c).1 ∧ (cstep s c).2 ≠ CHang.
  Proof.
    intros HC Hc. unfold cstep. rewrite (ci_hung _ _ _ HC). assert (Hs : Clock (c_time s) (c_waiters s) (c_queues s) false = s) by (destruct s; simpl; f_equal; symmetry; apply (ci_hung _ _ _ HC)).
    destruct c as [|ts|d|d|d|t| |j|j d|j|j]; simpl.
    - split; [|done]. apply CI_same; done.
    - split; [|done]. apply CI_same; done.
    - split; [|done]. eapply CI_new; [done|done|done|done|done|by left].
    - specialize (Hc d eq_refl). split; [|done]. eapply CI_new; [done|done|done|done|done|by right].
    - destruct (CI_set h s (CStep d) (c_time s + d) HC) as (s' & -> & HC'); [left; by exists d|done].
    - destruct (CI_set h s (CSetTime t) t HC) as (s' & -> & HC'); [by right|done].
    - split; [|done]. apply CI_same; done.
    - split; [|done]. rewrite existsb_wq. by apply CI_stop.
    - destruct (list_find _ _) as [[n w]|] eqn:Hf; simpl; (split; [|done]); [by apply CI_reset|]. apply CI_same; try done. intros i. simpl.
      destruct (bool_decide_reflect (i = j)) as [->|]; [|done]. pose proof (ci_timer _ _ _ HC j) as H. apply find_none in Hf. unfold timer_ok in H. rewrite Hf in H. destruct (timer_of j t0 h); try done. by destruct H.
    - split; [|done]. apply CI_same; done.
    - destruct (c_queues s !! j) as [[t|]|] eqn:Hq; simpl; (split; [|done]); [by apply CI_get|..]; (apply CI_same; [done|done| |..]).
      + intros i. simpl. destruct (bool_decide_reflect (j = i)) as [->|]; [|done]. destruct (ticker_of i t0 h) as [|st p l u]; [done|]. intros [Hl H]. simpl. split; [done|]. intros Hp. destruct (H Hp) as [H1 H2]. split; [done|].
        by rewrite Hq.
      + intros i. simpl. split; [done|]. intros ->. by destruct (bool_decide (j = i)).
      + done.
      + intros i. simpl. destruct (bool_decide_reflect (j = i)) as [->|]; [|done]. destruct (ticker_of i t0 h) as [|st p l u]; [done|]. intros [Hl H]. simpl. split; [done|]. intros Hp. destruct (H Hp) as [H1 H2]. congruence.
      + intros i. simpl. split; [done|]. intros ->. by destruct (bool_decide (j = i)).
      + done.
  Qed.
End step.

Lemma CI_init t0 : CI t0 [] (clock_init t0).
Proof. split; simpl; try done; try apply NoDup_nil_2; intros; try (by apply elem_of_nil in H); done. Qed.
Lemma CI_exec t0 h s : no_negative_ticker h → exec cstep (clock_init t0) h s → CI t0 h s.
Proof.
  intros Hn He. revert Hn. apply (exec_trace_inv cstep (λ h s, no_negative_ticker h → CI t0 h s) (clock_init t0) h s); [..|done]; clear.
  - intros _. apply CI_init.
  - intros h s c _ IH Hn. apply CI_step.
    + apply IH. intros d r Hd. apply (Hn d r). apply elem_of_app. by left.
    + intros d ->. apply (Hn d (cstep s (CNewTicker d)).2). apply elem_of_app. right. by left.
Qed.

Lemma timer_life t0 h s i d : no_negative_ticker h → exec cstep (clock_init t0) h s → timer_of i t0 h ≠ TNew →
  (cstep s (CStop i)).2 = CBool (is_pending (timer_of i t0 h)) ∧ (cstep s (CReset i d)).2 = CBool (is_pending (timer_of i t0 h)) ∧
  ∃ item, (cstep s (CGet i)).2 = CItem item ∧ got i h ++ option_list item = match timer_of i t0 h with TFired t => [t] | _ => [] end.
Proof.
  intros Hn He Hnew. pose proof (CI_exec t0 h s Hn He) as HC. pose proof (ci_timer _ _ _ HC i) as H.
  assert (Hwq : bool_decide (wq i (c_waiters s) = []) = negb (is_pending (timer_of i t0 h))).
  { unfold timer_ok in H. destruct (timer_of i t0 h); simpl; [done|..].
    - destruct H as [-> _]. by rewrite bool_decide_false.
    - destruct H as [-> _]. by rewrite bool_decide_true.
    - destruct H as [-> _]. by rewrite bool_decide_true. }
  unfold cstep. rewrite (ci_hung _ _ _ HC). simpl. split; [|split].
  - by rewrite existsb_wq, Hwq, negb_involutive.
  - destruct (list_find _ _) as [[n w]|] eqn:Hf; simpl; f_equal.
    + destruct (find_wq i _ n w Hf (ci_nodup _ _ _ HC) (Waiter i 0 0 false) eq_refl) as (F1 & _). rewrite F1 in Hwq. rewrite bool_decide_false in Hwq by done. by destruct (is_pending _).
    + apply find_none in Hf. rewrite bool_decide_true in Hwq by done. by destruct (is_pending _).
  - exists (match c_queues s !! i with Some (Some t) => Some t | _ => None end). split; [by destruct (c_queues s !! i) as [[]|]|].
    unfold timer_ok, queued in H. destruct (timer_of i t0 h) as [|tg|tf|]; [done|..].
    + destruct H as (_ & -> & ->). done.
    + destruct H as (_ & <-). by destruct (c_queues s !! i) as [[]|].
    + destruct H as (_ & <-). by destruct (c_queues s !! i) as [[]|].
Qed.
Lemma ticker_life t0 h s i st p l u : no_negative_ticker h → not_misused h → exec cstep (clock_init t0) h s → ticker_of i t0 h = KTicker st p l u → 0 < p →
  (cstep s (CGet i)).2 = CItem u ∧ ∃ w k, filter (λ w, w_queue w = i) (c_waiters s) = [w] ∧ w_target w = st + k * p ∧ c_time s < w_target w ∧ l < w_target w <= l + p.
Proof.
  intros Hn Hm He Htk Hp. pose proof (CI_exec t0 h s Hn He) as HC. pose proof (ci_ticker _ _ _ HC Hm i) as H. rewrite Htk in H. destruct H as [Hl H]. destruct (H Hp) as [H1 H2]. split.
  - unfold cstep. rewrite (ci_hung _ _ _ HC), H2. by destruct u.
  - eexists _, (tick_number st p l + 1). split; [exact H1|]. simpl. split; [done|]. unfold tick_number. pose proof (Z.mul_div_le (l - st) p Hp). pose proof (Z.mul_succ_div_gt (l - st) p Hp). nia.
Qed.
Lemma never_blocks t0 h s c : no_negative_ticker h → exec cstep (clock_init t0) h s → (∀ d, c = CNewTicker d → 0 <= d) → (cstep s c).2 ≠ CHang.
Proof. intros Hn He Hc. by apply (CI_step t0 h s c (CI_exec t0 h s Hn He)). Qed.
Lemma clock_time t0 h s : no_negative_ticker h → exec cstep (clock_init t0) h s → (cstep s CNow).2 = CTime (time_after t0 h).
Proof.
  intros Hn He. pose proof (CI_exec t0 h s Hn He) as HC. unfold cstep. rewrite (ci_hung _ _ _ HC). simpl. f_equal. destruct (ci_time _ _ _ HC 0%nat) as [<- _]. clear. revert t0.
  assert (Hg : ∀ t tm, (foldl (timer_step 0) (t, tm) h).1 = time_after t h).
  { induction h as [|[c r] h IH]; intros t tm; [done|]. unfold time_after. cbn [foldl]. destruct (timer_step 0 (t, tm) (c, r)) as [t1 tm1] eqn:Hs. rewrite IH. unfold time_after. f_equal.
    destruct c; simpl in *; by injection Hs. }
  intros t0. apply Hg.
Qed.
(** 97-98 with a negative step: the target only moves away *)
Lemma negative_period fuel target p t : p < 0 → target <= t → advance fuel target p t = None.
Proof. apply advance_neg. Qed.
Lemma negative_hangs : ∃ h s, exec cstep (clock_init 0) h s ∧ h.*2 = [CQueue 0; CHang] ∧ h.*1 = [CNewTicker (-1); CStep 0] ∧ (∀ fuel, advance fuel (-1) (-1) 0 = None).
Proof.
  exists (run cstep (clock_init 0) [CNewTicker (-1); CStep 0]).2, (run cstep (clock_init 0) [CNewTicker (-1); CStep 0]).1. split; [by apply run_exec|]. split; [done|]. split; [done|].
  intros fuel. by apply advance_neg.
Qed.

(** cases *)
Definition timer_ops : list cop := [CNewTimer 10; CNewTimer 20; CReset 0 15; CStep 12; CStop 1; CGet 0; CSetTime 18; CStop 0; CReset 0 5; CGet 0; CStep 30; CGet 0; CGet 1].
Lemma timer_case : ∃ h s, exec cstep (clock_init 0) h s ∧ h.*1 = timer_ops ∧ no_negative_ticker h ∧ timer_of 0 0 h = TFired 18 ∧ timer_of 1 0 h = TStopped ∧ got 0 h = [18] ∧ got 1 h = [].
Proof.
  exists (run cstep (clock_init 0) timer_ops).2, (run cstep (clock_init 0) timer_ops).1. split; [apply run_exec|]. split; [apply run_calls|]. split; [|done].
  intros d r Hd. vm_compute in Hd. repeat (apply elem_of_cons in Hd as [Hd|Hd]; [done|]). by apply elem_of_nil in Hd.
Qed.
Definition ticker_ops : list cop := [CStep 3; CNewTicker 10; CStep 25; CStep 10; CGet 0; CSetTime 20; CStep 12; CGet 0; CTickerStop 0; CStep 15].
Lemma ticker_case : ∃ h s, exec cstep (clock_init 0) h s ∧ h.*1 = ticker_ops ∧ no_negative_ticker h ∧ not_misused h ∧ ticker_of 0 0 h = KTicker 3 10 47 (Some 47) ∧ got 0 h = [28].
Proof.
  exists (run cstep (clock_init 0) ticker_ops).2, (run cstep (clock_init 0) ticker_ops).1. split; [apply run_exec|]. split; [apply run_calls|]. split; [|split; [|done]].
  - intros d r Hd. vm_compute in Hd. repeat (apply elem_of_cons in Hd as [Hd|Hd]; [first [done|injection Hd as -> ->; lia]|]). by apply elem_of_nil in Hd.
  - intros i d d' r _. split; intros Hd; vm_compute in Hd; repeat (apply elem_of_cons in Hd as [Hd|Hd]; [done|]); by apply elem_of_nil in Hd.
Qed.
(** stop() of a ticker has no effect *)
Lemma ticker_stop_nothing s i : c_hung s = false → cstep s (CTickerStop i) = (s, CNone).
Proof. intros Hh. unfold cstep. by rewrite Hh. Qed.
Lemma stopped_ticks : ∃ h s, exec cstep (clock_init 0) h s ∧ h = [(CNewTicker 10, CQueue 0); (CTickerStop 0, CNone); (CStep 10, CNone); (CGet 0, CItem (Some 10))].
Proof. eexists _, _. split; [apply (run_exec cstep (clock_init 0) [CNewTicker 10; CTickerStop 0; CStep 10; CGet 0])|]. vm_compute. done. Qed.
(** a ticker with period 0 ticks once *)
Lemma zero_ticks_once : ∃ h s, exec cstep (clock_init 0) h s ∧ h = [(CNewTicker 0, CQueue 0); (CStep 1, CNone); (CGet 0, CItem (Some 1)); (CStep 1, CNone); (CGet 0, CItem None)] ∧ c_waiters s = [].
Proof. eexists _, _. split; [apply (run_exec cstep (clock_init 0) [CNewTicker 0; CStep 1; CGet 0; CStep 1; CGet 0])|]. vm_compute. done. Qed.

(** ** has_waiters *)
Lemma timer_made i st e : st.2 ≠ TNew → (timer_step i st e).2 ≠ TNew.
Proof. destruct st as [now tm], e as [c r]. simpl. intros H. destruct c; simpl; repeat case_bool_decide; destruct tm; simpl; repeat case_bool_decide; done. Qed.
Lemma ticker_made i st e : st.2 ≠ KNone → (ticker_step i st e).2 ≠ KNone.
Proof. destruct st as [now tk], e as [c r]. simpl. intros H. destruct c; simpl; repeat case_bool_decide; destruct tk; simpl; done. Qed.
Lemma set_waiters_length t ws qs ws' qs' : set_waiters t ws qs = Some (ws', qs') → length qs' = length qs.
Proof.
  revert qs ws' qs'. induction ws as [|w ws IH]; intros qs ws' qs' H; simpl in H; [by simplify_eq|]. repeat (case_bool_decide || case_match || (simplify_option_eq)); rewrite ?insert_length; try done;
    repeat match goal with H : set_waiters _ _ _ = Some _ |- _ => apply IH in H end; rewrite ?insert_length in *; congruence.
Qed.
Lemma every_made t0 h s : exec cstep (clock_init t0) h s → ∀ i, (i < length (c_queues s))%nat → timer_of i t0 h ≠ TNew ∨ ticker_of i t0 h ≠ KNone.
Proof.
  apply (exec_trace_inv cstep (λ h s, ∀ i, (i < length (c_queues s))%nat → timer_of i t0 h ≠ TNew ∨ ticker_of i t0 h ≠ KNone)); [simpl; lia|]. clear. intros h s c _ IH i Hi. rewrite timer_of_snoc, ticker_of_snoc.
  destruct (decide (i < length (c_queues s))%nat) as [Hl|Hl].
  { destruct (IH i Hl) as [H|H]; [left; by apply timer_made|right; by apply ticker_made]. }
  assert (∀ t, length (c_queues (set_time s t).1) = length (c_queues s)) as Hs.
  { intros t. unfold set_time. destruct (set_waiters _ _ _) as [[ws qs]|] eqn:E; simpl; [by eapply set_waiters_length|done]. }
  unfold cstep in Hi |- *. destruct (c_hung s); [simpl in *; lia|]. destruct c; simpl in *; rewrite ?Hs in Hi; try lia.
  - rewrite app_length in Hi. simpl in Hi. left. replace i with (length (c_queues s)) by lia. destruct (foldl _ _ h). simpl. by rewrite bool_decide_true.
  - rewrite app_length in Hi. simpl in Hi. right. replace i with (length (c_queues s)) by lia. destruct (foldl (ticker_step _) _ h). simpl. by rewrite bool_decide_true.
  - destruct (list_find _ _) as [[]|]; simpl in Hi; lia.
  - destruct (c_queues s !! i0) as [[]|]; simpl in Hi; rewrite ?insert_length in Hi; lia.
Qed.
Lemma has_waiters t0 h s : no_negative_ticker h → exec cstep (clock_init t0) h s → ∃ b, (cstep s CHasWaiters).2 = CBool b ∧
  (∀ i, is_pending (timer_of i t0 h) = true → b = true) ∧
  (not_misused h → ∀ i st p l u, ticker_of i t0 h = KTicker st p l u → 0 < p → b = true) ∧
  (b = true → ∃ i, is_pending (timer_of i t0 h) = true ∨ ticker_of i t0 h ≠ KNone).
Proof.
  intros Hn He. pose proof (CI_exec t0 h s Hn He) as HC. unfold cstep. rewrite (ci_hung _ _ _ HC). simpl. eexists. split; [done|].
  assert (∀ i, wq i (c_waiters s) ≠ [] → negb (bool_decide (length (c_waiters s) = 0%nat)) = true) as Hb.
  { intros i Hi. rewrite bool_decide_false; [done|]. intros E%nil_length_inv. by rewrite E in Hi. }
  split_and!.
  - intros i Hp. apply (Hb i). pose proof (ci_timer _ _ _ HC i) as H. unfold timer_ok in H. destruct (timer_of i t0 h); try done. by destruct H as [-> _].
  - intros Hm i st p l u Ht Hp. destruct (ticker_life _ _ _ _ _ _ _ _ Hn Hm He Ht Hp) as (_&w&k&Hw&_). apply (Hb i). unfold wq. by rewrite Hw.
  - intros H. apply negb_true_iff, bool_decide_eq_false in H. destruct (c_waiters s) as [|w ws] eqn:Ew; [done|].
    pose proof (ci_ws _ _ _ HC w) as Hw. rewrite Ew in Hw. destruct Hw as (Hq&_); [by left|]. exists (w_queue w). destruct (every_made _ _ _ He _ Hq) as [Ht|Ht]; [|by right]. left.
    pose proof (ci_timer _ _ _ HC (w_queue w)) as Hk. rewrite Ew in Hk || idtac. unfold timer_ok in Hk. destruct (timer_of _ _ _); try done; destruct Hk as [Hk _]; rewrite Ew, wq_cons, decide_True in Hk by done; done.
Qed.
