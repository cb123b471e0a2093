From Verif Require Import Base Clock_model Clock_spec.
Local Open Scope Z_scope.

Definition wq (i : nat) (ws : list waiter) : list waiter := filter (λ w, w_queue w = i) ws.

Lemma advance_neg fuel target step t : step < 0 → target <= t → advance fuel target step t = None.
Proof. intros Hs. revert target. induction fuel as [|fuel IH]; intros target Ht; simpl; rewrite bool_decide_true by done; [done|]. apply IH. lia. Qed.
Lemma advance_pos fuel start n step t : 0 < step → start + n * step <= t → (Z.to_nat (t - (start + n * step) + 1) ≤ fuel)%nat →
  advance fuel (start + n * step) step t = Some (start + ((t - start) / step + 1) * step).
Proof.
  intros Hs. revert n. induction fuel as [|fuel IH]; intros n Ht Hf; [lia|]. simpl. rewrite bool_decide_true by done.
  assert (start + n * step + step = start + (n + 1) * step) as -> by lia.
  destruct (decide (start + (n + 1) * step <= t)) as [Hle|Hgt]; [apply IH; [done|nia]|].
  assert ((t - start) / step = n) as ->. { symmetry. apply (Z.div_unique _ _ n (t - start - n * step)); [left; lia|lia]. }
  destruct fuel; simpl; by rewrite bool_decide_false by lia.
Qed.

Lemma wq_cons i w ws : wq i (w :: ws) = if decide (w_queue w = i) then w :: wq i ws else wq i ws.
Proof. unfold wq. rewrite filter_cons. by repeat case_decide. Qed.
Lemma wq_app i ws ws' : wq i (ws ++ ws') = wq i ws ++ wq i ws'.
Proof. unfold wq. apply filter_app. Qed.
Lemma wq_none i ws : i ∉ (w_queue <$> ws) → wq i ws = [].
Proof.
  intros Hi. unfold wq. destruct (filter _ ws) as [|w l] eqn:Hf; [done|]. assert (Hw : w ∈ filter (λ w, w_queue w = i) ws) by (rewrite Hf; left).
  apply elem_of_list_filter in Hw as [<- Hw]. destruct Hi. apply elem_of_list_fmap. by exists w.
Qed.

(** what a change of the time does to one queue and its waiter *)
Definition moved (t : Z) (ow : list waiter) (q : option (option Z)) (ow' : list waiter) (q' : option (option Z)) : Prop :=
  match ow with
  | [w] =>
      if bool_decide (w_target w <= t) then
        q' = (if full q then q else (λ _, Some t) <$> q) ∧
        (if bool_decide (w_step w = 0) then ow' = [] else
           ∃ target, advance (Z.to_nat (t - w_target w + 1)) (w_target w) (w_step w) t = Some target ∧ ow' = [Waiter (w_queue w) target (w_step w) (w_skip w)])
      else q' = q ∧ ow' = ow
  | _ => q' = q ∧ ow' = ow
  end.
Lemma set_waiters_spec t ws : ∀ qs, NoDup (w_queue <$> ws) → (∀ w, w ∈ ws → (w_skip w = false → w_target w <= t → full (qs !! w_queue w) = false) ∧ 0 <= w_step w ∧ (w_queue w < length qs)%nat) →
  ∃ ws' qs', set_waiters t ws qs = Some (ws', qs') ∧ length qs' = length qs ∧ w_queue <$> ws' `sublist_of` (w_queue <$> ws) ∧
    ∀ i, moved t (wq i ws) (qs !! i) (wq i ws') (qs' !! i).
Proof.
  induction ws as [|w ws IH]; intros qs Hnd Hok.
  - exists [], qs. simpl. split; [done|]. split; [done|]. split; [done|]. intros i. by split.
  - csimpl in Hnd. apply NoDup_cons in Hnd as [Hni Hnd]. destruct (Hok w ltac:(left)) as (Hw1 & Hw2 & Hw3). simpl.
    assert (Hrest : ∀ qs1, length qs1 = length qs → (∀ j, j ≠ w_queue w → qs1 !! j = qs !! j) → ∃ ws' qs', set_waiters t ws qs1 = Some (ws', qs') ∧ length qs' = length qs ∧
      w_queue <$> ws' `sublist_of` (w_queue <$> ws) ∧ (∀ i, moved t (wq i ws) (qs1 !! i) (wq i ws') (qs' !! i)) ∧ wq (w_queue w) ws = [] ∧ wq (w_queue w) ws' = []).
    { intros qs1 Hlen Hq. destruct (IH qs1 Hnd) as (ws' & qs' & H1 & H2 & H3 & H4).
      - intros w' Hw'. destruct (Hok w' ltac:(by right)) as (H1 & H2 & H3). assert (w_queue w' ≠ w_queue w) by (intros Heq; apply Hni; apply elem_of_list_fmap; by exists w').
        rewrite Hq by done. rewrite Hlen. done.
      - exists ws', qs'. split; [done|]. split; [congruence|]. split; [done|]. split; [done|]. split; [by apply wq_none|]. apply wq_none. intros Hin. apply Hni. eapply elem_of_submseteq; [done|by apply sublist_submseteq]. }
    destruct (bool_decide_reflect (w_target w <= t)) as [Ht|Ht].
    + pose (qs1 := if full (qs !! w_queue w) then qs else <[w_queue w := Some t]> qs).
      assert (Hq1 : (if w_skip w then Some (if full (qs !! w_queue w) then qs else <[w_queue w := Some t]> qs) else if full (qs !! w_queue w) then None else Some (<[w_queue w := Some t]> qs)) = Some qs1).
      { unfold qs1. destruct (w_skip w); [done|]. by rewrite (Hw1 eq_refl Ht). }
      rewrite Hq1. cbn [mbind option_bind].
      destruct (Hrest qs1) as (ws' & qs' & H1 & H2 & H3 & H4 & H5 & H6).
      { unfold qs1. destruct (full _); [done|]. by rewrite insert_length. }
      { intros j Hj. unfold qs1. destruct (full _); [done|]. by rewrite list_lookup_insert_ne. }
      assert (Hq' : qs' !! w_queue w = if full (qs !! w_queue w) then qs !! w_queue w else (λ _, Some t) <$> (qs !! w_queue w)).
      { specialize (H4 (w_queue w)). unfold moved in H4. rewrite H5 in H4. destruct H4 as [-> _]. unfold qs1. destruct (full _); [done|]. rewrite list_lookup_insert by done.
        by apply lookup_lt_is_Some_2 in Hw3 as [x ->]. }
      destruct (bool_decide_reflect (w_step w = 0)) as [Hz|Hz].
      * exists ws', qs'. split; [done|]. split; [done|]. split; [by apply sublist_cons|]. intros i. rewrite wq_cons. destruct (decide (w_queue w = i)) as [<-|Hne].
        -- rewrite H5, H6. unfold moved. rewrite bool_decide_true by done. rewrite (bool_decide_true (w_step w = 0)) by done. done.
        -- specialize (H4 i). unfold qs1 in H4. destruct (full _); [done|]. by rewrite list_lookup_insert_ne in H4.
      * assert (Hp : 0 < w_step w) by lia. pose proof (advance_pos (Z.to_nat (t - w_target w + 1)) (w_target w) 0 (w_step w) t Hp) as Ha.
        rewrite Z.mul_0_l, Z.add_0_r in Ha. specialize (Ha Ht ltac:(lia)). rewrite Ha. cbn [mbind option_bind]. rewrite H1. cbn [mbind option_bind].
        eexists _, qs'. split; [done|]. split; [done|]. split; [csimpl; by apply sublist_skip|]. intros i. rewrite !wq_cons. simpl. destruct (decide (w_queue w = i)) as [<-|Hne].
        -- rewrite H5, H6. unfold moved. rewrite bool_decide_true by done. rewrite (bool_decide_false (w_step w = 0)) by done. split; [done|]. eexists. split; [exact Ha|done].
        -- specialize (H4 i). unfold qs1 in H4. destruct (full _); [done|]. by rewrite list_lookup_insert_ne in H4.
    + destruct (Hrest qs eq_refl ltac:(done)) as (ws' & qs' & H1 & H2 & H3 & H4 & H5 & H6). rewrite H1. cbn [mbind option_bind].
      eexists _, qs'. split; [done|]. split; [done|]. split; [csimpl; by apply sublist_skip|]. intros i. rewrite !wq_cons. destruct (decide (w_queue w = i)) as [<-|Hne]; [|apply H4].
      rewrite H5, H6. unfold moved. rewrite bool_decide_false by done. specialize (H4 (w_queue w)). rewrite H5 in H4. by destruct H4 as [-> _].
Qed.

Definition queued (i : nat) (s : clock) : list Z := match c_queues s !! i with Some (Some t) => [t] | _ => [] end.
Definition timer_ok (i : nat) (h : chist) (s : clock) (tm : timer) : Prop :=
  match tm with
  | TNew => ∀ w, w ∈ wq i (c_waiters s) → w_skip w = true
  | TPending tg => wq i (c_waiters s) = [Waiter i tg 0 false] ∧ c_queues s !! i = Some None ∧ got i h = []
  | TFired t => wq i (c_waiters s) = [] ∧ got i h ++ queued i s = [t]
  | TStopped => wq i (c_waiters s) = [] ∧ got i h ++ queued i s = []
  end.
Definition ticker_ok (i : nat) (s : clock) (tk : ticker) : Prop :=
  match tk with
  | KNone => True
  | KTicker st p l u => c_time s <= l ∧ (0 < p → wq i (c_waiters s) = [Waiter i (st + (tick_number st p l + 1) * p) p true] ∧ c_queues s !! i = Some u)
  end.
Record CI (t0 : Z) (h : chist) (s : clock) : Prop := {
  ci_hung : c_hung s = false;
  ci_nodup : NoDup (w_queue <$> c_waiters s);
  ci_ws : ∀ w, w ∈ c_waiters s → (w_queue w < length (c_queues s))%nat ∧ 0 <= w_step w ∧ (w_skip w = false → w_step w = 0 ∧ c_queues s !! w_queue w = Some None);
  ci_time : ∀ i, (foldl (timer_step i) (t0, TNew) h).1 = c_time s ∧ (foldl (ticker_step i) (t0, KNone) h).1 = c_time s;
  ci_timer : ∀ i, timer_ok i h s (timer_of i t0 h);
  ci_new : ∀ i, (length (c_queues s) <= i)%nat → timer_of i t0 h = TNew ∧ ticker_of i t0 h = KNone ∧ got i h = [];
  ci_kinds : ∀ i, ticker_of i t0 h ≠ KNone → (∃ d, (CNewTicker d, CQueue i) ∈ h);
  ci_ticker : not_misused h → ∀ i, ticker_ok i s (ticker_of i t0 h)
}.

Lemma got_snoc i h e : got i (h ++ [e]) = got i h ++ got i [e].
Proof. unfold got. apply omap_app. Qed.
Lemma timer_of_snoc i t0 h e : timer_of i t0 (h ++ [e]) = (timer_step i (foldl (timer_step i) (t0, TNew) h) e).2.
Proof. unfold timer_of. by rewrite foldl_app. Qed.
Lemma ticker_of_snoc i t0 h e : ticker_of i t0 (h ++ [e]) = (ticker_step i (foldl (ticker_step i) (t0, KNone) h) e).2.
Proof. unfold ticker_of. by rewrite foldl_app. Qed.
Lemma not_misused_app h e : not_misused (h ++ e) → not_misused h.
Proof. intros H i d d' r Hin. destruct (H i d d' r) as [H1 H2]; [apply elem_of_app; by left|]. split; intros ?; [apply H1|apply H2]; apply elem_of_app; by left. Qed.
Lemma timer_state i t0 h s : CI t0 h s → foldl (timer_step i) (t0, TNew) h = (c_time s, timer_of i t0 h).
Proof. intros HC. destruct (ci_time _ _ _ HC i) as [H _]. unfold timer_of. destruct (foldl _ _ h). simpl in *. by subst. Qed.
Lemma ticker_state i t0 h s : CI t0 h s → foldl (ticker_step i) (t0, KNone) h = (c_time s, ticker_of i t0 h).
Proof. intros HC. destruct (ci_time _ _ _ HC i) as [_ H]. unfold ticker_of. destruct (foldl _ _ h). simpl in *. by subst. Qed.
Lemma wq_elem i w ws : w ∈ wq i ws ↔ w ∈ ws ∧ w_queue w = i.
Proof. unfold wq. rewrite elem_of_list_filter. tauto. Qed.

Section step.
  Context (t0 : Z).
  Implicit Types (h : chist) (s : clock) (e : cop * cres).
  Lemma CI_same h s e : CI t0 h s → (∀ i, timer_step i (c_time s, timer_of i t0 h) e = (c_time s, timer_of i t0 h)) →
    (∀ i, ticker_ok i s (ticker_of i t0 h) → ticker_ok i s (ticker_step i (c_time s, ticker_of i t0 h) e).2) →
    (∀ i, (ticker_step i (c_time s, ticker_of i t0 h) e).1 = c_time s ∧ (ticker_of i t0 h = KNone → (ticker_step i (c_time s, ticker_of i t0 h) e).2 = KNone)) →
    (∀ i, got i [e] = []) → CI t0 (h ++ [e]) s.
  Proof.
    intros HC Ht Hk Hk1 Hg. pose proof (λ i, timer_state i t0 h s HC) as HT. pose proof (λ i, ticker_state i t0 h s HC) as HK. split.
    - apply HC.
    - apply HC.
    - apply HC.
    - intros i. rewrite !foldl_app. simpl. rewrite HT, HK, Ht. split; [done|]. apply Hk1.
    - intros i. rewrite timer_of_snoc, HT, Ht. simpl. pose proof (ci_timer _ _ _ HC i) as H. unfold timer_ok in *. rewrite !got_snoc, Hg, app_nil_r. done.
    - intros i Hi. rewrite timer_of_snoc, HT, Ht, ticker_of_snoc, HK, got_snoc, Hg, app_nil_r. simpl. destruct (ci_new _ _ _ HC i Hi) as (H1 & H2 & H3). split; [done|]. split; [|done].
      by apply Hk1.
    - intros i. rewrite ticker_of_snoc, HK. intros Hn. destruct (ci_kinds _ _ _ HC i) as [d Hd]; [|exists d; apply elem_of_app; by left]. intros Hnone. apply Hn. by apply Hk1.
    - intros Hm i. pose proof (ci_ticker _ _ _ HC (not_misused_app _ _ Hm) i) as H. rewrite ticker_of_snoc, HK. by apply Hk.
  Qed.

  Lemma filter_queue_other i j ws : i ≠ j → wq i (filter (λ w, w_queue w ≠ j) ws) = wq i ws.
  Proof.
    intros Hij. unfold wq. rewrite list_filter_filter. apply list_filter_iff. intros w. split; [by intros [? _]|]. intros ->. by split.
  Qed.
  Lemma filter_queue_same j ws : wq j (filter (λ w, w_queue w ≠ j) ws) = [].
  Proof. apply wq_none. intros (w & -> & Hw)%elem_of_list_fmap. by apply elem_of_list_filter in Hw as [? _]. Qed.
  Lemma existsb_wq i ws : existsb (λ w, bool_decide (w_queue w = i)) ws = negb (bool_decide (wq i ws = [])).
  Proof.
    induction ws as [|w ws IH]; [done|]. simpl. rewrite wq_cons. destruct (decide (w_queue w = i)) as [H|H].
    - rewrite bool_decide_true by done. simpl. done.
    - rewrite bool_decide_false by done. simpl. apply IH.
  Qed.
  Lemma find_wq i ws n w : list_find (λ w, w_queue w = i) ws = Some (n, w) → NoDup (w_queue <$> ws) → ∀ w', w_queue w' = i →
    wq i ws = [w] ∧ wq i (<[n := w']> ws) = [w'] ∧ (∀ j, j ≠ i → wq j (<[n := w']> ws) = wq j ws) ∧ w_queue <$> <[n := w']> ws = w_queue <$> ws ∧ w ∈ ws ∧ w_queue w = i.
  Proof.
    intros (Hn & Hw & Hbefore)%list_find_Some Hnd w' Hw'. assert (Hlt : (n < length ws)%nat) by (by apply lookup_lt_Some in Hn).
    rewrite insert_take_drop by done. pose proof (take_drop_middle _ _ _ Hn) as Hws.
    assert (H1 : wq i (take n ws) = []). { apply wq_none. intros (x & Hx & Hin)%elem_of_list_fmap. apply elem_of_list_lookup in Hin as [k Hk]. apply lookup_take_Some in Hk as [Hk Hkn]. by eapply Hbefore. }
    assert (H2 : wq i (drop (S n) ws) = []).
    { apply wq_none. intros Hin. rewrite <-Hws, fmap_app in Hnd. csimpl in Hnd. apply NoDup_app in Hnd as (_ & _ & Hnd). apply NoDup_cons in Hnd as [Hnd _]. by rewrite Hw in Hnd. }
    split; [rewrite <-Hws at 1; rewrite wq_app, wq_cons, H1, H2; by rewrite decide_True|].
    split; [rewrite wq_app, wq_cons, H1, H2; by rewrite decide_True|].
    split; [|split; [|split; [by eapply elem_of_list_lookup_2|done]]].
    - intros j Hj. rewrite <-Hws at 3. rewrite !wq_app, !wq_cons. rewrite !decide_False by congruence. done.
    - rewrite <-Hws at 3. rewrite !fmap_app. csimpl. by rewrite Hw, Hw'.
  Qed.
  Lemma find_none i ws : list_find (λ w, w_queue w = i) ws = None → wq i ws = [].
  Proof.
    intros Hn%list_find_None. apply wq_none. intros (w & Hw & Hin)%elem_of_list_fmap. rewrite Forall_forall in Hn. by eapply Hn.
  Qed.

  Lemma CI_new h s w d c : CI t0 h s → 0 <= w_step w → (w_skip w = false → w_step w = 0) → w_queue w = length (c_queues s) → w_target w = c_time s + d →
    (c = CNewTimer d ∧ w_skip w = false ∨ c = CNewTicker d ∧ w_skip w = true ∧ w_step w = d) →
    CI t0 (h ++ [(c, CQueue (length (c_queues s)))]) (Clock (c_time s) (c_waiters s ++ [w]) (c_queues s ++ [None]) false).
  Proof.
    intros HC Hst Hsk Hq Htg Hc. pose proof (λ i, timer_state i t0 h s HC) as HT. pose proof (λ i, ticker_state i t0 h s HC) as HK.
    assert (Hfresh : length (c_queues s) ∉ (w_queue <$> c_waiters s)). { intros (w' & Hw' & Hin)%elem_of_list_fmap. apply (ci_ws _ _ _ HC) in Hin. lia. }
    assert (Hgot : ∀ i, got i [(c, CQueue (length (c_queues s)))] = []) by (intros i; by destruct Hc as [(-> & _)|(-> & _)]).
    split; simpl.
    - done.
    - rewrite fmap_app. apply NoDup_app. split; [apply HC|]. split; [|apply NoDup_singleton]. csimpl. rewrite Hq. intros x Hx ->%elem_of_list_singleton. done.
    - intros w' [Hin| ->%elem_of_list_singleton]%elem_of_app; rewrite app_length.
      + destruct (ci_ws _ _ _ HC w' Hin) as (H1 & H2 & H3). split; [simpl; lia|]. split; [done|]. intros Hs. destruct (H3 Hs) as [H4 H5]. split; [done|]. by rewrite lookup_app_l.
      + split; [simpl; lia|]. split; [done|]. intros Hs. split; [by apply Hsk|]. rewrite Hq. by apply list_lookup_middle.
    - intros i. rewrite !foldl_app. simpl. rewrite HT, HK. by destruct Hc as [(-> & _)|(-> & _)].
    - intros i. rewrite timer_of_snoc, HT. destruct (decide (i = length (c_queues s))) as [->|Hne].
      + destruct (ci_new _ _ _ HC (length (c_queues s)) ltac:(lia)) as (H1 & H2 & H3). rewrite H1. destruct Hc as [(-> & Hs)|(-> & Hs & Hp)]; simpl.
        * rewrite bool_decide_true by done. cbn [timer_ok c_waiters c_queues]. split; [|split].
          -- rewrite wq_app, wq_none, wq_cons by done. rewrite decide_True by done. simpl. destruct w as [a b c e]; simpl in *. rewrite (Hsk Hs). by subst.
          -- by apply list_lookup_middle.
          -- rewrite got_snoc, H3. done.
        * intros w' Hw'. rewrite wq_app, wq_none, wq_cons in Hw' by done. rewrite decide_True in Hw' by done. by apply elem_of_list_singleton in Hw' as ->.
      + assert ((timer_step i (c_time s, timer_of i t0 h) (c, CQueue (length (c_queues s)))).2 = timer_of i t0 h) as ->.
        { destruct Hc as [(-> & _)|(-> & _)]; simpl; [|done]. rewrite bool_decide_false; [done|]. congruence. }
        assert (Hwq : wq i (c_waiters s ++ [w]) = wq i (c_waiters s)). { rewrite wq_app, wq_cons. rewrite decide_False by congruence. by rewrite app_nil_r. }
        assert (Hqs : (i < length (c_queues s))%nat → (c_queues s ++ [None]) !! i = c_queues s !! i) by (intros; by apply lookup_app_l).
        pose proof (ci_timer _ _ _ HC i) as H. unfold timer_ok, queued in *. simpl. rewrite Hwq, !got_snoc, Hgot, !app_nil_r.
        destruct (timer_of i t0 h) eqn:Htm; [done|..]; (destruct (decide (i < length (c_queues s))%nat) as [Hlt|Hge];
          [rewrite Hqs by done; done|destruct (ci_new _ _ _ HC i) as (H1 & _); [lia|congruence]]).
    - intros i. rewrite app_length. simpl. intros Hi. destruct (ci_new _ _ _ HC i ltac:(lia)) as (H1 & H2 & H3). rewrite timer_of_snoc, ticker_of_snoc, HT, HK, H1, H2, got_snoc, H3, Hgot.
      destruct Hc as [(-> & _)|(-> & _)]; simpl; (split; [|split; [|done]]); try done; (rewrite bool_decide_false; [done|intros [= ?]; lia]).
    - intros i. rewrite ticker_of_snoc, HK. intros Hn. destruct Hc as [(-> & _)|(-> & _)]; simpl in Hn.
      + destruct (ci_kinds _ _ _ HC i Hn) as [d' Hd]. exists d'. apply elem_of_app. by left.
      + destruct (bool_decide_reflect (CQueue (length (c_queues s)) = CQueue i)) as [Heq|Heq].
        * exists d. apply elem_of_app. right. rewrite Heq. by left.
        * destruct (ci_kinds _ _ _ HC i Hn) as [d' Hd]. exists d'. apply elem_of_app. by left.
    - intros Hm i. rewrite ticker_of_snoc, HK. pose proof (ci_ticker _ _ _ HC (not_misused_app _ _ Hm) i) as H. destruct (decide (i = length (c_queues s))) as [->|Hne].
      + destruct (ci_new _ _ _ HC (length (c_queues s)) ltac:(lia)) as (H1 & H2 & H3). rewrite H2. destruct Hc as [(-> & Hs)|(-> & Hs & Hp)]; simpl; [done|].
        rewrite bool_decide_true by done. simpl. split; [lia|]. intros Hd. rewrite wq_app, wq_none, wq_cons by done. rewrite decide_True by done. split; [|by apply list_lookup_middle].
        unfold tick_number. rewrite Z.sub_diag, Z.div_0_l by lia. simpl. destruct w as [a b c e]. simpl in *. subst. do 2 f_equal. lia.
      + assert ((ticker_step i (c_time s, ticker_of i t0 h) (c, CQueue (length (c_queues s)))).2 = ticker_of i t0 h) as ->.
        { destruct Hc as [(-> & _)|(-> & _)]; simpl; [done|]. rewrite bool_decide_false; [done|]. congruence. }
        destruct (ticker_of i t0 h) as [|st p l u]; [done|]. destruct H as [Hl H]. simpl. split; [done|]. intros Hp. destruct (H Hp) as [H1 H2].
        rewrite wq_app, H1, wq_cons. rewrite decide_False by congruence. split; [done|]. rewrite lookup_app_l; [done|]. by apply lookup_lt_Some in H2.
  Qed.
End step.
