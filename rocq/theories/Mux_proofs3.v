From Verif Require Import Base Mux_model Mux_spec Mux_proofs Mux_proofs2.
From Coq Require Import ZArith.

Section proofs.
  Context {E : Type} (len : Z) (mode : behavior).
  Notation mux := (mux E).
  Notation mstep := (mstep (E:=E) len mode).
  Notation init := (mux_init (E:=E)).
  Implicit Types (s : mux) (tr : list (mlabel E)) (hs : list (request E * list nat)) (rs : list (request E)) (w : mwatcher E).

  (** ** nothing is handled after a shutdown *)
  Lemma handled_shape tr s : reach mstep init tr s → RShutdown ∉ (handled tr).*1 ∨ ∃ hs ms, handled tr = hs ++ [(RShutdown, ms)] ∧ RShutdown ∉ hs.*1.
  Proof.
    intros Hr. apply (reach_trace_inv mstep (λ tr s, RShutdown ∉ (handled tr).*1 ∨ ∃ hs ms, handled tr = hs ++ [(RShutdown, ms)] ∧ RShutdown ∉ hs.*1) init tr s); [..|done].
    - left. by intros ?%elem_of_nil.
    - intros ls s1 l s2 H1 IH Hst. pose proof (ctl_reach _ _ _ _ H1) as HC. rewrite handled_snoc. destruct l as [|r ms| | | | | | | | | |]; rewrite ?app_nil_r; try done.
      assert (Hn : RShutdown ∉ (handled ls).*1). { intros He%(c_ended _ _ _ HC). inversion Hst; subst; done. }
      destruct r as [e|pre|]; [left|left|right; eauto]; rewrite fmap_app; csimpl; by intros [?|?%elem_of_list_singleton]%elem_of_app.
  Qed.

  (** ** expected and due *)
  Lemma events_app_live rs rs' : RShutdown ∉ rs → events (rs ++ rs') = events rs ++ events rs'.
  Proof. induction rs as [|r rs IH]; [done|]. rewrite not_elem_of_cons. intros [Hr Hrs]. destruct r; simpl; [f_equal; by apply IH|by apply IH|done]. Qed.
  Lemma events_app_dead rs rs' : RShutdown ∈ rs → events (rs ++ rs') = events rs.
  Proof. induction rs as [|r rs IH]; [by intros ?%elem_of_nil|]. rewrite elem_of_cons. intros [<-|Hr]; [done|]. destruct r; simpl; [f_equal; by apply IH|by apply IH|done]. Qed.
  Lemma expected_app_live i rs rs' x : RShutdown ∉ rs → expected i rs = Some x → expected i (rs ++ rs') = Some (x ++ events rs').
  Proof.
    revert i. induction rs as [|r rs IH]; intros i; [done|]. rewrite not_elem_of_cons. intros [Hr Hrs]. destruct r as [e|pre|]; simpl; [by apply IH| |done].
    destruct i; [|by apply IH]. intros [= <-]. by rewrite events_app_live, app_assoc.
  Qed.
  Lemma expected_app_dead i rs rs' : RShutdown ∈ rs → expected i (rs ++ rs') = expected i rs.
  Proof.
    revert i. induction rs as [|r rs IH]; intros i; [by intros ?%elem_of_nil|]. rewrite elem_of_cons. intros [<-|Hr]; [done|]. destruct r as [e|pre|]; simpl; [by apply IH| |done].
    destruct i; [|by apply IH]. by rewrite events_app_dead.
  Qed.
  Lemma expected_none i rs : nwatch rs ≤ i → expected i rs = None.
  Proof. revert i. induction rs as [|r rs IH]; intros i; [done|]. rewrite nwatch_cons. destruct r; simpl; [apply IH| |done]. destruct i; [lia|]. intros ?. apply IH. lia. Qed.
  Lemma expected_some i rs : RShutdown ∉ rs → i < nwatch rs → is_Some (expected i rs).
  Proof.
    revert i. induction rs as [|r rs IH]; intros i; [unfold nwatch; simpl; lia|]. rewrite not_elem_of_cons, nwatch_cons. intros [Hr Hrs]. destruct r; simpl; [by apply IH| |done].
    destruct i; [eauto|]. intros ?. apply IH; [done|lia].
  Qed.
  Lemma expected_watch i rs pre : RShutdown ∉ rs → expected i (rs ++ [RWatch pre]) = if bool_decide (nwatch rs = i) then Some (default [] pre) else expected i rs.
  Proof.
    intros Hs. destruct (decide (i < nwatch rs)) as [Hlt|Hge].
    - destruct (expected_some i rs Hs Hlt) as [x Hx]. rewrite (expected_app_live i rs _ x) by done. simpl. rewrite app_nil_r, bool_decide_false by lia. done.
    - rewrite (expected_none i rs) by lia. revert i Hge. induction rs as [|r rs IH]; intros i Hge.
      + unfold nwatch. simpl. destruct i; [by rewrite app_nil_r|done].
      + apply not_elem_of_cons in Hs as [Hr Hs]. rewrite nwatch_cons in *. destruct r; simpl in *; [by apply IH| |done]. destruct i; [lia|]. rewrite IH by (done || lia). by rewrite (bool_decide_ext (S (nwatch rs) = S i) (nwatch rs = i)) by lia.
  Qed.
  Lemma due_expected_live i hs : RShutdown ∉ hs.*1 →
    match due i hs with Some x => ∃ y, expected i hs.*1 = Some y ∧ x `sublist_of` y ∧ ((∀ h, h ∈ hs → h.2 = []) → x = y) | None => expected i hs.*1 = None end.
  Proof.
    induction hs as [|[r ms] hs IH] using rev_ind; [done|]. rewrite fmap_app. csimpl. intros Hs. assert (Hs' : RShutdown ∉ hs.*1) by (intros ?; apply Hs, elem_of_app; by left). specialize (IH Hs').
    destruct r as [e|pre|].
    - rewrite due_event. destruct (due i hs) as [x|] eqn:Hd.
      + destruct IH as (y & H1 & H2 & H3). rewrite (expected_app_live i _ _ y) by done. simpl. destruct (bool_decide_reflect (i ∈ ms)) as [Hi|Hi]; eexists; (split; [done|]).
        * split; [by apply sublist_inserts_r|]. intros Hms. specialize (Hms (REvent e, ms) ltac:(apply elem_of_app; right; by left)). simpl in Hms. subst. by apply elem_of_nil in Hi.
        * split; [by apply sublist_app|]. intros Hms. f_equal. apply H3. intros h Hh. apply Hms. apply elem_of_app. by left.
      + assert (expected i (hs.*1 ++ [REvent e]) = None); [|by destruct (bool_decide _)]. apply expected_none. rewrite nwatch_snoc. destruct (decide (nwatch hs.*1 ≤ i)); [lia|].
        destruct (expected_some i hs.*1 Hs' ltac:(lia)). congruence.
    - rewrite due_snoc, due_state, expected_watch by done. simpl. destruct (bool_decide _).
      + eexists. split; [done|]. split; done.
      + destruct (due i hs) as [x|]; [|done]. destruct IH as (y & H1 & H2 & H3). exists y. split; [done|]. split; [done|]. intros Hms. apply H3. intros h Hh. apply Hms. apply elem_of_app. by left.
    - destruct Hs. apply elem_of_app. right. by left.
  Qed.

  Definition ended s : bool := match m_phase s with MEnded => true | _ => false end.
  Lemma due_accepted i tr s x : reach mstep init tr s → due i (handled tr) = Some x →
    ∃ y, expected i (accepted tr) = Some (y ++ if ended s then [] else events (m_incoming s)) ∧ x `sublist_of` y ∧ (mode = WaitIfFull → x = y).
  Proof.
    intros Hr Hd. pose proof (ctl_reach _ _ _ _ Hr) as HC. rewrite (c_fifo _ _ _ HC). assert (Hm := c_missed _ _ _ HC). destruct (handled_shape _ _ Hr) as [Hs|(hs & ms & Hs & Hn)].
    - pose proof (due_expected_live i (handled tr) Hs) as H. rewrite Hd in H. destruct H as (y & H1 & H2 & H3). exists y. rewrite (expected_app_live i _ _ y) by done. split; [|split; [done|]].
      + unfold ended. destruct (m_phase s) eqn:Hp; try done. destruct Hs. by apply (c_ended _ _ _ HC).
      + intros Hmode. apply H3. by apply Hm.
    - assert (Hin : RShutdown ∈ (handled tr).*1) by (rewrite Hs, fmap_app; apply elem_of_app; right; by left). rewrite expected_app_dead by done.
      rewrite Hs in Hd |- *. rewrite due_shutdown in Hd. pose proof (due_expected_live i hs Hn) as H. rewrite Hd in H. destruct H as (y & H1 & H2 & H3). exists y.
      rewrite fmap_app. csimpl. rewrite (expected_app_live i _ _ y) by done. split; [|split; [done|]].
      + unfold ended. apply (c_ended _ _ _ HC) in Hin as ->. done.
      + intros Hmode. apply H3. intros h Hh. apply Hm; [done|]. rewrite Hs. apply elem_of_app. by left.
  Qed.

  (** ** C56 *)
  Lemma wait_receives i tr s w : mode = WaitIfFull → reach mstep init tr s → m_ws s !! i = Some w → not_stopped i tr → no_cancel i tr →
    ∃ rest, expected i (accepted tr) = Some (received i tr ++ rest) ∧ (quiet s → rest = mw_buf w).
  Proof.
    intros Hm Hr Hw Hs Hc. pose proof (WA_reach len mode i _ _ Hr) as HW. unfold WA in HW. rewrite Hw in HW. destruct (wi_due _ _ _ _ _ HW) as (x & H1 & _ & H3). specialize (H3 Hs).
    destruct (due_accepted i tr s x Hr H1) as (y & H4 & _ & H5). specialize (H5 Hm). subst y. rewrite H4, <-H3, (wi_recv _ _ _ _ _ HW) by done. rewrite <-!app_assoc. eexists. split; [done|].
    intros [[Hp Hi]|Hp]; rewrite Hp; unfold ended; rewrite Hp; simpl; [rewrite Hi|]; by rewrite app_nil_r.
  Qed.
  Lemma wait_lost i tr s w : mode = WaitIfFull → reach mstep init tr s → m_ws s !! i = Some w → not_stopped i tr →
    ∃ rest, expected i (accepted tr) = Some (taken i tr ++ rest) ∧ received i tr `sublist_of` taken i tr ∧ length (taken i tr) ≤ length (received i tr) + leaves i tr ∧ (quiet s → rest = mw_buf w).
  Proof.
    intros Hm Hr Hw Hs. pose proof (WA_reach len mode i _ _ Hr) as HW. unfold WA in HW. rewrite Hw in HW. destruct (wi_due _ _ _ _ _ HW) as (x & H1 & _ & H3). specialize (H3 Hs).
    destruct (due_accepted i tr s x Hr H1) as (y & H4 & _ & H5). specialize (H5 Hm). subst y. rewrite H4, <-H3. rewrite <-!app_assoc. eexists. split; [done|]. split; [apply HW|].
    pose proof (wi_count _ _ _ _ _ HW). split; [lia|].
    intros [[Hp Hi]|Hp]; rewrite Hp; unfold ended; rewrite Hp; simpl; [rewrite Hi|]; by rewrite app_nil_r.
  Qed.
  Lemma receives_sublist i tr s : reach mstep init tr s → received i tr ≠ [] → ∃ x, expected i (accepted tr) = Some x ∧ received i tr `sublist_of` x.
  Proof.
    intros Hr Hne. pose proof (WA_reach len mode i _ _ Hr) as HW. unfold WA in HW. destruct (m_ws s !! i) as [w|]; [|by destruct (wn_recv _ _ HW)].
    destruct (wi_due _ _ _ _ _ HW) as (x & H1 & H2 & _). destruct (due_accepted i tr s x Hr H1) as (y & H4 & H5 & _). eexists. split; [done|].
    etrans; [apply (wi_sub _ _ _ _ _ HW)|]. etrans; [|apply sublist_inserts_r, H5]. etrans; [|exact H2]. by apply sublist_inserts_r.
  Qed.

  Notation can_go := (can_go len mode).
  Lemma idle_goes s : m_phase s = MIdle → m_incoming s ≠ [] → can_go s.
  Proof.
    destruct s as [q p reg ws]. simpl. intros -> Hq. destruct q as [|r q]; [done|]. destruct r as [e|pre|].
    - destruct mode eqn:Hm.
      + eexists (MTake _ _), _. split; [by apply m_take_wait|done].
      + destruct (drop_dist e reg ws) as [ws' ms] eqn:Hd. eexists (MTake _ _), _. split; [by eapply m_take_drop|done].
    - eexists (MTake _ _), _. split; [by apply m_take_watch|done].
    - eexists (MTake _ _), _. split; [by apply m_take_shutdown|done].
  Qed.
  Lemma goes_or_blocked tr s : reach mstep init tr s → ¬ quiet s → can_go s ∨ ∃ i, blocked i s.
  Proof.
    intros Hr Hq. pose proof (ctl_reach _ _ _ _ Hr) as HC. destruct (m_phase s) as [|e ids j|] eqn:Hp.
    - left. apply idle_goes; [done|]. intros ?. apply Hq. by left.
    - destruct (c_dist _ _ _ HC _ _ _ Hp) as (H1 & _ & H2 & _). destruct ids as [|i ids]; [done|]. destruct (lookup_lt_is_Some_2 _ _ (H2 i ltac:(left))) as [w Hw].
      destruct s as [q p reg ws]. simpl in *. subst p. destruct (mw_stopped w) eqn:Hs.
      + left. destruct j; eexists _, _; (split; [|]); [eapply m_joined; eauto|done|eapply m_skip; eauto|done].
      + destruct j.
        * destruct (mw_unfinished w) as [|u] eqn:Hu; [left; eexists _, _; split; [eapply m_joined; eauto|done]|]. right. exists i, w, e, ids, true. simpl. repeat split; try done. right. rewrite Hu. split; [done|lia].
        * destruct (mfull w) eqn:Hf; [|left; eexists _, _; split; [eapply m_put; eauto|done]]. right. exists i, w, e, ids, false. simpl. repeat split; try done. by left.
    - destruct Hq. by right.
  Qed.
  Lemma drop_not_blocked tr s : mode = DropIfFull → reach mstep init tr s → ¬ quiet s → can_go s.
  Proof.
    intros Hm Hr Hq. destruct (goes_or_blocked tr s Hr Hq) as [?|(i & w & e & ids & j & Hp & _)]; [done|]. pose proof (ctl_reach _ _ _ _ Hr) as HC. destruct (c_dist _ _ _ HC _ _ _ Hp) as (_ & _ & _ & ?). congruence.
  Qed.

  (** reading unblocks *)
  Lemma read_all e (q : list (request E)) reg i : ∀ b ws ids j m u st lt lv lo, ws !! i = Some (MW m b u st lt lv lo) →
    ∃ ls s', reach mstep (Mux q (MDist e ids j) reg ws) ls s' ∧ (∀ l, l ∈ ls → l = MNext i ∨ ∃ e, l = MReturn i e) ∧ m_phase s' = MDist e ids j ∧ m_incoming s' = q ∧ m_reg s' = reg ∧
      m_ws s' !! i = Some (MW m [] (if bool_decide (m = 0%Z) then u - length b else u) st lt lv lo).
  Proof.
    induction b as [|e0 b IH]; intros ws ids j m u st lt lv lo Hw.
    - exists [], (Mux q (MDist e ids j) reg ws). split; [constructor|]. split; [by intros l ?%elem_of_nil|]. simpl. repeat split; try done. rewrite Hw. simpl. rewrite Nat.sub_0_r. by destruct (bool_decide _).
    - assert (Hlt : i < length ws) by (by eapply lookup_lt_Some). 
      destruct (IH (<[i := MW m b (if bool_decide (m = 0%Z) then pred u else u) st lt lv lo]> (<[i := MW m (e0 :: b) u st lt (S lv) lo]> ws)) ids j m (if bool_decide (m = 0%Z) then pred u else u) st lt lv lo) as (ls & s' & H1 & H2 & H3 & H4 & H5 & H6).
      { apply list_lookup_insert. by rewrite insert_length. }
      exists (MNext i :: MReturn i e0 :: ls), s'. split.
      + eapply reach_cons; [by eapply m_next|]. eapply reach_cons; [eapply m_return; by apply list_lookup_insert|exact H1].
      + split; [intros l [->|[->|?]%elem_of_cons]%elem_of_cons; [by left|right; eauto|by apply H2]|]. repeat split; try done. rewrite H6. simpl. destruct (bool_decide _); [|done]. do 2 f_equal. lia.
  Qed.
  Lemma reader_unblocks i tr s : reach mstep init tr s → blocked i s → no_cancel i tr → not_stopped i tr →
    ∃ ls s', reach mstep s ls s' ∧ (∀ l, l ∈ ls → l = MNext i ∨ ∃ e, l = MReturn i e) ∧ can_go s'.
  Proof.
    intros Hr (w & e & ids & j & Hp & Hw & Hs & Hb) Hc Hns. pose proof (WA_reach len mode i _ _ Hr) as HW. unfold WA in HW. rewrite Hw in HW. destruct s as [q p reg ws]. simpl in *. subst p. destruct w as [m b u st lt lv lo].
    destruct (read_all e q reg i b ws (i :: ids) j m u st lt lv lo Hw) as (ls & s' & H1 & H2 & H3 & H4 & H5 & H6). exists ls, s'. split; [done|]. split; [done|].
    destruct s' as [q' p' reg' ws']. simpl in *. subst. destruct Hb as [[-> Hf]|[-> Hu]].
    - eexists _, _. split; [eapply m_put; [done|]|done]. unfold mfull. simpl. apply bool_decide_eq_false. lia.
    - pose proof (wi_join _ _ _ _ _ HW _ _ eq_refl) as Hm. simpl in Hm. subst m. rewrite bool_decide_true in H6 by done. pose proof (wi_unf _ _ _ _ _ HW eq_refl) as Hun. rewrite (wi_recv _ _ _ _ _ HW) in Hun by done. simpl in *.
      eexists _, _. split; [eapply m_joined; [done|]|done]. simpl. left. lia.
  Qed.

  (** ** C57 *)
  Lemma drop_delivered i tr s w : mode = DropIfFull → reach mstep init tr s → m_ws s !! i = Some w → not_stopped i tr → due i (handled tr) = Some (taken i tr ++ mw_buf w).
  Proof.
    intros Hm Hr Hw Hs. pose proof (WA_reach len mode i _ _ Hr) as HW. unfold WA in HW. rewrite Hw in HW. destruct (wi_due _ _ _ _ _ HW) as (x & -> & _ & H3). rewrite <-(H3 Hs). pose proof (ctl_reach _ _ _ _ Hr) as HC.
    destruct (m_phase s) as [|e ids j|] eqn:Hp; simpl; rewrite ?app_nil_r; try done. destruct (c_dist _ _ _ HC _ _ _ Hp) as (_ & _ & _ & ?). congruence.
  Qed.
  Lemma capacity_app i rs rs' : i < nwatch rs → capacity len i (rs ++ rs') = capacity len i rs.
  Proof. revert i. induction rs as [|r0 rs IH]; intros i; [unfold nwatch; simpl; lia|]. rewrite nwatch_cons. destruct r0; simpl; [apply IH| |apply IH]. destruct i; [done|]. intros ?. apply IH. lia. Qed.
  Lemma drop_missed i tr1 e ms tr2 s x : mode = DropIfFull → reach mstep init (tr1 ++ MTake (REvent e) ms :: tr2) s → due i (handled tr1) = Some x → not_stopped i tr1 →
    let c := capacity len i (accepted tr1) in i ∈ ms ↔ (0 < c ∧ c <= Z.of_nat (length x) - Z.of_nat (length (taken i tr1)))%Z.
  Proof.
    intros Hm Hr Hx Hs. rewrite cons_middle, app_assoc in Hr. apply reach_app_inv in Hr as (s2 & Hr & _). apply reach_app_inv in Hr as (s1 & Hr & Hst). apply reach_one_inv in Hst.
    pose proof (WA_reach len mode i _ _ Hr) as HW. pose proof (ctl_reach _ _ _ _ Hr) as HC. unfold WA in HW. destruct (m_ws s1 !! i) as [w|] eqn:Hw; [|by rewrite (wn_due _ _ HW) in Hx].
    rewrite (drop_delivered i tr1 s1 w) in Hx by done. injection Hx as <-. simpl. rewrite (c_fifo _ _ _ HC), capacity_app by (rewrite <-(c_count _ _ _ HC); by eapply lookup_lt_Some). rewrite <-(wi_max _ _ _ _ _ HW).
    rewrite app_length. inversion Hst as [| | |e' q reg ws ws' ms' Hm' Hd| | | | | | | | | | |]; subst; [|congruence]. destruct (drop_dist_spec e reg ws ws' ms (c_nodup _ _ _ HC) Hd) as (_ & _ & H3). simpl in *.
    destruct (wi_live _ _ _ _ _ HW Hs ltac:(done)) as [Hreg Hst']. rewrite H3. unfold mfull. split.
    - intros [_ (w' & Hw' & _ & Hf)]. rewrite Hw in Hw'. injection Hw' as <-. apply bool_decide_eq_true in Hf. lia.
    - intros Hf. split; [done|]. exists w. split; [done|]. split; [done|]. apply bool_decide_eq_true. lia.
  Qed.

  (** ** C58 *)
  Lemma ended_all tr s : reach mstep init tr s → m_phase s = MEnded →
    ∃ rs, accepted tr = rs ++ RShutdown :: m_incoming s ∧ RShutdown ∉ rs ∧ (∀ i w, m_ws s !! i = Some w → mw_stopped w = true ∧
      (mode = WaitIfFull → not_stopped i tr → expected i (accepted tr) = Some (taken i tr ++ mw_buf w))).
  Proof.
    intros Hr Hp. pose proof (ctl_reach _ _ _ _ Hr) as HC. destruct (handled_shape _ _ Hr) as [Hs|(hs & ms & Hs & Hn)]; [by apply (c_ended _ _ _ HC) in Hp|].
    exists hs.*1. split; [|split; [done|]].
    - rewrite (c_fifo _ _ _ HC), Hs, fmap_app. csimpl. by rewrite <-app_assoc.
    - intros i w Hw. pose proof (WA_reach len mode i _ _ Hr) as HW. unfold WA in HW. rewrite Hw in HW. split; [by apply (wi_ended _ _ _ _ _ HW)|]. intros Hm Hns. destruct (wait_lost i tr s w Hm Hr Hw Hns) as (rest & H1 & _ & _ & H2).
      rewrite H1. rewrite H2; [done|]. by right.
  Qed.
  Lemma ended_step s l s' : m_phase s = MEnded → mstep s l s' → m_phase s' = MEnded ∧ m_incoming s `prefix_of` m_incoming s' ∧ length (m_ws s') = length (m_ws s) ∧
    (∀ i w, m_ws s !! i = Some w → ∃ w', m_ws s' !! i = Some w' ∧ mw_buf w = received i [l] ++ taken i (match l with MLose j e => [l] | _ => [] end) ++ mw_buf w').
  Proof.
    intros Hp Hst.
    destruct Hst as [q p reg ws r Hlt|pre q reg ws|q reg ws|e q reg ws ws' ms Hm Hd|e q reg ws Hm|e j ids q reg ws w Hw Hf|e j ids q reg ws w Hw Hs|e j ids q reg ws w Hw Hu
      |j q p reg ws w Hw|j q p reg ws w Hw Hs Hp'|j q p reg ws m b u st lt lv lo Hw|j e q p reg ws m b u st lt lv lo Hw|j q p reg ws m b u lt lv lo Hw Hb|j q p reg ws m b u st lt lv lo Hw
      |j e q p reg ws m b u st lt lv lo Hw]; simpl in *; try done; rewrite ?insert_length; (split; [done|]; split; [first [done|by eexists]|]; split; [done|]); intros i w0 Hw0; try (exists w0; by split).
    all: apply lookup_lt_Some in Hw as Hlt; destruct (decide (i = j)) as [->|Hne]; [rewrite list_lookup_insert by done; eexists; split; [done|]; rewrite Hw in Hw0; injection Hw0 as <-; simpl
      |rewrite list_lookup_insert_ne by done; exists w0; split; [done|]; unfold received, taken; simpl; rewrite ?bool_decide_false by done; done].
    all: unfold received, taken; simpl; rewrite ?bool_decide_true by done; done.
  Qed.
  Lemma ended_reach s ls s' : m_phase s = MEnded → reach mstep s ls s' → m_phase s' = MEnded ∧ m_incoming s `prefix_of` m_incoming s' ∧ length (m_ws s') = length (m_ws s) ∧
    (∀ i w, m_ws s !! i = Some w → ∃ w', m_ws s' !! i = Some w' ∧ mw_buf w = taken i ls ++ mw_buf w').
  Proof.
    intros Hp. induction 1 as [|ls s1 l s2 Hr IH Hst]; [split; [done|]; split; [done|]; split; [done|]; intros i w Hw; by exists w|]. destruct IH as (I1 & I2 & I3 & I4). destruct (ended_step s1 l s2 I1 Hst) as (J1 & J2 & J3 & J4).
    split; [done|]. split; [by etrans|]. split; [congruence|]. intros i w Hw. destruct (I4 i w Hw) as (w1 & Hw1 & Hb1). destruct (J4 i w1 Hw1) as (w2 & Hw2 & Hb2). exists w2. split; [done|]. rewrite Hb1, Hb2, taken_snoc, <-!app_assoc. f_equal.
    rewrite !app_assoc. f_equal. destruct l; try done; unfold received, taken; simpl; by destruct (bool_decide _).
  Qed.
  Lemma ended_drains tr s i w : reach mstep init tr s → m_phase s = MEnded → m_ws s !! i = Some w → 0 < mw_live w →
    match mw_buf w with e :: _ => ∃ s', mstep s (MReturn i e) s' | [] => ∃ s', mstep s (MEnd i) s' end.
  Proof.
    intros Hr Hp Hw Hl. destruct (ended_all tr s Hr Hp) as (rs & _ & _ & Hall). destruct (Hall i w Hw) as [Hst _]. destruct s as [q p reg ws]. destruct w as [m b u st lt lv lo]. simpl in *. subst. destruct lv as [|lv]; [lia|].
    destruct b as [|e b]; eexists; [eapply m_end; [done|by left]|by eapply m_return].
  Qed.
  Lemma submit_full s r s' : length (m_incoming s) = 25 → ¬ mstep s (MSubmit r) s'.
  Proof. intros Hl Hst. inversion Hst; subst; simpl in *. lia. Qed.
End proofs.

(** ** cases *)
Lemma mux_stuck_forever {E} (len : Z) (mode : behavior) (s : mux E) e ids w0 : m_phase s = MDist e (0 :: ids) true → m_ws s !! 0 = Some w0 → mw_buf w0 = [] → mw_stopped w0 = false → 0 < mw_unfinished w0 →
  ∀ ls s', reach (mstep len mode) s ls s' → MStop 0 ∉ ls →
    m_phase s' = MDist e (0 :: ids) true ∧ (∃ w, m_ws s' !! 0 = Some w ∧ mw_buf w = [] ∧ mw_stopped w = false ∧ 0 < mw_unfinished w) ∧
    ∀ i w, m_ws s !! i = Some w → mw_buf w = [] → taken i ls = [] ∧ ∃ w', m_ws s' !! i = Some w' ∧ mw_buf w' = [].
Proof.
  intros Hp Hw0 Hb0 Hs0 Hu0 ls s' Hr. induction Hr as [|ls s1 l s2 Hr IH Hst]; [intros _; split; [done|]; split; [by exists w0|]; intros i w Hw Hb; split; [done|]; by exists w|].
  intros [Hn Hl]%not_in_snoc. destruct (IH Hn) as (I1 & (v & Hv & Hvb & Hvs & Hvu) & I3). clear IH.
  assert (Hwait : ∀ ws ws' i v', m_ws s1 = ws → (ws' = ws ∨ ∃ j x x', ws !! j = Some x ∧ ws' = <[j := x']> ws ∧ mw_buf x' = mw_buf x ∧ mw_unfinished x' = mw_unfinished x ∧ (j = 0 → mw_stopped x' = mw_stopped x)) →
    (∃ w, ws' !! 0 = Some w ∧ mw_buf w = [] ∧ mw_stopped w = false ∧ 0 < mw_unfinished w) ∧ (ws !! i = Some v' → ∃ v'', ws' !! i = Some v'' ∧ mw_buf v'' = mw_buf v')).
  { intros ws ws' i v' <- [->|(j & x & x' & Hx & -> & Hxb & Hxu & Hxs)]; [split; [by exists v|intros ?; by exists v']|]. apply lookup_lt_Some in Hx as Hlt. split.
    - destruct (decide (j = 0)) as [->|Hj]; [|rewrite list_lookup_insert_ne by done; by exists v]. rewrite list_lookup_insert by done. rewrite Hv in Hx. injection Hx as <-. exists x'. split; [done|]. rewrite Hxb, Hxu, Hxs by done. done.
    - intros Hi. destruct (decide (j = i)) as [->|Hj]; [|rewrite list_lookup_insert_ne by done; by exists v']. rewrite list_lookup_insert by done. rewrite Hi in Hx. injection Hx as <-. by exists x'. }
  assert (Hfin : ∀ ws', (ws' = m_ws s1 ∨ ∃ j x x', m_ws s1 !! j = Some x ∧ ws' = <[j := x']> (m_ws s1) ∧ mw_buf x' = mw_buf x ∧ mw_unfinished x' = mw_unfinished x ∧ (j = 0 → mw_stopped x' = mw_stopped x)) →
    (∀ i, taken i (ls ++ [l]) = taken i ls) → (∃ w, ws' !! 0 = Some w ∧ mw_buf w = [] ∧ mw_stopped w = false ∧ 0 < mw_unfinished w) ∧
    ∀ i w, m_ws s !! i = Some w → mw_buf w = [] → taken i (ls ++ [l]) = [] ∧ ∃ w', ws' !! i = Some w' ∧ mw_buf w' = []).
  { intros ws' Hws Ht. split; [by eapply (Hwait _ _ 0 v)|]. intros i w Hw Hb. rewrite Ht. destruct (I3 i w Hw Hb) as (H1 & w' & Hw' & Hb'). split; [done|].
    destruct (Hwait _ _ i w' eq_refl Hws) as [_ (w'' & ? & ?)]; [done|]. exists w''. split; [done|]. congruence. }
  destruct Hst as [q p reg ws r Hlt|pre q reg ws|q reg ws|e' q reg ws ws' ms Hm Hd|e' q reg ws Hm|e' j ids' q reg ws w Hw Hf|e' j ids' q reg ws w Hw Hs|e' j ids' q reg ws w Hw Hu
      |j q p reg ws w Hw|j q p reg ws w Hw Hs Hp'|j q p reg ws m b u st lt lv lo Hw|j e' q p reg ws m b u st lt lv lo Hw|j q p reg ws m b u lt lv lo Hw Hb|j q p reg ws m b u st lt lv lo Hw
      |j e' q p reg ws m b u st lt lv lo Hw]; simpl in *; try done.
  - split; [done|]. apply Hfin; [by left|]. intros i. rewrite taken_snoc. by rewrite app_nil_r.
  - injection I1 as -> -> ->. rewrite Hv in Hw. injection Hw as <-. destruct Hu as [Hu|Hu]; [lia|congruence].
  - split; [done|]. apply Hfin; [|intros i; rewrite taken_snoc; by rewrite app_nil_r]. right. exists j, w, (mstop w). repeat split; try done. intros ->. done.
  - split; [done|]. apply Hfin; [by left|]. intros i. rewrite taken_snoc. by rewrite app_nil_r.
  - split; [done|]. apply Hfin; [|intros i; rewrite taken_snoc; by rewrite app_nil_r]. right. by eexists j, _, _.
  - split; [done|]. assert (j ≠ 0) by (intros ->; rewrite Hw in Hv; injection Hv as <-; done). split; [exists v; by rewrite list_lookup_insert_ne|]. intros i w Hwi Hbi. destruct (I3 i w Hwi Hbi) as (H1 & w' & Hw' & Hb').
    assert (j ≠ i) by (intros ->; rewrite Hw in Hw'; injection Hw' as <-; done). rewrite taken_snoc, bool_decide_false, app_nil_r by done. split; [done|]. exists w'. by rewrite list_lookup_insert_ne.
  - split; [done|]. apply Hfin; [|intros i; rewrite taken_snoc; by rewrite app_nil_r]. right. by eexists j, _, _.
  - split; [done|]. apply Hfin; [|intros i; rewrite taken_snoc; by rewrite app_nil_r]. right. by eexists j, _, _.
  - split; [done|]. assert (j ≠ 0) by (intros ->; rewrite Hw in Hv; injection Hv as <-; done). split; [exists v; by rewrite list_lookup_insert_ne|]. intros i w Hwi Hbi. destruct (I3 i w Hwi Hbi) as (H1 & w' & Hw' & Hb').
    assert (j ≠ i) by (intros ->; rewrite Hw in Hw'; injection Hw' as <-; done). rewrite taken_snoc, bool_decide_false, app_nil_r by done. split; [done|]. exists w'. by rewrite list_lookup_insert_ne.
Qed.

(** a cancelled __anext__ on an unbuffered watcher *)
Definition stuck_trace : list (mlabel nat) :=
  [MSubmit (RWatch None); MTake (RWatch None) []; MSubmit (RWatch None); MTake (RWatch None) []; MNext 0; MCancel 0; MSubmit (REvent 1); MTake (REvent 1) []; MPut 0 1; MLose 0 1].
Definition stuck_state : mux nat := Mux [] (MDist 1 [0; 1] true) [0; 1] [MW 0 [] 1 false false 0 0; MW 0 [] 0 false false 0 0].
Lemma received_taken {E} i (tr : list (mlabel E)) : received i tr `sublist_of` taken i tr.
Proof.
  induction tr as [|l tr IH]; [done|]. unfold received, taken in *. destruct l; simpl; try done; destruct (bool_decide _); try done; [by apply sublist_skip|by apply sublist_cons].
Qed.
Lemma cancel_blocks : reach (mstep 0 WaitIfFull) mux_init stuck_trace stuck_state ∧
  ∀ ls s', reach (mstep 0 WaitIfFull) stuck_state ls s' → MStop 0 ∉ ls → m_phase s' = MDist 1 [0; 1] true ∧ ∀ i, i < 2 → received i ls = [].
Proof.
  split.
  - unfold stuck_trace, mux_init. do_step (apply m_submit; simpl; lia). do_step (apply m_take_watch). do_step (apply m_submit; simpl; lia). do_step (apply m_take_watch).
    do_step (eapply m_next; reflexivity). do_step (eapply m_cancel; reflexivity). do_step (apply m_submit; simpl; lia). do_step (apply m_take_wait; done). do_step (eapply m_put; reflexivity). do_step (eapply m_lose; reflexivity). constructor.
  - intros ls s' Hr Hn. destruct (mux_stuck_forever 0 WaitIfFull stuck_state 1 [1] (MW 0 [] 1 false false 0 0) eq_refl eq_refl eq_refl eq_refl ltac:(simpl; lia) ls s' Hr Hn) as (H1 & _ & H3). split; [done|].
    intros i Hi. assert (taken i ls = []) as Ht; [destruct i as [|[|i]]; [by eapply H3|by eapply H3|lia]|]. pose proof (received_taken i ls) as Hs. rewrite Ht in Hs. by apply sublist_nil_r in Hs.
Qed.

(** a cancelled __anext__ on a buffered watcher *)
Definition lose_trace : list (mlabel nat) :=
  [MSubmit (RWatch None); MTake (RWatch None) []; MNext 0; MCancel 0; MSubmit (REvent 1); MTake (REvent 1) []; MPut 0 1; MLose 0 1;
   MNext 0; MSubmit (REvent 2); MTake (REvent 2) []; MPut 0 2; MReturn 0 2].
Lemma cancel_loses : ∃ s w, reach (mstep 10 WaitIfFull) mux_init lose_trace s ∧ quiet s ∧ m_ws s !! 0 = Some w ∧ mw_buf w = [] ∧
  expected 0 (accepted lose_trace) = Some [1; 2] ∧ received 0 lose_trace = [2].
Proof.
  eexists _, _. split.
  - unfold lose_trace, mux_init. do_step (apply m_submit; simpl; lia). do_step (apply m_take_watch). do_step (eapply m_next; reflexivity). do_step (eapply m_cancel; reflexivity).
    do_step (apply m_submit; simpl; lia). do_step (apply m_take_wait; done). do_step (eapply m_put; reflexivity). do_step (eapply m_lose; reflexivity). do_step (eapply m_next; reflexivity).
    do_step (apply m_submit; simpl; lia). do_step (apply m_take_wait; done). do_step (eapply m_put; reflexivity). do_step (eapply m_return; reflexivity). constructor.
  - split; [by left|]. done.
Qed.

(** waiting mode, one place: the loop waits for the reader of watcher 0 *)
Definition wait_trace : list (mlabel nat) :=
  [MSubmit (RWatch None); MSubmit (REvent 1); MSubmit (RWatch (Some [7])); MSubmit (REvent 2); MTake (RWatch None) []; MTake (REvent 1) []; MPut 0 1; MTake (RWatch (Some [7])) []; MTake (REvent 2) []].
Definition wait_trace' : list (mlabel nat) :=
  [MNext 0; MReturn 0 1; MPut 0 2; MPut 1 2; MNext 1; MReturn 1 7; MNext 1; MReturn 1 2; MSubmit RShutdown; MTake RShutdown []; MNext 0; MReturn 0 2; MNext 0; MEnd 0].
Lemma wait_case : ∃ s s', reach (mstep 1 WaitIfFull) mux_init wait_trace s ∧ blocked 0 s ∧ reach (mstep 1 WaitIfFull) s wait_trace' s' ∧ quiet s' ∧
  received 0 (wait_trace ++ wait_trace') = [1; 2] ∧ received 1 (wait_trace ++ wait_trace') = [7; 2].
Proof.
  eexists _, _. split; [|split; [|split]].
  - unfold wait_trace, mux_init. do 4 (do_step (apply m_submit; simpl; lia)). do_step (apply m_take_watch). do_step (apply m_take_wait; done). do_step (eapply m_put; reflexivity). do_step (apply m_take_watch).
    do_step (apply m_take_wait; done). constructor.
  - eexists _, 2, [1], false. simpl. repeat split; try done. by left.
  - unfold wait_trace'. do_step (eapply m_next; reflexivity). do_step (eapply m_return; reflexivity). do_step (eapply m_put; reflexivity). do_step (eapply m_put; reflexivity).
    do_step (eapply m_next; reflexivity). do_step (eapply m_return; reflexivity). do_step (eapply m_next; reflexivity). do_step (eapply m_return; reflexivity).
    do_step (apply m_submit; simpl; lia). do_step (apply m_take_shutdown). do_step (eapply m_next; reflexivity). do_step (eapply m_return; reflexivity). do_step (eapply m_next; reflexivity).
    do_step (eapply m_end; [reflexivity|by left]). constructor.
  - split; [by right|]. done.
Qed.

(** dropping mode, one place *)
Definition drop_trace : list (mlabel nat) :=
  [MSubmit (RWatch None); MTake (RWatch None) []; MSubmit (REvent 1); MTake (REvent 1) []; MSubmit (REvent 2); MTake (REvent 2) [0]; MNext 0; MReturn 0 1; MSubmit (REvent 3); MTake (REvent 3) []; MNext 0; MReturn 0 3].
Lemma drop_case : ∃ s, reach (mstep 1 DropIfFull) mux_init drop_trace s ∧ received 0 drop_trace = [1; 3] ∧ due 0 (handled drop_trace) = Some [1; 3] ∧ expected 0 (accepted drop_trace) = Some [1; 2; 3].
Proof.
  eexists. split.
  - unfold drop_trace, mux_init. do_step (apply m_submit; simpl; lia). do_step (apply m_take_watch). do_step (apply m_submit; simpl; lia). eapply reach_cons; [apply m_take_drop; [done|reflexivity]|]; try compute_state.
    do_step (apply m_submit; simpl; lia). eapply reach_cons; [apply m_take_drop; [done|reflexivity]|]; try compute_state. do_step (eapply m_next; reflexivity). do_step (eapply m_return; reflexivity).
    do_step (apply m_submit; simpl; lia). eapply reach_cons; [apply m_take_drop; [done|reflexivity]|]; try compute_state. do_step (eapply m_next; reflexivity). do_step (eapply m_return; reflexivity). constructor.
  - done.
Qed.

(** after a shutdown *)
Lemma watch_after_shutdown len mode : ∃ (s : mux nat), reach (mstep len mode) mux_init [MSubmit RShutdown; MTake RShutdown []; MSubmit (RWatch None)] s ∧
  ∀ ls s', reach (mstep len mode) s ls s' → m_ws s' = [] ∧ ∀ r ms, MTake r ms ∉ ls.
Proof.
  exists (Mux [RWatch None] MEnded [] []). split.
  - eapply reach_cons; [apply m_submit; simpl; lia|]. eapply reach_cons; [apply m_take_shutdown|]. eapply reach_cons; [apply m_submit; simpl; lia|]. constructor.
  - intros ls s' Hr. destruct (ended_reach len mode (Mux [RWatch None] MEnded [] []) ls s' eq_refl Hr) as (H1 & _ & H2 & _). split; [by apply nil_length_inv in H2|].
    intros r ms (l1 & l2 & ->)%elem_of_list_split. rewrite cons_middle, app_assoc in Hr. apply reach_app_inv in Hr as (s2 & Hr & _). apply reach_app_inv in Hr as (s1 & Hr & Hst). apply reach_one_inv in Hst.
    destruct (ended_reach len mode (Mux [RWatch None] MEnded [] []) l1 s1 eq_refl Hr) as (H3 & _). inversion Hst; subst; done.
Qed.
Lemma fill_incoming len mode (e : nat) n : n ≤ 25 → reach (mstep len mode) (Mux [] MEnded [] []) (replicate n (MSubmit (REvent e))) (Mux (replicate n (REvent e)) MEnded [] []).
Proof.
  induction n as [|n IH]; [constructor|]. intros Hn. rewrite !replicate_S_end. eapply reach_snoc; [apply IH; lia|]. apply m_submit. rewrite replicate_length. lia.
Qed.
Lemma action_after_shutdown len mode : ∃ tr (s : mux nat), reach (mstep len mode) mux_init tr s ∧ (MTake RShutdown [] ∈ tr) ∧ ∀ ls s', reach (mstep len mode) s ls s' → ∀ r s'', ¬ mstep len mode s' (MSubmit r) s''.
Proof.
  eexists ([MSubmit RShutdown; MTake RShutdown []] ++ replicate 25 (MSubmit (REvent 0))), (Mux (replicate 25 (REvent 0)) MEnded [] []). split; [|split].
  - eapply reach_app; [|by apply fill_incoming]. eapply reach_cons; [apply m_submit; simpl; lia|]. eapply reach_cons; [apply m_take_shutdown|]. constructor.
  - right. left.
  - intros ls s' Hr r s'' Hst. destruct (ended_reach len mode (Mux (replicate 25 (REvent 0)) MEnded [] []) ls s' eq_refl Hr) as (_ & [k Hk] & _). inversion Hst as [q p reg ws r0 Hlt| | | | | | | | | | | | | |]; subst. simpl in *. subst. simpl in Hlt. lia.
Qed.
Definition end_trace : list (mlabel nat) :=
  [MSubmit (RWatch None); MSubmit (REvent 1); MSubmit RShutdown; MTake (RWatch None) []; MTake (REvent 1) []; MPut 0 1; MTake RShutdown []; MNext 0].
Lemma end_case : ∃ s w, reach (mstep 1 WaitIfFull) mux_init end_trace s ∧ m_phase s = MEnded ∧ m_ws s !! 0 = Some w ∧ 0 < mw_live w ∧ mw_buf w = [1].
Proof.
  eexists _, _. split.
  - unfold end_trace, mux_init. do 3 (do_step (apply m_submit; simpl; lia)). do_step (apply m_take_watch). do_step (apply m_take_wait; done). do_step (eapply m_put; reflexivity). do_step (apply m_take_shutdown).
    do_step (eapply m_next; reflexivity). constructor.
  - split; [done|]. split; [done|]. split; [simpl; lia|done].
Qed.
