(** Proofs for C76. *)
From Coq Require Import ssreflect.
From stdpp Require Import prelude.
From Verif Require Import Base Watch_model Watch_spec.

Section proofs.
  Context {E : Type}.
  Implicit Types (tr : list (fwlabel E)) (s : fwatcher E) (rs : list (reader E)).

  Definition holds (r : reader E) : option E := match r with RD _ _ (Some e) RPending => Some e | _ => None end.
  Definition held (rs : list (reader E)) : list E := omap holds rs.
  Definition isp (r : reader E) : bool := match r_stat r with RPending => true | _ => false end.

  Lemma held_app l1 l2 : held (l1 ++ l2) = held l1 ++ held l2.
  Proof. apply omap_app. Qed.
  Lemma held_cons r l : held (r :: l) = option_list (holds r) ++ held l.
  Proof. unfold held. csimpl. by destruct (holds r). Qed.
  Lemma held_insert rs i (r r' : reader E) : rs !! i = Some r → ∃ l1 l2, held rs = l1 ++ option_list (holds r) ++ l2 ∧ held (<[i:=r']> rs) = l1 ++ option_list (holds r') ++ l2.
  Proof.
    intros H. exists (held (take i rs)), (held (drop (S i) rs)). split.
    - by rewrite -{1}(take_drop_middle rs i r H) held_app held_cons.
    - rewrite insert_take_drop; [by eapply lookup_lt_Some|]. by rewrite held_app held_cons.
  Qed.
  Lemma alter_insert rs (i : nat) (r : reader E) f : rs !! i = Some r → alter f i rs = <[i := f r]> rs.
  Proof. intros H. apply list_eq. intros j. destruct (decide (i = j)) as [<-|]; [|by rewrite list_lookup_alter_ne // list_lookup_insert_ne].
    rewrite list_lookup_alter H list_lookup_insert //. by eapply lookup_lt_Some. Qed.
  Lemma isp_insert rs i (r r' : reader E) : rs !! i = Some r → countb isp (<[i:=r']> rs) + (if isp r then 1 else 0) = countb isp rs + (if isp r' then 1 else 0).
  Proof.
    intros H. rewrite -{2}(take_drop_middle rs i r H) insert_take_drop; [by eapply lookup_lt_Some|].
    rewrite !countb_app !countb_cons. lia.
  Qed.
  Lemma held_le rs : length (held rs) ≤ countb isp rs.
  Proof. induction rs as [|[g t [e|] []] rs IH]; csimpl; rewrite ?countb_cons; csimpl; unfold held in *; lia. Qed.

  Lemma sent_snoc tr (l : fwlabel E) : sent (tr ++ [l]) = sent tr ++ match l with FWPut e => [e] | _ => [] end.
  Proof. unfold sent. rewrite omap_app. by destruct l. Qed.
  Lemma returned_snoc tr (l : fwlabel E) : returned (tr ++ [l]) = returned tr ++ match l with FWReturn _ e => [e] | _ => [] end.
  Proof. unfold returned. rewrite omap_app. by destruct l. Qed.
  Lemma begun_snoc tr (l : fwlabel E) : begun (tr ++ [l]) = begun tr + match l with FWRead _ => 1 | _ => 0 end.
  Proof. unfold begun. rewrite omap_app app_length. by destruct l. Qed.
  Lemma finished_snoc tr (l : fwlabel E) : finished (tr ++ [l]) = finished tr + match l with FWReturn _ _ | FWValueError _ _ | FWEnd _ | FWCancel _ => 1 | _ => 0 end.
  Proof. unfold finished. rewrite omap_app app_length. by destruct l. Qed.
  Lemma sbs_stopped tr tr' : FWStop ∈ tr → sent_before_stop (tr ++ tr') = sent_before_stop tr.
  Proof. induction tr as [|l tr IH]; [by intros ?%elem_of_nil|]. intros [<-|H]%elem_of_cons; [done|]. destruct l; csimpl; rewrite ?IH //. Qed.
  Lemma sbs_not_stopped tr : FWStop ∉ tr → sent_before_stop tr = sent tr.
  Proof. induction tr as [|l tr IH]; [done|]. intros [Hl H]%not_elem_of_cons. unfold sent in *. destruct l; csimpl; rewrite ?IH //. Qed.
  Lemma sbs_stop tr : sent_before_stop (tr ++ [FWStop]) = sent_before_stop tr.
  Proof. induction tr as [|l tr IH]; [done|]. destruct l; csimpl; by rewrite ?IH. Qed.

  (** in runs without reset and without a cancelled reader *)
  Record inv tr s : Prop := {
    i_ex : ∃ t q, w_tasks s = [t] ∧ w_queues s = [q] ∧
      q_unfinished q = length (q_items q) + length (held (w_readers s)) ∧
      sent tr ≡ₚ returned tr ++ held (w_readers s) ++ q_items q ∧
      length (sent tr) = length (sent_before_stop tr) + q_late q ∧
      (t = TFin → w_stopped s = true) ∧ (t = TWait → w_stopped s = false);
    i_stop : w_stopped s = true ↔ FWStop ∈ tr;
    i_lock : ∀ g, w_lock s = Some g → g = 0;
    i_rs : ∀ i r, w_readers s !! i = Some r → r_queue r = 0 ∧ r_task r = 0 ∧ r_stat r ≠ RLeft;
    i_count : begun tr = finished tr + countb isp (w_readers s);
    i_ve : ∀ i e, FWValueError i e ∉ tr;
    i_sbs : sent_before_stop tr `prefix_of` sent tr
  }.
  Lemma no_reset_app tr (l : fwlabel E) : no_reset (tr ++ [l]) → no_reset tr ∧ l ≠ FWReset.
  Proof. unfold no_reset. set_solver. Qed.
  Lemma no_rc_app tr (l : fwlabel E) : no_reader_cancelled (tr ++ [l]) → no_reader_cancelled tr ∧ ∀ i, l ≠ FWCancel i.
  Proof. unfold no_reader_cancelled. intros H. split; [|intros i ->]; [intros i|specialize (H i)]; set_solver. Qed.
  Lemma held_got rs i g t (e : E) : rs !! i = Some (RD g t (Some e) RPending) → ∃ l1 l2, held rs = l1 ++ e :: l2 ∧ ∀ r', holds r' = None → held (<[i:=r']> rs) = l1 ++ l2.
  Proof.
    intros H. exists (held (take i rs)), (held (drop (S i) rs)). split.
    - by rewrite -{1}(take_drop_middle rs i _ H) held_app held_cons.
    - intros r' Hr. rewrite insert_take_drop; [by eapply lookup_lt_Some|]. by rewrite held_app held_cons Hr.
  Qed.
  Lemma held_none rs i (r r' : reader E) : rs !! i = Some r → holds r = None → holds r' = None → held (<[i:=r']> rs) = held rs.
  Proof. intros H Hr Hr'. destruct (held_insert rs i r r' H) as (l1 & l2 & -> & ->). by rewrite Hr Hr'. Qed.

  Lemma inv_ok tr s : reach fwstep fw_init tr s → no_reset tr → no_reader_cancelled tr → inv tr s.
  Proof.
    apply (reach_trace_inv fwstep (λ tr s, no_reset tr → no_reader_cancelled tr → inv tr s)); clear tr s.
    { intros _ _. split; try done; [|set_solver|set_solver]. exists TNew, (FQ [] 0 0). by repeat split. }
    intros tr s l s' _ IH Hs Hnr Hnc.
    apply no_reset_app in Hnr as [Hnr Hl]. apply no_rc_app in Hnc as [Hnc Hc]. specialize (IH Hnr Hnc).
    destruct IH as [(t & q & Ht & Hq & Hu & Hp & Hlt & Hfin & Hwait) Hst Hlk Hrs Hct Hve Hsb].
    assert (∀ l : fwlabel E, l ≠ FWStop → FWStop ∈ tr ++ [l] ↔ FWStop ∈ tr) as Hin by set_solver.
    assert (l ≠ FWStop → (∀ e, l ≠ FWPut e) → sent_before_stop (tr ++ [l]) = sent_before_stop tr) as Hsame.
    { intros H1 H2. destruct (decide (w_stopped s = true)) as [H|H].
      - apply sbs_stopped. by apply Hst.
      - assert (FWStop ∉ tr) as H3 by by rewrite -Hst. assert (FWStop ∉ tr ++ [l]) as H4 by by rewrite Hin.
        rewrite (sbs_not_stopped _ H3) (sbs_not_stopped _ H4). rewrite sent_snoc. destruct l; rewrite ?app_nil_r //. by destruct (H2 e). }
    destruct Hs as [g st ts qs lk rs Hg|st ts qs lk rs|st ts qs rs|e st ts qs rs|g q0 st ts qs rs Hg Hu0|g st ts qs rs
      |st ts qs lk rs|i e g t0 p b u lt st ts qs lk rs Hr Hp0 Hg|i e g t0 b u lt st ts qs lk rs Hr Hg|i e g t0 b lt st ts qs lk rs Hr Hg
      |i g t0 b u lt ts qs lk rs Hr Ht0 Hg Hb|i g t0 ts qs lk rs Hr Ht0|i g t0 o st ts qs lk rs Hr]; csimpl in *; subst; try done; try by destruct (Hc i).
    - (* start *) destruct g as [|g]; [|done]. injection Hg as ->. split; csimpl; rewrite ?begun_snoc ?finished_snoc ?sent_snoc ?returned_snoc ?app_nil_r ?Hsame //.
      + eexists _, _. repeat split; [done..| |]; by destruct st.
      + by rewrite Hin.
      + lia.
      + intros i e. specialize (Hve i e). set_solver.
    - (* stop *) split; csimpl; rewrite ?begun_snoc ?finished_snoc ?sent_snoc ?returned_snoc ?app_nil_r //.
      + eexists _, _. repeat split; try done; [|by destruct t]. by rewrite sbs_stop.
      + set_solver.
      + lia.
      + intros i e. specialize (Hve i e). set_solver.
      + by rewrite sbs_stop.
    - (* put *) split; csimpl; rewrite ?begun_snoc ?finished_snoc ?sent_snoc ?returned_snoc ?app_nil_r //.
      + eexists _, _. split_and!; [done|done|..]; csimpl; try done.
        * rewrite app_length /=. lia.
        * rewrite Hp. by rewrite !assoc.
        * rewrite app_length /=. destruct st.
          -- rewrite sbs_stopped; [by apply Hst|lia].
          -- assert (FWStop ∉ tr) as H' by by rewrite -Hst. rewrite sbs_not_stopped; [by rewrite Hin|].
             rewrite sent_snoc app_length /=. rewrite sbs_not_stopped // in Hlt. lia.
      + by rewrite Hin.
      + by intros g [= <-].
      + lia.
      + intros i e'. specialize (Hve i e'). set_solver.
      + destruct st.
        * rewrite sbs_stopped; [by apply Hst|]. by apply prefix_app_r.
        * assert (FWStop ∉ tr) as H' by by rewrite -Hst. rewrite sbs_not_stopped; [by rewrite Hin|]. by rewrite sent_snoc.
    - (* joined *) split; csimpl; rewrite ?begun_snoc ?finished_snoc ?sent_snoc ?returned_snoc ?app_nil_r ?Hsame //.
      + by eexists _, _.
      + by rewrite Hin.
      + lia.
      + intros i e. specialize (Hve i e). set_solver.
    - (* abort *) split; csimpl; rewrite ?begun_snoc ?finished_snoc ?sent_snoc ?returned_snoc ?app_nil_r ?Hsame //.
      + by eexists _, _.
      + by rewrite Hin.
      + lia.
      + intros i e. specialize (Hve i e). set_solver.
    - (* read *) assert (held (rs ++ [RD 0 0 None RPending]) = held rs) as Hh by (unfold held; rewrite omap_app /= app_nil_r //).
      split; csimpl; rewrite ?begun_snoc ?finished_snoc ?sent_snoc ?returned_snoc ?app_nil_r ?Hsame ?Hh //.
      + by eexists _, _.
      + by rewrite Hin.
      + intros j r [H|[_ H]]%lookup_app_Some; [by apply (Hrs j)|]. destruct (j - length rs); [|done]. by injection H as <-.
      + rewrite countb_app countb_cons countb_nil /=. lia.
      + intros i e. specialize (Hve i e). set_solver.
    - (* take *) destruct (Hrs i _ Hr) as (Hg0 & Ht00 & Hpl); csimpl in *; subst. injection Hg as ->. destruct p; [|done|done].
      destruct (held_insert rs i _ (RD 0 0 (Some e) RPending) Hr) as (l1 & l2 & Hh & Hh'). csimpl in *.
      pose proof (isp_insert rs i _ (RD 0 0 (Some e) RPending) Hr) as Hi. csimpl in Hi.
      split; csimpl; rewrite ?begun_snoc ?finished_snoc ?sent_snoc ?returned_snoc ?app_nil_r ?Hsame //.
      + eexists _, _. split_and!; [done|done|..]; csimpl; try done; rewrite Hh' Hh in Hp |- *; rewrite ?Hh !app_length /= in Hu |- *; [lia|]. rewrite Hp. solve_Permutation.
      + by rewrite Hin.
      + intros j r. destruct (decide (i = j)) as [<-|]; [|rewrite list_lookup_insert_ne //; apply Hrs].
        rewrite list_lookup_insert; [by eapply lookup_lt_Some|by intros [= <-]].
      + lia.
      + intros j e'. specialize (Hve j e'). set_solver.
    - (* return *) destruct (Hrs i _ Hr) as (Hg0 & Ht00 & Hpl); csimpl in *; subst. injection Hg as ->.
      rewrite (alter_insert _ _ _ _ Hr). destruct (held_got rs i _ _ _ Hr) as (l1 & l2 & Hh & Hh'). specialize (Hh' (over (RD 0 0 (Some e) RPending)) eq_refl).
      pose proof (isp_insert rs i _ (over (RD 0 0 (Some e) RPending)) Hr) as Hi. csimpl in Hi.
      split; csimpl; rewrite ?begun_snoc ?finished_snoc ?sent_snoc ?returned_snoc ?app_nil_r ?Hsame //.
      + eexists _, _. split_and!; [done|done|..]; csimpl; try done; rewrite Hh' Hh in Hp |- *; rewrite ?Hh !app_length /= in Hu |- *; [lia|]. rewrite Hp. solve_Permutation.
      + by rewrite Hin.
      + intros j r. destruct (decide (i = j)) as [<-|]; [|rewrite list_lookup_insert_ne //; apply Hrs].
        rewrite list_lookup_insert; [by eapply lookup_lt_Some|by intros [= <-]].
      + lia.
      + intros j e'. specialize (Hve j e'). set_solver.
    - (* value error *) exfalso. injection Hg as ->. destruct (held_got rs i _ _ _ Hr) as (l1 & l2 & Hh & _). rewrite Hh !app_length /= in Hu. lia.
    - (* end *) destruct (Hrs i _ Hr) as (Hg0 & Ht00 & Hpl); csimpl in *; subst.
      rewrite (alter_insert _ _ _ _ Hr).
      pose proof (isp_insert rs i _ (over (RD 0 0 None RPending)) Hr) as Hi. csimpl in Hi.
      pose proof (held_none rs i _ (over (RD 0 0 None RPending)) Hr eq_refl eq_refl) as Hh.
      split; csimpl; rewrite ?begun_snoc ?finished_snoc ?sent_snoc ?returned_snoc ?app_nil_r ?Hsame ?Hh //.
      + by eexists _, _.
      + by rewrite Hin.
      + intros j r. destruct (decide (i = j)) as [<-|]; [|rewrite list_lookup_insert_ne //; apply Hrs].
        rewrite list_lookup_insert; [by eapply lookup_lt_Some|by intros [= <-]].
      + lia.
      + intros j e'. specialize (Hve j e'). set_solver.
    - (* again *) exfalso. destruct (Hrs i _ Hr) as (Hg0 & Ht00 & Hpl); csimpl in *; subst. injection Ht0 as ->. by specialize (Hfin eq_refl).
  Qed.

  (** one consumer: the order *)
  Lemma oc_app tr (l : fwlabel E) : one_consumer (tr ++ [l]) → one_consumer tr ∧ (∀ i, l = FWRead i → begun tr = finished tr).
  Proof.
    intros H. split.
    - intros pre i post ->. apply (H pre i (post ++ [l])). by rewrite -app_assoc.
    - intros i ->. by apply (H tr i []).
  Qed.
  Lemma order tr s : reach fwstep fw_init tr s → no_reset tr → no_reader_cancelled tr → one_consumer tr →
    countb isp (w_readers s) ≤ 1 ∧ ∃ q, w_queues s = [q] ∧ sent tr = returned tr ++ held (w_readers s) ++ q_items q.
  Proof.
    apply (reach_trace_inv fwstep (λ tr s, no_reset tr → no_reader_cancelled tr → one_consumer tr →
      countb isp (w_readers s) ≤ 1 ∧ ∃ q, w_queues s = [q] ∧ sent tr = returned tr ++ held (w_readers s) ++ q_items q)); clear tr s.
    { intros _ _ _. split; [by vm_compute; lia|]. by exists (FQ [] 0 0). }
    intros tr s l s' Hreach IH Hs Hnr Hnc Hoc.
    apply no_reset_app in Hnr as [Hnr Hl]. apply no_rc_app in Hnc as [Hnc Hc]. apply oc_app in Hoc as [Hoc Ho].
    pose proof (inv_ok tr s Hreach Hnr Hnc) as [(t & q & Ht & Hq & _) _ _ Hrs Hct _ _].
    destruct (IH Hnr Hnc Hoc) as (H1 & q' & Hq' & Hsent). rewrite Hq in Hq'. injection Hq' as <-.
    pose proof (held_le (w_readers s)) as Hle.
    destruct Hs as [g st ts qs lk rs Hg|st ts qs lk rs|st ts qs rs|e st ts qs rs|g q0 st ts qs rs Hg Hu0|g st ts qs rs
      |st ts qs lk rs|i e g t0 p b u lt st ts qs lk rs Hr Hp0 Hg|i e g t0 b u lt st ts qs lk rs Hr Hg|i e g t0 b lt st ts qs lk rs Hr Hg
      |i g t0 b u lt ts qs lk rs Hr Ht0 Hg Hb|i g t0 ts qs lk rs Hr Ht0|i g t0 o st ts qs lk rs Hr]; csimpl in *; subst; try done; try by destruct (Hc i).
    all: rewrite ?sent_snoc ?returned_snoc ?app_nil_r.
    - split; [done|]; by eexists.
    - split; [done|]; by eexists.
    - split; [done|]. eexists; split; [done|]. csimpl. rewrite Hsent. by rewrite -!app_assoc.
    - split; [done|]; by eexists.
    - split; [done|]; by eexists.
    - specialize (Ho _ eq_refl). split.
      + rewrite countb_app countb_cons countb_nil /=. lia.
      + eexists; split; [done|]. unfold held. rewrite omap_app /= app_nil_r //.
    - destruct (Hrs i _ Hr) as (Hg0 & Ht00 & Hpl); csimpl in *; subst. injection Hg as ->. destruct p; [|done|done].
      destruct (held_insert rs i _ (RD 0 0 (Some e) RPending) Hr) as (l1 & l2 & Hh & Hh'). csimpl in *.
      pose proof (isp_insert rs i _ (RD 0 0 (Some e) RPending) Hr) as Hi. csimpl in Hi.
      split; [lia|]. eexists; split; [done|]. csimpl. pose proof (held_le (<[i:=RD 0 0 (Some e) RPending]> rs)) as Hle'.
      rewrite Hh' !app_length /= in Hle'. destruct l1; [|csimpl in *; lia]. destruct l2; [|csimpl in *; lia].
      by rewrite Hsent Hh Hh'.
    - destruct (Hrs i _ Hr) as (Hg0 & Ht00 & Hpl); csimpl in *; subst. injection Hg as ->.
      rewrite (alter_insert _ _ _ _ Hr). destruct (held_got rs i _ _ _ Hr) as (l1 & l2 & Hh & Hh'). specialize (Hh' (over (RD 0 0 (Some e) RPending)) eq_refl).
      pose proof (isp_insert rs i _ (over (RD 0 0 (Some e) RPending)) Hr) as Hi. csimpl in Hi.
      split; [lia|]. eexists; split; [done|]. csimpl. rewrite Hh !app_length /= in Hle.
      destruct l1; [|csimpl in *; lia]. destruct l2; [|csimpl in *; lia]. rewrite Hsent Hh Hh'. by rewrite -!app_assoc.
    - split; [|]. 2:{ eexists; split; [done|]. rewrite (alter_insert _ _ _ _ Hr). destruct (held_got rs i _ _ _ Hr) as (l1 & l2 & Hh & Hh').
      exfalso. pose proof (inv_ok tr _ Hreach Hnr Hnc) as [(t' & q' & Ht & Hq' & Hu & _) _ _ _ _ _ _]. csimpl in *. simplify_eq. rewrite Hh !app_length /= in Hu. lia. }
      rewrite (alter_insert _ _ _ _ Hr). pose proof (isp_insert rs i _ (over (RD g t0 (Some e) RPending)) Hr) as Hi. csimpl in Hi. lia.
    - rewrite (alter_insert _ _ _ _ Hr). pose proof (isp_insert rs i _ (over (RD g t0 None RPending)) Hr) as Hi. csimpl in Hi.
      split; [lia|]. eexists; split; [done|]. by rewrite (held_none rs i _ (over (RD g t0 None RPending)) Hr eq_refl eq_refl).
    - pose proof (isp_insert rs i _ (RD g 0 None RPending) Hr) as Hi. csimpl in Hi.
      split; [simpl; lia|]. eexists; split; [done|]. by rewrite (held_none rs i _ (RD g 0 None RPending) Hr eq_refl eq_refl).
  Qed.

  Lemma each_once tr s : reach fwstep fw_init tr s → no_reset tr → no_reader_cancelled tr →
    (∃ rest, sent tr ≡ₚ returned tr ++ rest) ∧ ∀ i e, FWValueError i e ∉ tr.
  Proof. intros H H1 H2. destruct (inv_ok tr s H H1 H2) as [(t & q & _ & _ & _ & Hp & _) _ _ _ _ Hve _]. split; [by eexists|done]. Qed.
  Lemma in_order tr s : reach fwstep fw_init tr s → no_reset tr → no_reader_cancelled tr → one_consumer tr → returned tr `prefix_of` sent tr.
  Proof. intros H H1 H2 H3. destruct (order tr s H H1 H2 H3) as (_ & q & _ & ->). by eexists. Qed.
  Lemma joined_inv s s' : fwstep s FWJoined s' → ∃ g q, w_lock s = Some g ∧ w_queues s !! g = Some q ∧ q_unfinished q = 0.
  Proof. inversion 1; subst. by eexists _, _. Qed.
  Lemma action_waits tr s : reach fwstep fw_init (tr ++ [FWJoined]) s → no_reset tr → no_reader_cancelled tr →
    sent tr ≡ₚ returned tr ∧ (one_consumer tr → sent tr = returned tr).
  Proof.
    intros (s1 & H & Hs%reach_one_inv)%reach_app_inv H1 H2. apply joined_inv in Hs as (g & q & Hlk & Hq & Hu).
    destruct (inv_ok tr s1 H H1 H2) as [(t & q' & _ & Hq' & Hu' & Hp & _) _ Hl _ _ _ _].
    rewrite (Hl _ Hlk) Hq' in Hq. injection Hq as <-. rewrite Hu in Hu'.
    destruct (held (w_readers s1)) eqn:Hh; [|csimpl in *; lia]. destruct (q_items q') eqn:Hi; [|csimpl in *; lia].
    simpl in Hp. rewrite app_nil_r in Hp. split; [done|]. intros H3. destruct (order tr s1 H H1 H2 H3) as (_ & q & Hqq & ->).
    rewrite Hq' in Hqq. injection Hqq as <-. by rewrite Hh Hi !app_nil_r.
  Qed.
  Lemma end_inv i s s' : fwstep s (FWEnd i) s' → w_stopped s = true ∧ ∃ r q, w_readers s !! i = Some r ∧ r_got r = None ∧ r_stat r = RPending ∧ w_queues s !! r_queue r = Some q ∧ length (q_items q) ≤ q_late q.
  Proof. inversion 1; subst. split; [done|]. by eexists _, _. Qed.
  Lemma ends tr i s : reach fwstep fw_init (tr ++ [FWEnd i]) s → no_reset tr → no_reader_cancelled tr → one_consumer tr →
    FWStop ∈ tr ∧ sent_before_stop tr `prefix_of` returned tr.
  Proof.
    intros (s1 & H & Hs%reach_one_inv)%reach_app_inv H1 H2 H3. apply end_inv in Hs as (Hst & r & q & Hr & Hg & Hp & Hq & Hlt).
    destruct (inv_ok tr s1 H H1 H2) as [(t & q' & _ & Hq' & Hu' & _ & Hl & _) Hs _ Hrs _ _ Hsb].
    destruct (order tr s1 H H1 H2 H3) as (Hc1 & q'' & Hq'' & Hse). rewrite Hq' in Hq''. injection Hq'' as <-.
    rewrite (proj1 (Hrs _ _ Hr)) Hq' in Hq. injection Hq as <-. split; [by apply Hs|].
    assert (held (w_readers s1) = []) as Hh.
    { pose proof (held_le (<[i := over r]> (w_readers s1))) as Hle. pose proof (isp_insert _ _ _ (over r) Hr) as Hi.
      unfold isp in Hi at 2. rewrite Hp in Hi. csimpl in Hi. rewrite (held_none _ _ _ (over r) Hr) in Hle; [by destruct r as [? ? [] ?]|by destruct r as [? ? [] ?]|].
      destruct (held (w_readers s1)); [done|csimpl in *; lia]. }
    rewrite Hh /= in Hse. destruct Hsb as [k Hk]. rewrite Hse in Hk, Hl. rewrite app_length in Hl.
    assert (sent_before_stop tr = take (length (sent_before_stop tr)) (returned tr)) as ->; [|exists (drop (length (sent_before_stop tr)) (returned tr)); by rewrite take_drop].
    rewrite -{1}(take_app (sent_before_stop tr) k) -Hk take_app_le //. lia.
  Qed.

  (** progress *)
  Lemma pending_exists rs : 0 < countb isp rs → ∃ i r, rs !! i = Some r ∧ r_stat r = RPending.
  Proof.
    intros H. destruct (decide (Exists (λ r, isp r = true) rs)) as [(r & Hr & Hp)%Exists_exists|Hn].
    - apply elem_of_list_lookup in Hr as [i Hi]. exists i, r. split; [done|]. unfold isp in Hp. by destruct (r_stat r).
    - exfalso. assert (countb isp rs = 0); [|lia]. apply countb_zero. intros x Hx. destruct (isp x) eqn:Hi; [|done]. exfalso. apply Hn, Exists_exists. by exists x.
  Qed.
  Lemma goes_on tr s : reach fwstep fw_init tr s → no_reset tr → no_reader_cancelled tr → finished tr < begun tr →
    (length (returned tr) < length (sent tr) → ∃ ls i e s', reach fwstep s (ls ++ [FWReturn i e]) s' ∧ ∀ l, l ∈ ls → consumer_label l) ∧
    (length (returned tr) = length (sent tr) → FWStop ∈ tr → ∃ ls i s', reach fwstep s (ls ++ [FWEnd i]) s' ∧ ∀ l, l ∈ ls → consumer_label l).
  Proof.
    intros H H1 H2 Hlt. destruct (inv_ok tr s H H1 H2) as [(t & q & Ht & Hq & Hu & Hp & Hl & Hf & Hw) Hst Hlk Hrs Hct _ _].
    destruct s as [st ts qs lk rs]; csimpl in *; subst. destruct q as [b u lt]; csimpl in *.
    apply Permutation_length in Hp. rewrite !app_length in Hp.
    destruct (pending_exists rs) as (i & r & Hi & Hpe); [lia|]. destruct (Hrs i r Hi) as (Hg & Htk & _).
    destruct r as [g tk o p]; csimpl in *; subst. split.
    - intros Hless. destruct (held rs) as [|e l] eqn:Hh.
      + destruct b as [|e b]; [csimpl in *; lia|].
        assert (o = None) as ->.
        { destruct o as [e'|]; [|done]. destruct (held_got rs i 0 0 e' Hi) as (l1 & l2 & Hh' & _). rewrite Hh in Hh'. by destruct l1. }
        exists [FWTake i e], i, e. eexists. split; [|by intros l ->%elem_of_list_singleton].
        eapply reach_cons; [by eapply fw_take|]. apply reach_one. eapply fw_return; csimpl.
        * rewrite list_lookup_insert //. by eapply lookup_lt_Some.
        * done.
      + assert (e ∈ held rs) as (x & Hx & Hxe)%elem_of_list_omap by (rewrite Hh; left).
        destruct x as [g tk [e'|] []]; csimpl in *; try done. injection Hxe as ->. apply elem_of_list_lookup in Hx as [j Hj].
        exists [], j, e. eexists. split; [|by intros ? ?%elem_of_nil]. apply reach_one. eapply fw_return; [done|]. csimpl. by rewrite Nat.add_succ_r.
    - intros Heq Hs. apply Hst in Hs as ->. destruct (held rs) as [|? ?] eqn:Hh; [|csimpl in *; lia]. destruct b; [|csimpl in *; lia].
      assert (o = None) as ->.
      { destruct o as [e'|]; [|done]. destruct (held_got rs i 0 0 e' Hi) as (l1 & l2 & Hh' & _). rewrite Hh in Hh'. by destruct l1. }
      destruct t.
      + exists [FWStart 0], i. eexists. split; [|by intros l ->%elem_of_list_singleton]. eapply reach_cons; [by apply fw_start|]. apply reach_one. eapply fw_end; [done|done|done|]. csimpl. lia.
      + by specialize (Hw eq_refl).
      + exists [], i. eexists. split; [|by intros ? ?%elem_of_nil]. apply reach_one. eapply fw_end; [done|done|done|]. csimpl. lia.
  Qed.
  Lemma action_returns tr s : reach fwstep fw_init tr s → no_reset tr → no_reader_cancelled tr → busy s → length (returned tr) = length (sent tr) → ∃ s', fwstep s FWJoined s'.
  Proof.
    intros H H1 H2 [g Hb] Heq. destruct (inv_ok tr s H H1 H2) as [(t & q & Ht & Hq & Hu & Hp & _) _ Hlk _ _ _ _].
    destruct s as [st ts qs lk rs]; csimpl in *; subst. rewrite (Hlk g eq_refl). apply Permutation_length in Hp. rewrite !app_length in Hp.
    eexists. eapply fw_joined; [done|]. lia.
  Qed.
End proofs.

(** what does not hold *)
Local Tactic Notation "one_step" tactic3(tac) := eapply reach_cons; [tac|]; simpl.
Lemma reset_state : reach fwstep (fw_init (E:=nat)) [FWRead 0; FWStart 0; FWReset; FWPut 7]
  (FW false [TWait; TNew] [FQ [] 0 0; FQ [7] 1 0] (Some 1) [RD 0 0 None RPending]).
Proof.
  unfold fw_init. one_step (apply fw_read). one_step (by apply fw_start). one_step (apply fw_reset). one_step (apply fw_put). constructor.
Qed.
Lemma reset_hangs : ∃ s : fwatcher nat, reach fwstep fw_init [FWRead 0; FWStart 0; FWReset; FWPut 7] s ∧
  ∀ ls s', reach fwstep s ls s' → FWStop ∉ ls → (∀ i, FWRead i ∉ ls) → (∀ i e, FWReturn i e ∉ ls) ∧ (∀ i, FWEnd i ∉ ls) ∧ FWJoined ∉ ls.
Proof.
  eexists; split; [exact reset_state|]. intros ls s'.
  set (P := λ (ls : list (fwlabel nat)) (s : fwatcher nat), FWStop ∉ ls → (∀ i, FWRead i ∉ ls) →
    ((∀ i e, FWReturn i e ∉ ls) ∧ (∀ i, FWEnd i ∉ ls) ∧ FWJoined ∉ ls) ∧
    w_stopped s = false ∧ (w_tasks s !! 0 = Some TWait ∧ w_queues s !! 0 = Some (FQ [] 0 0)) ∧
    (∃ p, p ≠ ROver ∧ w_readers s = [RD 0 0 None p]) ∧ 2 ≤ length (w_queues s) ∧
    (∀ g, w_lock s = Some g → ∃ q, w_queues s !! g = Some q ∧ 0 < q_unfinished q) ).
  intros H. enough (P ls s') as HP by (intros H1 H2; by destruct (HP H1 H2)).
  revert H. apply (reach_trace_inv fwstep P); unfold P; clear.
  - intros _ _. split_and!; [set_solver|set_solver|set_solver|done|done|done|by exists RPending|csimpl; lia|]. intros g [= <-]. eexists; split; [done|]. csimpl. lia.
  - intros ls s l s' _ IH Hs Hn1 Hn2.
    assert (FWStop ∉ ls ∧ l ≠ FWStop) as [Hm1 Hl1] by set_solver.
    assert ((∀ i, FWRead i ∉ ls) ∧ ∀ i, l ≠ FWRead i) as [Hm2 Hl2].
    { split; [intros i|intros i ->]; specialize (Hn2 i); set_solver. }
    destruct (IH Hm1 Hm2) as ((Ha & Hb & Hc) & Hst & (Ht & Hq) & (p & Hp & Hrs) & Hlen & Hlk). clear IH.
    assert ((∀ i e, l ≠ FWReturn i e) → (∀ i, l ≠ FWEnd i) → l ≠ FWJoined →
      (∀ i e, FWReturn i e ∉ ls ++ [l]) ∧ (∀ i, FWEnd i ∉ ls ++ [l]) ∧ FWJoined ∉ ls ++ [l]) as Hno.
    { intros N1 N2 N3. split_and!; [intros i e|intros i|]; rewrite elem_of_app elem_of_list_singleton; intros [H|H]; [by destruct (Ha i e)|by destruct (N1 i e)|by destruct (Hb i)|by destruct (N2 i)|done|done]. }
    destruct Hs as [g st ts qs lk rs Hg|st ts qs lk rs|st ts qs rs|e st ts qs rs|g q0 st ts qs rs Hg Hu0|g st ts qs rs
      |st ts qs lk rs|i e g t0 p0 b u lt st ts qs lk rs Hr Hp0 Hg|i e g t0 b u lt st ts qs lk rs Hr Hg|i e g t0 b lt st ts qs lk rs Hr Hg
      |i g t0 b u lt ts qs lk rs Hr Ht0 Hg Hb0|i g t0 ts qs lk rs Hr Ht0|i g t0 o st ts qs lk rs Hr]; csimpl in *; subst; try done.
    all: try (destruct i as [|i]; [|done]; csimpl in Hr; simplify_eq).
    all: try by rewrite Ht in Ht0.
    all: try by destruct (Hl2 1).
    + (* start *) destruct g as [|g]; [by rewrite Ht in Hg|]. split; [by apply Hno|].
      split_and!; [done| |done|by exists p|done|done]. by rewrite list_lookup_insert_ne.
    + (* reset *) split; [by apply Hno|]. split_and!; [done|by apply lookup_app_l_Some|by apply lookup_app_l_Some|by exists p| |done].
      rewrite app_length. lia.
    + (* put *) split; [by apply Hno|]. split_and!; [done|done| |by exists p| |].
      * rewrite list_lookup_alter_ne //. lia.
      * by rewrite alter_length.
      * intros g [= <-]. destruct (lookup_lt_is_Some_2 qs (pred (length qs))) as [q Hqq]; [lia|]. exists (qput false e q). rewrite list_lookup_alter Hqq. split; [done|]. csimpl. lia.
    + (* joined *) destruct (Hlk g eq_refl) as (q & Hqq & Hu). simplify_eq. lia.
    + (* abort *) split; [by apply Hno|]. split_and!; [done|done|done|by exists p|done|done].
    + (* cancel *) split; [by apply Hno|]. split_and!; [done|done|done|by exists RLeft|done|done].
Qed.
Lemma restart_hangs : ∃ s : fwatcher nat, reach fwstep fw_init [FWRead 0; FWStart 0; FWStop; FWReset] s ∧
  ∀ ls s', reach fwstep s ls s' → FWStop ∉ ls → FWEnd 0 ∉ ls ∧ ∀ e, FWReturn 0 e ∉ ls.
Proof.
  exists (FW false [TFin; TNew] [FQ [] 0 0; FQ [] 0 0] None [RD 0 0 None RPending]). split.
  { unfold fw_init. one_step (apply fw_read). one_step (by apply fw_start). one_step (apply fw_stop). one_step (apply fw_reset). constructor. }
  intros ls s'.
  set (P := λ (ls : list (fwlabel nat)) (s : fwatcher nat), FWStop ∉ ls →
    (FWEnd 0 ∉ ls ∧ ∀ e, FWReturn 0 e ∉ ls) ∧ w_stopped s = false ∧ w_queues s !! 0 = Some (FQ [] 0 0) ∧ 2 ≤ length (w_queues s) ∧
    (∃ t p, w_readers s !! 0 = Some (RD 0 t None p) ∧ p ≠ ROver)).
  intros H. enough (P ls s') as HP by (intros H1; by destruct (HP H1)).
  revert H. apply (reach_trace_inv fwstep P); unfold P; clear.
  - intros _. split_and!; [set_solver|set_solver|done|done|csimpl; lia|]. by exists 0, RPending.
  - intros ls s l s' _ IH Hs Hn1.
    assert (FWStop ∉ ls ∧ l ≠ FWStop) as [Hm1 Hl1] by set_solver.
    destruct (IH Hm1) as ((Ha & Hb) & Hst & Hq & Hlen & (t & p & Hrd & Hp)). clear IH.
    assert (l ≠ FWEnd 0 → (∀ e, l ≠ FWReturn 0 e) → FWEnd 0 ∉ ls ++ [l] ∧ ∀ e, FWReturn 0 e ∉ ls ++ [l]) as Hno.
    { intros N1 N2. split; [|intros e]; rewrite elem_of_app elem_of_list_singleton; intros [H|H]; [done|done|by destruct (Hb e)|by destruct (N2 e)]. }
    destruct Hs as [g st ts qs lk rs Hg|st ts qs lk rs|st ts qs rs|e st ts qs rs|g q0 st ts qs rs Hg Hu0|g st ts qs rs
      |st ts qs lk rs|i e g t0 p0 b u lt st ts qs lk rs Hr Hp0 Hg|i e g t0 b u lt st ts qs lk rs Hr Hg|i e g t0 b lt st ts qs lk rs Hr Hg
      |i g t0 b u lt ts qs lk rs Hr Ht0 Hg Hb0|i g t0 ts qs lk rs Hr Ht0|i g t0 o st ts qs lk rs Hr]; csimpl in *; subst; try done.
    + split; [by apply Hno|]. split_and!; [done|done|done|by exists t, p].
    + split; [by apply Hno|]. split_and!; [done|by apply lookup_app_l_Some|rewrite app_length; lia|by exists t, p].
    + split; [by apply Hno|]. split_and!; [done|rewrite list_lookup_alter_ne //; lia|by rewrite alter_length|by exists t, p].
    + split; [by apply Hno|]. split_and!; [done|done|done|by exists t, p].
    + split; [by apply Hno|]. split_and!; [done|done|done|by exists t, p].
    + split; [by apply Hno|]. split_and!; [done|done|done|]. exists t, p. split; [by apply lookup_app_l_Some|done].
    + (* take *) split; [by apply Hno|]. destruct g as [|g]; [by rewrite Hq in Hg|]. destruct i as [|i]; [by rewrite Hrd in Hr|].
      split_and!; [done|by rewrite list_lookup_insert_ne|by rewrite insert_length|]. exists t, p. by rewrite list_lookup_insert_ne.
    + (* return *) destruct i as [|i]; [by rewrite Hrd in Hr|]. split; [by apply Hno|].
      split_and!; [done|rewrite list_lookup_insert_ne //; lia|by rewrite insert_length|]. exists t, p. by rewrite list_lookup_alter_ne.
    + destruct i as [|i]; [by rewrite Hrd in Hr|]. split; [by apply Hno|]. split_and!; [done|done|done|]. exists t, p. by rewrite list_lookup_alter_ne.
    + (* again *) split; [by apply Hno|]. split_and!; [done|done|done|]. destruct i as [|i].
      * rewrite Hrd in Hr. injection Hr as <- <- ->. eexists _, RPending. rewrite list_lookup_insert; [by eapply lookup_lt_Some|done].
      * exists t, p. by rewrite list_lookup_insert_ne.
    + (* cancel *) split; [by apply Hno|]. split_and!; [done|done|done|]. destruct i as [|i].
      * rewrite Hrd in Hr. injection Hr as <- <- <- ->. eexists _, RLeft. rewrite list_lookup_insert; [by eapply lookup_lt_Some|done].
      * exists t, p. by rewrite list_lookup_insert_ne.
Qed.
Lemma cancelled_reader_hangs : ∃ s : fwatcher nat, reach fwstep fw_init [FWRead 0; FWCancel 0; FWPut 7; FWTake 0 7] s ∧
  ∀ ls s', reach fwstep s ls s' → FWAbort ∉ ls → FWJoined ∉ ls ∧ FWReset ∉ ls ∧ (∀ e, FWPut e ∉ ls) ∧ ∀ i e, FWReturn i e ∉ ls.
Proof.
  exists (FW false [TNew] [FQ [] 1 0] (Some 0) [RD 0 0 (Some 7) RLeft]). split.
  { unfold fw_init. one_step (apply fw_read). one_step (by eapply fw_cancel). one_step (apply fw_put). one_step (by eapply fw_take). constructor. }
  intros ls s'.
  set (P := λ (ls : list (fwlabel nat)) (s : fwatcher nat), FWAbort ∉ ls →
    (FWJoined ∉ ls ∧ FWReset ∉ ls ∧ (∀ e, FWPut e ∉ ls) ∧ ∀ i e, FWReturn i e ∉ ls) ∧ w_queues s = [FQ [] 1 0] ∧ w_lock s = Some 0 ∧
    (∀ i r, w_readers s !! i = Some r → r_got r = None ∨ r_stat r = RLeft)).
  intros H. enough (P ls s') as HP by (intros H1; by destruct (HP H1)).
  revert H. apply (reach_trace_inv fwstep P); unfold P; clear.
  - intros _. split_and!; [set_solver|set_solver|set_solver|set_solver|done|done|]. intros [|i] r; [|done]. intros [= <-]. by right.
  - intros ls s l s' _ IH Hs Hn1.
    assert (FWAbort ∉ ls ∧ l ≠ FWAbort) as [Hm1 Hl1] by set_solver.
    destruct (IH Hm1) as ((Ha & Hb & Hc & Hd) & Hq & Hlk & Hrs). clear IH.
    assert (l ≠ FWJoined → l ≠ FWReset → (∀ e, l ≠ FWPut e) → (∀ i e, l ≠ FWReturn i e) →
      FWJoined ∉ ls ++ [l] ∧ FWReset ∉ ls ++ [l] ∧ (∀ e, FWPut e ∉ ls ++ [l]) ∧ ∀ i e, FWReturn i e ∉ ls ++ [l]) as Hno.
    { intros N1 N2 N3 N4. split_and!; [| |intros e|intros i e]; rewrite elem_of_app elem_of_list_singleton; intros [H|H]; [done|done|done|done|by destruct (Hc e)|by destruct (N3 e)|by destruct (Hd i e)|by destruct (N4 i e)]. }
    destruct Hs as [g st ts qs lk rs Hg|st ts qs lk rs|st ts qs rs|e st ts qs rs|g q0 st ts qs rs Hg Hu0|g st ts qs rs
      |st ts qs lk rs|i e g t0 p0 b u lt st ts qs lk rs Hr Hp0 Hg|i e g t0 b u lt st ts qs lk rs Hr Hg|i e g t0 b lt st ts qs lk rs Hr Hg
      |i g t0 b u lt ts qs lk rs Hr Ht0 Hg Hb0|i g t0 ts qs lk rs Hr Ht0|i g t0 o st ts qs lk rs Hr]; csimpl in *; subst; try done.
    all: try by (split; [by apply Hno|]; split_and!).
    + (* joined *) injection Hlk as ->. by injection Hg as <-.
    + (* read *) split; [by apply Hno|]. split_and!; [done|done|]. intros j r [H|[_ H]]%lookup_app_Some; [by apply (Hrs j)|]. destruct (j - length rs); [|done]. injection H as <-. by left.
    + (* take *) by destruct g.
    + (* return *) by destruct (Hrs _ _ Hr).
    + (* end *) split; [by apply Hno|]. split_and!; [done|done|]. intros j r. destruct (decide (i = j)) as [<-|]; [|rewrite list_lookup_alter_ne //; apply Hrs].
      rewrite list_lookup_alter Hr. intros [= <-]. by left.
    + (* again *) split; [by apply Hno|]. split_and!; [done|done|]. intros j r. destruct (decide (i = j)) as [<-|]; [|rewrite list_lookup_insert_ne //; apply Hrs].
      rewrite list_lookup_insert; [by eapply lookup_lt_Some|]. intros [= <-]. by left.
    + (* cancel *) split; [by apply Hno|]. split_and!; [done|done|]. intros j r. destruct (decide (i = j)) as [<-|]; [|rewrite list_lookup_insert_ne //; apply Hrs].
      rewrite list_lookup_insert; [by eapply lookup_lt_Some|]. intros [= <-]. by right.
Qed.
Lemma stopped_action_hangs : ∃ s : fwatcher nat, reach fwstep fw_init [FWStop; FWPut 7] s ∧
  ∀ ls s', reach fwstep s ls s' → (∀ i, FWRead i ∉ ls) → FWAbort ∉ ls → FWJoined ∉ ls ∧ FWReset ∉ ls ∧ ∀ e, FWPut e ∉ ls.
Proof.
  exists (FW true [TNew] [FQ [7] 1 1] (Some 0) []). split.
  { unfold fw_init. one_step (apply fw_stop). one_step (apply fw_put). constructor. }
  intros ls s'.
  set (P := λ (ls : list (fwlabel nat)) (s : fwatcher nat), (∀ i, FWRead i ∉ ls) → FWAbort ∉ ls →
    (FWJoined ∉ ls ∧ FWReset ∉ ls ∧ (∀ e, FWPut e ∉ ls)) ∧ w_queues s = [FQ [7] 1 1] ∧ w_lock s = Some 0 ∧ w_readers s = []).
  intros H. enough (P ls s') as HP by (intros H1 H2; by destruct (HP H1 H2)).
  revert H. apply (reach_trace_inv fwstep P); unfold P; clear.
  - intros _ _. split_and!; [set_solver|set_solver|set_solver|done|done|done].
  - intros ls s l s' _ IH Hs Hn2 Hn1.
    assert (FWAbort ∉ ls ∧ l ≠ FWAbort) as [Hm1 Hl1] by set_solver.
    assert ((∀ i, FWRead i ∉ ls) ∧ ∀ i, l ≠ FWRead i) as [Hm2 Hl2].
    { split; [intros i|intros i ->]; specialize (Hn2 i); set_solver. }
    destruct (IH Hm2 Hm1) as ((Ha & Hb & Hc) & Hq & Hlk & Hrs). clear IH.
    assert (l ≠ FWJoined → l ≠ FWReset → (∀ e, l ≠ FWPut e) →
      FWJoined ∉ ls ++ [l] ∧ FWReset ∉ ls ++ [l] ∧ (∀ e, FWPut e ∉ ls ++ [l])) as Hno.
    { intros N1 N2 N3. split_and!; [| |intros e]; rewrite elem_of_app elem_of_list_singleton; intros [H|H]; [done|done|done|done|by destruct (Hc e)|by destruct (N3 e)]. }
    destruct Hs as [g st ts qs lk rs Hg|st ts qs lk rs|st ts qs rs|e st ts qs rs|g q0 st ts qs rs Hg Hu0|g st ts qs rs
      |st ts qs lk rs|i e g t0 p0 b u lt st ts qs lk rs Hr Hp0 Hg|i e g t0 b u lt st ts qs lk rs Hr Hg|i e g t0 b lt st ts qs lk rs Hr Hg
      |i g t0 b u lt ts qs lk rs Hr Ht0 Hg Hb0|i g t0 ts qs lk rs Hr Ht0|i g t0 o st ts qs lk rs Hr]; csimpl in *; subst; try done.
    + split; [by apply Hno|]; by split_and!.
    + split; [by apply Hno|]; by split_and!.
    + injection Hlk as ->. by injection Hg as <-.
    + by destruct (Hl2 0).
Qed.
Lemma value_error : ∃ s : fwatcher nat, reach fwstep fw_init [FWRead 0; FWPut 7; FWTake 0 7; FWAbort; FWReset; FWValueError 0 7] s.
Proof.
  eexists. unfold fw_init. one_step (apply fw_read). one_step (apply fw_put). one_step (by eapply fw_take). one_step (by eapply fw_abort). one_step (apply fw_reset).
  one_step (by eapply fw_value_error). constructor.
Qed.
(** two events, the second one sent after the stop *)
Definition watch_trace : list (fwlabel nat) := [FWRead 0; FWStart 0; FWPut 7; FWTake 0 7; FWReturn 0 7; FWJoined; FWRead 1; FWStop; FWPut 8].
Lemma watch_case : ∃ s, reach fwstep fw_init watch_trace s ∧ one_consumer watch_trace ∧ no_reset watch_trace ∧ no_reader_cancelled watch_trace ∧ finished watch_trace < begun watch_trace ∧ busy s ∧
  sent watch_trace = [7; 8] ∧ sent_before_stop watch_trace = [7] ∧ returned watch_trace = [7] ∧ ∃ s', fwstep s (FWEnd 1) s'.
Proof.
  eexists. split.
  { unfold fw_init, watch_trace. one_step (apply fw_read). one_step (by apply fw_start). one_step (apply fw_put). one_step (by eapply fw_take).
    one_step (by eapply fw_return). one_step (by eapply fw_joined). one_step (apply fw_read). one_step (apply fw_stop). one_step (apply fw_put). constructor. }
  split_and!; try done.
  - intros pre i post H. unfold watch_trace in H. do 9 (destruct pre as [|? pre]; [by simplify_eq/=|]; csimpl in H; injection H as <- H). by destruct pre.
  - unfold no_reset. set_solver.
  - intros i. unfold watch_trace. set_solver.
  - vm_compute. lia.
  - by eexists.
  - eexists. eapply fw_end; [done|done|done|]. csimpl. lia.
Qed.
