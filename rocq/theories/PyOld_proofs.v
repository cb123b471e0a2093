From Verif Require Import Base WorkQueue_model DelayQueue_model RateLimit_model Controller_model PyOld_model PyOld_spec.
From Verif Require Import ManagerStop_model ManagerStop_spec ManagerStop_proofs.
From Coq Require Import ZArith QArith.
Open Scope nat_scope.

Section worker.
  Context {A : Type} `{EqDecision A} (is_request : A → bool).
  Lemma new_same (s : kstate A) l s' : vstep is_request false s l s' ↔ kstep is_request s l s'.
  Proof.
    split.
    - intros [l' s2 _ H|i p H]; [done|]. assert (cancelled_in false p = cancelled p) as -> by by destruct p. by constructor.
    - intros H. inversion H; subst; try (by apply v_same). assert (cancelled p = cancelled_in false p) as -> by by destruct p. by constructor.
  Qed.
  Lemma new_reach (s : kstate A) ls s' : reach (vstep is_request false) s ls s' ↔ reach (kstep is_request) s ls s'.
  Proof. split; induction 1; try apply reach_nil; (eapply reach_snoc; [done|]); by apply new_same. Qed.

  Definition dying (p : wphase A) : Prop := match p with WDead | WCrashed | WFinish _ RCancelled => True | _ => False end.
  Lemma insert_case (ws : list (wphase A)) i j p q : ws !! i = Some p → (<[j:=q]> ws !! i = Some q ∧ j = i) ∨ (<[j:=q]> ws !! i = Some p ∧ j ≠ i).
  Proof.
    intros H. destruct (decide (j = i)) as [->|Hn]; [left|right; by rewrite list_lookup_insert_ne].
    split; [|done]. apply list_lookup_insert. by eapply lookup_lt_Some.
  Qed.
  Lemma dying_step old (s : kstate A) l s' i p : vstep is_request old s l s' → k_ws s !! i = Some p → dying p →
    (∃ p', k_ws s' !! i = Some p' ∧ dying p') ∧ ∀ r t, l ≠ KGet i r t.
  Proof.
    intros Hs Hp Hd. destruct Hs as [l s' _ Hs|j q Hq].
    - destruct Hs as [l q' _ _|j r q' t Hw _|j x o sec ms q' w a Hw _|j x r Hw|j x r q' e Hw _|j Hw|j w Hw]; simpl;
        try (split; [by exists p|done]);
        match goal with |- context [<[j:=?w']> (k_ws s)] => destruct (insert_case (k_ws s) i j p w' Hp) as [[H ->]|[H Hn]] end;
        try (split; [by exists p|congruence]); rewrite Hw in Hp; simplify_eq; try done.
      + split; [|done]. eexists. split; [exact H|]. by destruct r, e.
      + split; [|done]. eexists. split; [exact H|]. by destruct p as [| | |? []| | |].
    - simpl. destruct (insert_case (k_ws s) i j p (cancelled_in old q) Hp) as [[H ->]|[H Hn]]; [|split; [by exists p|congruence]].
      split; [|done]. eexists. split; [exact H|]. rewrite Hq in Hp. simplify_eq. by destruct p as [| | |? []| | |].
  Qed.
  (** a worker that is cancelled takes nothing more *)
  Lemma cancel_ends old (s s1 s2 : kstate A) ls i p : k_ws s !! i = Some p →
    (p = WIdle ∨ p = WSleep ∨ (old = false ∧ ∃ x, p = WRun x ∨ ∃ r, p = WPut x r)) →
    vstep is_request old s (KCancel i) s1 → reach (vstep is_request old) s1 ls s2 → ∀ r t, KGet i r t ∉ ls.
  Proof.
    intros Hp Hc Hs Hr. assert (∃ p', k_ws s1 !! i = Some p' ∧ dying p') as H1.
    { inversion Hs as [l s' Hn _|j q Hq]; subst; [by destruct (Hn i)|]. rewrite Hp in Hq. simplify_eq. simpl.
      destruct (insert_case (k_ws s) i i q (cancelled_in old q) Hp) as [[H _]|[_ ?]]; [|done]. eexists. split; [exact H|].
      destruct Hc as [->|[->|[-> [x [->|[r ->]]]]]]; done. }
    assert ((∃ p', k_ws s2 !! i = Some p' ∧ dying p') ∧ ∀ r t, KGet i r t ∉ ls) as [_ ?]; [|done].
    induction Hr as [|ls s2 l s3 Hr [(p' & Hp' & Hd) IH] Hs']; [split; [done|by intros r t ?%elem_of_nil]|].
    destruct (dying_step _ _ _ _ _ _ Hs' Hp' Hd) as [H2 H3]. split; [done|]. intros r t [Hin|Hin%elem_of_list_singleton]%elem_of_app; [by eapply IH|].
    by destruct (H3 r t).
  Qed.
End worker.

(** before 3.8, a worker that is cancelled while it reconciles *)
Definition yes (_ : nat) : bool := true.
Definition yes_q (w : wq nat) : dq nat := with_base w (dq_init 0).
Definition busy : kstate nat := K (yes_q (WQ [] [5] [] false)) default_limiter [WRun 5].
Definition begin : list (klabel nat) := [KEnv (DAdd 5); KGet 0 (RItem 5) 0].
Definition cycle : list (klabel nat) := [KCancel 0; KDone 0 5 RNone; KWake 0; KEnv (DAdd 5); KGet 0 (RItem 5) 0].
Lemma begins : reach (vstep yes true) (kinit 0 1) begin busy.
Proof.
  eapply reach_cons; [apply v_same; [done|]; apply k_env; [done|]; exact (dt_add (dq_init 0) 5)|].
  eapply reach_cons; [|apply reach_nil]. apply v_same; [done|].
  apply (k_get yes (K (yes_q (WQ [5] [] [5] false)) default_limiter [WIdle]) 0 (RItem 5) (yes_q (WQ [] [5] [] false)) 0%Z); [done|].
  by apply (dt_get (yes_q (WQ [5] [] [5] false)) (WQ [] [5] [] false) (RItem 5)).
Qed.
Lemma cycles : reach (vstep yes true) busy cycle busy.
Proof.
  eapply reach_cons; [by apply (v_cancel yes true busy 0 (WRun 5))|].
  eapply reach_cons; [apply v_same; [done|]; apply (k_done yes (K (yes_q (WQ [] [5] [] false)) default_limiter [WFinish 5 RNothing]) 0 5 RNothing (yes_q (WQ [] [] [] false)) RNone);
    [done|]; by apply (dt_done (yes_q (WQ [] [5] [] false)) 5 (WQ [] [] [] false) RNone)|].
  eapply reach_cons; [apply v_same; [done|]; by apply (k_wake yes (K (yes_q (WQ [] [] [] false)) default_limiter [WSleep]) 0)|].
  eapply reach_cons; [apply v_same; [done|]; apply k_env; [done|]; exact (dt_add (yes_q (WQ [] [] [] false)) 5)|].
  eapply reach_cons; [|apply reach_nil]. apply v_same; [done|].
  apply (k_get yes (K (yes_q (WQ [5] [] [5] false)) default_limiter [WIdle]) 0 (RItem 5) (yes_q (WQ [] [5] [] false)) 0%Z); [done|].
  by apply (dt_get (yes_q (WQ [5] [] [5] false)) (WQ [] [5] [] false) (RItem 5)).
Qed.
Lemma old_goes_on n : ∃ ls s, reach (vstep yes true) (kinit 0 1) ls s ∧ length (cancels 0 ls) = n ∧ taken_by 0 ls = replicate (S n) 5 ∧ k_ws s = [WRun 5].
Proof.
  assert (∃ ls, reach (vstep yes true) (kinit 0 1) ls busy ∧ length (cancels 0 ls) = n ∧ taken_by 0 ls = replicate (S n) 5) as (ls & H1 & H2 & H3); [|by exists ls, busy].
  induction n as [|n (ls & H1 & H2 & H3)].
  - exists begin. split; [apply begins|]. done.
  - exists (ls ++ cycle). split; [eapply reach_app; [done|apply cycles]|]. unfold cancels, taken_by in *. rewrite !omap_app, app_length, H2, H3. simpl.
    split; [lia|]. change (replicate (S n) 5 ++ replicate 1 5 = replicate (S (S n)) 5). rewrite <-replicate_add. f_equal. lia.
Qed.

(** ** The manager *)
Lemma old_unmade_step s l s' : unmade s → ostep s l s' → unmade s'.
Proof.
  intros Hu [l' s2 H|k i c Hk Hi]; [by eapply unmade_step|]. destruct Hu as [H1 H2 H3]. split; try done.
  simpl. apply Forall_insert; [done|]. eapply Forall_lookup_1 in H2; [|exact Hk]. unfold ctl_unmade in *. simpl.
  destruct (k_phase c); try done; destruct H2 as [H2 _]; by rewrite H2 in Hi.
Qed.
Lemma old_left_step s l s' r w : unmade s → over s r → unasked s w → ostep s l s' → (∀ l', l = OT l' → ¬ own_end l' w) → over s' r ∧ unasked s' w.
Proof.
  intros Hu Ho Ha Hs Hl. destruct Hs as [l' s2 H|k i c Hk Hi]; [eapply left_step; eauto|]. split; [done|]. unfold unasked in *.
  destruct w as [j|k' j]; [done|]. simpl in *. destruct (decide (k' = k)) as [->|Hne]; [|by rewrite list_lookup_insert_ne].
  rewrite list_lookup_insert by by eapply lookup_lt_Some. rewrite Hk in Ha. simpl in *. destruct (decide (j = i)) as [->|Hj]; [|by rewrite list_lookup_insert_ne]. congruence.
Qed.
Lemma old_left_alone ls s r w ls' s' : reach ostep t_init ls s → over s r → unasked s w → reach ostep s ls' s' → (∀ l, OT l ∈ ls' → ¬ own_end l w) → unasked s' w.
Proof.
  intros Hr Ho Hu Hr' Hn. assert (Hu' : unmade s).
  { clear -Hr. induction Hr as [|ls s1 l s2 _ IH Hs]; [apply (unmade_reach [] t_init), reach_nil|]. by eapply old_unmade_step. }
  assert (over s' r ∧ unasked s' w ∧ unmade s') as (_&?&_); [|done].
  induction Hr' as [|ls' s1 l s2 Hr1 IH Hs]; [done|]. destruct IH as (I1&I2&I3); [intros l' Hl'; apply Hn, elem_of_app; by left|].
  destruct (old_left_step _ _ _ _ _ I3 I1 I2 Hs) as [J1 J2]; [intros l' ->; apply Hn, elem_of_app; right; by apply elem_of_list_singleton|]. split_and!; [done|done|by eapply old_unmade_step].
Qed.
Lemma old_reach s ls s' : reach tstep s ls s' → reach ostep s (OT <$> ls) s'.
Proof. induction 1; [apply reach_nil|]. rewrite fmap_app. eapply reach_snoc; [done|]. by constructor. Qed.

Definition mgr_up : list tlabel := [TBegin; TCacheBegin 1; TLaunch 1; TCtlBegin 0; TCtlUp 0 1].
Definition mgr_up_st : tree := Tree (MGather g_new) (Some (CGather g_new)) [LRun false] [Ctl (KGather g_new) [LRun false] false].
Definition mgr_end : list tlabel := [TStops (WInf 0) Cancelled; TDone WCache Cancelled; TResume WCache Cancelled; TDone WMain Cancelled; TResume WMain Cancelled].
Definition mgr_end_st : tree := Tree (MEnd Cancelled) (Some (CEnd Cancelled)) [LEnd Cancelled] [Ctl (KGather (Gath true None false)) [LRun false] false].
Lemma old_manager : ∃ ls s, reach tstep t_init mgr_up s ∧ gathering s ∧ reach ostep s ls mgr_end_st ∧ OT TCancel ∈ ls ∧ (∀ w r, OT (TOwn w r) ∉ ls) ∧
  over mgr_end_st Cancelled ∧ ∀ ls' s', reach ostep mgr_end_st ls' s' → (∀ l, OT l ∈ ls' → ¬ own_end l (WWorker 0 0)) → unasked s' (WWorker 0 0).
Proof.
  assert (H1 : reach tstep t_init mgr_up mgr_up_st). { unfold t_init, mgr_up. do 5 tgo. apply reach_nil. }
  assert (H2 : reach ostep mgr_up_st (OT TCancel :: OIgnore 0 0 :: (OT <$> mgr_end)) mgr_end_st).
  { eapply reach_cons; [apply o_same, t_cancel|]. eapply reach_cons; [by eapply (o_ignore _ 0 0)|]. apply old_reach. unfold mgr_end. cbn. eapply reach_cons; [by eapply t_stops|]. do 4 tgo. apply reach_nil. }
  exists (OT TCancel :: OIgnore 0 0 :: (OT <$> mgr_end)), mgr_up_st. split; [done|]. split; [by eexists|]. split; [done|]. split; [left|].
  split. { intros w r. unfold mgr_end. simpl. rewrite !elem_of_cons, elem_of_nil. naive_solver. }
  split; [done|]. intros ls' s'. eapply (old_left_alone (_ ++ _)); [eapply reach_app; [apply old_reach, H1|exact H2]|done|done].
Qed.
