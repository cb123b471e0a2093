From Verif Require Import Base WorkQueue_model WorkQueue_spec WorkQueue_proofs WaitPQ_model DelayQueue_model DelayQueue_spec
  DelayQueue_proofs RateLimit_model RateLimit_spec RateLimit_proofs Controller_model Controller_spec Controller_proofs Controller_proofs2.
From Coq Require Import ZArith QArith Qround Lqa.
Local Open Scope nat_scope.

Section general.
  Context {A : Type} `{EqDecision A} (is_request : A → bool).
  Implicit Types (tr : list (klabel A)) (s : kstate A) (x : A).
  Notation kst := (kstep is_request).

  (** pauses *)
  Definition sleepy (p : wphase A) : Prop :=
    match p with
    | WSleep | WDead | WCrashed => True
    | WFinish _ r | WPut _ r => r ≠ RTrue
    | WIdle | WRun _ => False
    end.
  Definition brisk (p : wphase A) : Prop :=
    match p with WIdle | WDead | WCrashed => True | WFinish _ r | WPut _ r => r = RTrue ∨ r = RCancelled | WSleep | WRun _ => False end.
  Lemma phase_keeps (P : wphase A → Prop) (bad : klabel A → Prop) i s ls s' :
    (∀ s l s' p, kst s l s' → ¬ bad l → k_ws s !! i = Some p → P p → ∃ p', k_ws s' !! i = Some p' ∧ P p') →
    (∃ p, k_ws s !! i = Some p ∧ P p) → reach kst s ls s' → (∀ l, l ∈ ls → ¬ bad l) → ∃ p, k_ws s' !! i = Some p ∧ P p.
  Proof.
    intros Hstep H0. apply (reach_trace_inv kst (λ ls s', (∀ l, l ∈ ls → ¬ bad l) → ∃ p, k_ws s' !! i = Some p ∧ P p)); [done|].
    intros ls1 s1 l s2 _ IH Hs Hb. destruct IH as (p&Hp&HP). { intros l' ?. apply Hb, elem_of_app. by left. }
    eapply Hstep; [exact Hs| |exact Hp|done]. apply Hb, elem_of_app. right. by apply elem_of_list_singleton.
  Qed.
  Lemma set_phase i j (ws : list (wphase A)) p q (P : wphase A → Prop) : ws !! i = Some p → P p → (j = i → P q) →
    ∃ p', <[j:=q]> ws !! i = Some p' ∧ P p'.
  Proof.
    intros Hi HP Hq. destruct (decide (j = i)) as [->|]; [|rewrite list_lookup_insert_ne by done; eauto].
    rewrite list_lookup_insert by (by eapply lookup_lt_Some). eauto.
  Qed.
  Lemma sleepy_keeps i s l s' p : kst s l s' → l ≠ KWake i → k_ws s !! i = Some p → sleepy p → ∃ p', k_ws s' !! i = Some p' ∧ sleepy p'.
  Proof.
    intros Hs Hl Hp HP. destruct Hs as [l q' ? ?|j r q' tm Hw Hd|j x o sec ms q' p' a Hw Hh|j x r Hw|j x r q' e Hw Hd|j Hw|j p' Hw]; simpl; [eauto|..]; (eapply set_phase; [done|done|]; intros ->);
      rewrite Hw in Hp; simplify_eq; try done.
    - destruct e; try done; by destruct r.
    - by destruct p.
  Qed.
  Lemma brisk_keeps i s l s' p : kst s l s' → ¬ (∃ r t, l = KGet i r t) → k_ws s !! i = Some p → brisk p → ∃ p', k_ws s' !! i = Some p' ∧ brisk p'.
  Proof.
    intros Hs Hl Hp HP. destruct Hs as [l q' ? ?|j r q' tm Hw Hd|j x o sec ms q' p' a Hw Hh|j x r Hw|j x r q' e Hw Hd|j Hw|j p' Hw]; simpl; [eauto|..]; (eapply set_phase; [done|done|]; intros ->);
      rewrite Hw in Hp; simplify_eq; try done.
    - exfalso. eauto.
    - destruct e; try done; destruct HP; by subst.
    - destruct p; simpl in *; try done; tauto.
  Qed.
  Lemma wrong_sleepy i s l s' : kst s l s' → goes_wrong i l → ∃ p, k_ws s' !! i = Some p ∧ sleepy p.
  Proof.
    intros Hs Hl. destruct Hs as [| j r q' tm Hw Hd|j x o sec ms q' p' a Hw Hh| | | |]; try done; simpl in *.
    - destruct r; try done. subst j. rewrite list_lookup_insert by (by eapply lookup_lt_Some). by eexists.
    - destruct Hl as [-> Ho]. rewrite list_lookup_insert by (by eapply lookup_lt_Some). eexists. split; [done|].
      unfold handle, do_add_after in Hh. destruct Ho as [-> | ->]; [|by simplify_eq].
      destruct (limit_when x sec (k_lim s)) as [ms1 [d|]]; simplify_eq; [|done]. by destruct (suspends _ _).
  Qed.
  Lemma well_brisk i s l s' : kst s l s' → goes_well i l → ∃ p, k_ws s' !! i = Some p ∧ brisk p.
  Proof.
    intros Hs Hl. destruct Hs as [| |j x o sec ms q' p' a Hw Hh| | | |]; try done; simpl in *. destruct o as [|rq af|]; try done.
    destruct Hl as [-> Ho]. rewrite list_lookup_insert by (by eapply lookup_lt_Some). eexists. split; [done|].
    unfold handle, do_add_after in Hh. destruct (Qeq_bool af 0); simpl in Hh.
    - destruct Ho as [->|]; [|done]. simplify_eq. by left.
    - simplify_eq. destruct (suspends _ _); by left.
  Qed.
  Lemma pauses t n l1 l l2 i r tm l3 s : reach kst (kinit t n) (l1 ++ l :: l2 ++ KGet i r tm :: l3) s → goes_wrong i l → KWake i ∈ l2.
  Proof.
    intros (s1&_&Hr)%reach_app_inv Hl. apply (reach_app_inv _ _ [l]) in Hr as (s2&Hs%reach_one_inv&Hr).
    apply reach_app_inv in Hr as (s3&Hr3&Hr). apply (reach_app_inv _ _ [KGet i r tm]) in Hr as (s4&Hg%reach_one_inv&_).
    assert (∀ l : klabel A, {(λ l, match l with KWake j => j = i | _ => False end) l} + {¬ (λ l, match l with KWake j => j = i | _ => False end) l}) as Hdec by (intros []; simpl; try (by right); apply (decide _)).
    destruct (List.Exists_dec _ l2 Hdec) as [He|He].
    { apply Exists_exists in He as ([]&?&?); subst; try done. }
    exfalso. destruct (phase_keeps sleepy (λ l, l = KWake i) i s2 l2 s3) as (p&Hp&HP).
    - intros. by eapply sleepy_keeps.
    - by eapply wrong_sleepy.
    - done.
    - intros l' Hl' ->. apply He, Exists_exists. by exists (KWake i).
    - inversion Hg; simplify_eq. done.
  Qed.
  Lemma no_pause t n l1 l l2 i l3 s : reach kst (kinit t n) (l1 ++ l :: l2 ++ KWake i :: l3) s → goes_well i l → ∃ r tm, KGet i r tm ∈ l2.
  Proof.
    intros (s1&_&Hr)%reach_app_inv Hl. apply (reach_app_inv _ _ [l]) in Hr as (s2&Hs%reach_one_inv&Hr).
    apply reach_app_inv in Hr as (s3&Hr3&Hr). apply (reach_app_inv _ _ [KWake i]) in Hr as (s4&Hg%reach_one_inv&_).
    assert (∀ l : klabel A, {(λ l, match l with KGet j _ _ => j = i | _ => False end) l} + {¬ (λ l, match l with KGet j _ _ => j = i | _ => False end) l}) as Hdec by (intros []; simpl; try (by right); apply (decide _)).
    destruct (List.Exists_dec _ l2 Hdec) as [He|He].
    { apply Exists_exists in He as ([]&?&?); subst; try done. eauto. }
    exfalso. destruct (phase_keeps brisk (λ l, ∃ r tm, l = KGet i r tm) i s2 l2 s3) as (p&Hp&HP).
    - intros. by eapply brisk_keeps.
    - by eapply well_brisk.
    - done.
    - intros l' Hl' (r&tm&->). apply He, Exists_exists. eexists. split; [exact Hl'|]. done.
    - inversion Hg; simplify_eq. done.
  Qed.

  (** what the queue was asked for and what it gave *)
  Lemma given_deliveries x tr : (∀ r t, KEnv (DGet r t) ∉ tr) → deliveries x (tr ≫= to_queue) = given x tr.
  Proof.
    induction tr as [|l tr IH]; intros Hn; [done|]. change ((l :: tr) ≫= to_queue) with (to_queue l ++ (tr ≫= to_queue)). unfold deliveries, given in *. rewrite countb_app, countb_cons, IH.
    - f_equal. destruct l as [[]|? []|? ? ? ? [[]|]| | | |]; simpl; rewrite ?countb_cons, ?countb_nil; try done; try lia.
      exfalso. eapply Hn. left.
    - intros r t Hin. eapply Hn. right. exact Hin.
  Qed.
  Lemma env_outside t n tr s l : reach kst (kinit t n) tr s → KEnv l ∈ tr → outside l.
  Proof.
    intros Hr. revert l. apply (reach_trace_inv kst (λ tr s, ∀ l, KEnv l ∈ tr → outside l) (kinit t n) tr s); [by intros ? ?%elem_of_nil| |done].
    intros tr1 s1 k s2 _ IH Hs l [?|Hl%elem_of_list_singleton]%elem_of_app; [by apply IH|]. subst k. by inversion Hs.
  Qed.
  Lemma drop_stays t n tr s x ls s' : reach kst (kinit t n) tr s → countb (holdsb x) (k_ws s) = 0 →
    given x tr = requests_for x (tr ≫= to_queue) → reach kst s ls s' → (∀ l, l ∈ ls → ¬ asks x l) → given x ls = 0 ∧ countb (holdsb x) (k_ws s') = 0.
  Proof.
    intros Hr Hh Hg Hrs.
    set (P := λ ls s', (∀ l, l ∈ ls → ¬ asks x l) → given x ls = 0 ∧ countb (holdsb x) (k_ws s') = 0 ∧ requests_for x (ls ≫= to_queue) = 0).
    enough (P ls s') as HP. { intros Hn. destruct (HP Hn) as (?&?&?). done. }
    apply (reach_trace_inv kst P s ls s'); [| |done]; unfold P; clear P.
    - done.
    - intros ls1 s1 l s2 Hr1 IH Hs Hn.
      destruct IH as (IH1&IH2&IH3). { intros l' Hl'. apply Hn, elem_of_app. by left. }
      assert (¬ asks x l) as Hl. { apply Hn, elem_of_app. right. by left. }
      assert (reach kst (kinit t n) (tr ++ ls1 ++ [l]) s2) as Hr2. { eapply reach_app; [exact Hr|]. by eapply reach_snoc. }
      assert (requests_for x (to_queue l) = 0) as Hq.
      { unfold requests_for. destruct l as [e|? []|i y o sec [[]|]| | | |]; simpl; rewrite ?countb_cons, ?countb_nil; try done.
        - destruct e; try done; rewrite bool_decide_eq_false_2; try done; intros ->; apply Hl; [by left|right; eauto].
        - rewrite bool_decide_eq_false_2; [done|]. intros ->. inversion Hs as [| |? ? ? ? ? ? ? ? Hw| | | |]; subst.
          rewrite countb_zero in IH2. assert (holdsb x (WRun x) = false) as Hf by (apply IH2; by eapply elem_of_list_lookup_2).
          simpl in Hf. by rewrite bool_decide_eq_true_2 in Hf. }
      assert (requests_for x ((ls1 ++ [l]) ≫= to_queue) = 0) as Hq2.
      { rewrite bind_app. unfold requests_for in *. rewrite countb_app, IH3. simpl. by rewrite app_nil_r, Hq. }
      assert (given x (ls1 ++ [l]) = 0) as Hg2.
      { pose proof (deliveries_le _ _ _ x (reach_queue _ _ _ _ _ Hr2)) as Hle.
        rewrite given_deliveries in Hle by (intros r t' Hin; by apply (env_outside _ _ _ _ _ Hr2 Hin)).
        rewrite bind_app in Hle. unfold requests_for, given in *. rewrite !countb_app in Hle. rewrite countb_app. lia. }
      split; [done|]. split; [|done].
      destruct (released_once _ _ _ _ _ x Hr2) as (H1&_&_&_). destruct (released_once _ _ _ _ _ x Hr) as (H2&_&_&_).
      unfold given, released in *. rewrite !countb_app in *. lia.
  Qed.

  (** C64 *)
  Lemma wq_add_dirty x y (q : wq A) : x ∈ wq_dirty q → x ∈ wq_dirty (wq_add y q).1.
  Proof. intros Hx. unfold wq_add. repeat case_match; simplify_eq/=; try done; apply elem_of_sadd; by right. Qed.
  Lemma drain_dirty x fuel now w q w' q' : drain_due fuel now w q = Some (w', q') → x ∈ wq_dirty q → x ∈ wq_dirty q'.
  Proof.
    revert w q. induction fuel as [|fuel IH]; intros w q; simpl; [by intros [= -> ->]|].
    destruct (Nat.eqb _ _); [by intros [= -> ->]|]. destruct (pq_peek w) as [w1 [e|]]; [|done].
    destruct (Z.gtb e now); [by intros [= -> ->]|]. destruct (pq_pop w1) as [w2 [d|]]; [|done].
    intros Hd Hx. eapply IH; [exact Hd|]. by apply wq_add_dirty.
  Qed.
  Lemma absorb_dirty x now (es : list (A * Z)) wb : x ∈ wq_dirty wb.2 → x ∈ wq_dirty (absorb_all now es wb).2.
  Proof.
    revert wb. induction es as [|e es IH]; intros wb Hx; simpl; [done|]. apply IH. unfold absorb. case_match; simpl; [done|by apply wq_add_dirty].
  Qed.
  Lemma outside_dirty x (s : dq A) l (s' : dq A) : outside l → dtrans s l s' → x ∈ wq_dirty (dq_base s) → x ∈ wq_dirty (dq_base s').
  Proof.
    intros Ho Ht Hx. destruct Ht; try done; simpl.
    - by apply wq_add_dirty.
    - unfold dq_add_after. repeat case_match; simpl; try done. by apply wq_add_dirty.
    - unfold dq_shut_down, shut_down_body. repeat case_match; done.
    - unfold loop_top. repeat case_match; simpl; try done; by eapply drain_dirty.
    - unfold loop_resume. case_match; [done|]. destruct (absorb_all _ _ _) as [w q] eqn:E. simpl.
      replace q with (absorb_all (dq_now s) (dq_incoming s) (absorb (dq_now s) e (dq_pq s, dq_base s))).2 by (by rewrite E).
      apply absorb_dirty. unfold absorb. case_match; simpl; [done|by apply wq_add_dirty].
  Qed.
  Lemma step_dirty x s l s' : kst s l s' → x ∈ wq_dirty (dq_base (k_q s)) → starts x l ∨ x ∈ wq_dirty (dq_base (k_q s')).
  Proof.
    intros Hs Hx. destruct Hs as [l q' Ho Ht|i r q' t' Hw Ht|i y o sec ms q' p a Hw Hh|i y r Hw|i y r q' e Hw Ht|i Hw|i p Hw]; simpl; try (by right).
    - right. by eapply outside_dirty.
    - inversion Ht as [| |? ? ? Hg| | | | | | | | | | |]; subst. simpl in Hg. unfold wq_get in Hg.
      destruct (wq_queue (dq_base (k_q s))) as [|z rest].
      + right. destruct (wq_down _); by injection Hg as <- <-.
      + injection Hg as <- <-. simpl. destruct (decide (x = z)) as [->|]; [left; by eexists _, _|right]. by apply elem_of_srem.
    - right. unfold handle, do_add_after in Hh.
      assert (∀ d, x ∈ wq_dirty (dq_base (dq_add_after y d (k_q s)))) as Hd.
      { clear Hh. intros d. unfold dq_add_after. repeat case_match; simpl; try done. by apply wq_add_dirty. }
      destruct o as [|requeue after|]; repeat case_match; simplify_eq/=; try done; apply Hd.
    - right. inversion Ht as [| | |? ? ? ? Hg| | | | | | | | | |]; subst. simpl in Hg. unfold wq_done in Hg.
      repeat case_match; simplify_eq/=; done.
  Qed.
  Lemma queue_up t n tr s : reach kst (kinit t n) tr s → wq_down (dq_base (k_q s)) = false.
  Proof. intros Hr%reach_queue. destruct (DI_reach _ _ _ Hr) as [m Hd]. exact (di_down _ _ _ Hd). Qed.
  Lemma added_started t n tr s l1 l2 x : reach kst (kinit t n) tr s → tr = l1 ++ KEnv (DAdd x) :: l2 →
    (∃ l, l ∈ l2 ∧ starts x l) ∨ x ∈ wq_dirty (dq_base (k_q s)).
  Proof.
    intros Hr ->. apply reach_app_inv in Hr as (s1&Hr1&Hr2). apply (reach_app_inv _ _ [_]) in Hr2 as (s2&Hs&Hr2).
    apply reach_one_inv in Hs.
    apply (reach_trace_inv kst (λ l2 s', (∃ l, l ∈ l2 ∧ starts x l) ∨ x ∈ wq_dirty (dq_base (k_q s'))) s2 l2 s); [| |done].
    - right. inversion Hs as [? ? ? Ht| | | | | |]; subst. inversion Ht; subst. simpl. unfold wq_add. rewrite (queue_up _ _ _ _ Hr1).
      destruct (decide _); [done|]. case_match; simpl; apply elem_of_sadd; by left.
    - intros l3 s3 l s4 _ [(l'&?&?)|Hd] Hst; [left; exists l'; split; [apply elem_of_app; by left|done]|].
      destruct (step_dirty _ _ _ _ Hst Hd) as [?|?]; [left|by right]. exists l. split; [apply elem_of_app; right; by left|done].
  Qed.
  Lemma dirty_owed t n tr s x : reach kst (kinit t n) tr s → x ∈ wq_dirty (dq_base (k_q s)) ↔ ready_owed x (k_q s).
  Proof.
    intros Hr%reach_queue. destruct (DI_reach _ _ _ Hr) as [m Hd]. unfold ready_owed. split.
    - intros Hx. destruct (di_base _ _ _ Hd) as [h Hh]. exists h. split; [done|]. by apply (inv_dirty _ _ (wq_inv_exec _ _ Hh)).
    - intros (h&Hh&Hx). by apply (inv_dirty _ _ (wq_inv_exec _ _ Hh)).
  Qed.

  Lemma added_owed t n tr s l1 l2 x : reach kst (kinit t n) tr s → tr = l1 ++ KEnv (DAdd x) :: l2 →
    (∃ l, l ∈ l2 ∧ starts x l) ∨ ready_owed x (k_q s).
  Proof. intros Hr Heq. destruct (added_started _ _ _ _ _ _ _ Hr Heq); [by left|right]. by eapply dirty_owed. Qed.

  (** progress by the workers *)
  Lemma release t n tr s j y p : reach kst (kinit t n) tr s → k_ws s !! j = Some p → holdsb y p = true →
    ∃ ls s' r w, reach kst s ls s' ∧ Forall by_worker ls ∧ wq_done y (dq_base (k_q s)) = Some (dq_base (k_q s'), w) ∧
      k_ws s' = <[j:=after_done r]> (k_ws s) ∧ (alive p → r ≠ RCancelled).
  Proof.
    intros Hr Hp Hh. pose proof (reach_hinv _ _ _ _ _ Hr y) as Hv.
    assert (y ∈ wq_proc (dq_base (k_q s))) as Hin.
    { unfold inproc in Hv. destruct (decide (y ∈ wq_proc (dq_base (k_q s)))); [done|]. rewrite countb_zero in Hv. rewrite (Hv p) in Hh; [done|]. by eapply elem_of_list_lookup_2. }
    assert (∃ q' w, wq_done y (dq_base (k_q s)) = Some (q', w)) as (q'&w&Hd).
    { unfold wq_done. rewrite decide_True by done. case_match; eauto. }
    assert (Hfin : ∀ s1 r, k_q s1 = k_q s → k_ws s1 !! j = Some (WFinish y r) → k_ws s1 = <[j:=WFinish y r]> (k_ws s) →
      kst s1 (KDone j y RNone) (K (with_base q' (k_q s)) (k_lim s1) (<[j:=after_done r]> (k_ws s)))).
    { intros s1 r Hq Hw Hws. replace (<[j:=after_done r]> (k_ws s)) with (<[j:=after_done r]> (k_ws s1)) by (rewrite Hws; apply list_insert_insert).
      apply (k_done is_request s1 j y r (with_base q' (k_q s)) RNone); [done|]. rewrite Hq. apply dt_done. simpl. by rewrite Hd. }
    assert (j < length (k_ws s)) as Hlt by (by eapply lookup_lt_Some).
    destruct p as [|z|z r|z r| | |]; try done; simpl in Hh; apply bool_decide_eq_true in Hh; subst z.
    - eexists [KRet j y (OResult false 0) 0 None; KDone j y RNone], _, RTrue, w.
      split; [eapply reach_cons; [eapply (k_ret is_request s j y (OResult false 0) 0); [done|reflexivity]|]; eapply reach_cons; [apply (Hfin (K _ _ _)); [done|by apply list_lookup_insert|done]|constructor]|].
      split; [by repeat constructor|]. done.
    - eexists [KResume j; KDone j y RNone], _, r, w.
      split; [eapply reach_cons; [by eapply k_resume|]; eapply reach_cons; [apply (Hfin (K _ _ _)); [done|by apply list_lookup_insert|done]|constructor]|].
      split; [by repeat constructor|]. split; [done|]. split; [done|]. simpl. by intros Ha ->.
    - eexists [KDone j y RNone], _, r, w.
      split; [eapply reach_cons; [apply (Hfin s); [done|done|by rewrite list_insert_id]|constructor]|].
      split; [by repeat constructor|]. split; [done|]. split; [done|]. simpl. by intros Ha ->.
  Qed.
  Lemma to_idle t n tr s i p : reach kst (kinit t n) tr s → k_ws s !! i = Some p → alive p →
    ∃ ls s', reach kst s ls s' ∧ Forall by_worker ls ∧ k_ws s' !! i = Some WIdle ∧
      ∃ b, wq_queue (dq_base (k_q s')) = wq_queue (dq_base (k_q s)) ++ b.
  Proof.
    intros Hr Hp Ha. assert (i < length (k_ws s)) as Hlt by (by eapply lookup_lt_Some).
    assert (Hhold : ∀ y, holdsb y p = true → ∃ ls s', reach kst s ls s' ∧ Forall by_worker ls ∧ k_ws s' !! i = Some WIdle ∧
      ∃ b, wq_queue (dq_base (k_q s')) = wq_queue (dq_base (k_q s)) ++ b).
    { intros y Hh. destruct (release _ _ _ _ _ _ _ Hr Hp Hh) as (ls&s'&r&w&Hs&Hb&Hd&Hw&Hal). specialize (Hal Ha).
      assert (∃ b, wq_queue (dq_base (k_q s')) = wq_queue (dq_base (k_q s)) ++ b) as Hq.
      { unfold wq_done in Hd. destruct (decide _); [|done]. simpl in Hd. destruct (decide _); injection Hd as <- _; simpl; [by eexists|exists []; by rewrite app_nil_r]. }
      assert (k_ws s' !! i = Some (after_done r)) as Hi by (rewrite Hw; by apply list_lookup_insert).
      destruct r; simpl in Hi; try done; [by exists ls, s'|..];
        (exists (ls ++ [KWake i]), (set_w i WIdle s'); split; [eapply reach_snoc; [done|by apply k_wake]|];
         split; [apply Forall_app; split; [done|by repeat constructor]|]; split; [apply list_lookup_insert; by eapply lookup_lt_Some|done]). }
    destruct p as [|z|z r|z r| | |]; try done; try (by apply (Hhold z); simpl; rewrite bool_decide_eq_true_2).
    - exists [], s. split; [constructor|]. split; [done|]. split; [done|]. exists []. by rewrite app_nil_r.
    - exists [KWake i], (set_w i WIdle s). split; [by apply reach_one, k_wake|]. split; [by repeat constructor|].
      split; [by apply list_lookup_insert|]. exists []. by rewrite app_nil_r.
  Qed.
  Lemma get_until x i a : ∀ t n tr s b, reach kst (kinit t n) tr s → k_ws s !! i = Some WIdle → wq_queue (dq_base (k_q s)) = a ++ x :: b →
    ∃ ls s', reach kst s ls s' ∧ Forall by_worker ls ∧ ∃ l, l ∈ ls ∧ starts x l.
  Proof.
    induction a as [|y a IH]; intros t n tr s b Hr Hi Hq.
    - eexists [KGet i (RItem x) (dq_now (k_q s))], _. split; [apply reach_one; eapply k_get; [done|]; apply dt_get; simpl; unfold wq_get; by rewrite Hq|].
      split; [by repeat constructor|]. eexists. split; [by left|]. by eexists _, _.
    - assert (∃ s1, kst s (KGet i (RItem y) (dq_now (k_q s))) s1 ∧ wq_queue (dq_base (k_q s1)) = a ++ x :: b ∧ ∃ p, k_ws s1 !! i = Some p ∧ alive p) as (s1&Hs&Hq1&p&Hp&Ha).
      { eexists. split; [eapply k_get; [done|]; apply dt_get; simpl; unfold wq_get; rewrite Hq; reflexivity|]. split; [done|].
        eexists. split; [apply list_lookup_insert; by eapply lookup_lt_Some|]. simpl. by destruct (is_request y). }
      assert (Hr1 := reach_snoc _ _ _ _ _ _ Hr Hs).
      destruct (to_idle _ _ _ _ _ _ Hr1 Hp Ha) as (ls&s2&Hs2&Hb2&Hi2&b2&Hq2). rewrite Hq1, <-app_assoc in Hq2. simpl in Hq2.
      destruct (IH _ _ _ _ _ (reach_app _ _ _ _ _ _ Hr1 Hs2) Hi2 Hq2) as (ls3&s3&Hs3&Hb3&l&Hl&Hst).
      eexists (_ :: ls ++ ls3), s3. split; [eapply reach_cons; [exact Hs|]; by eapply reach_app|].
      split; [constructor; [done|by apply Forall_app]|]. exists l. split; [|done]. right. apply elem_of_app. by right.
  Qed.
  Lemma will_start t n tr s i p x : reach kst (kinit t n) tr s → k_ws s !! i = Some p → alive p → ready_owed x (k_q s) →
    ∃ ls s', reach kst s ls s' ∧ Forall by_worker ls ∧ ∃ l, l ∈ ls ∧ starts x l.
  Proof.
    intros Hr Hp Ha Hx. assert (x ∈ wq_dirty (dq_base (k_q s))) as Hd by (by eapply dirty_owed).
    assert (Hgo : ∀ tr1 s1 p1, reach kst (kinit t n) tr1 s1 → k_ws s1 !! i = Some p1 → alive p1 → x ∈ wq_queue (dq_base (k_q s1)) →
      ∃ ls s', reach kst s1 ls s' ∧ Forall by_worker ls ∧ ∃ l, l ∈ ls ∧ starts x l).
    { intros tr1 s1 p1 Hr1 Hp1 Ha1 Hx1. destruct (to_idle _ _ _ _ _ _ Hr1 Hp1 Ha1) as (ls&s2&Hs2&Hb2&Hi2&b2&Hq2).
      apply elem_of_list_split in Hx1 as (a&b&Hab). rewrite Hab, <-app_assoc in Hq2. simpl in Hq2.
      destruct (get_until _ _ _ _ _ _ _ _ (reach_app _ _ _ _ _ _ Hr1 Hs2) Hi2 Hq2) as (ls3&s3&Hs3&Hb3&l&Hl&Hst).
      exists (ls ++ ls3), s3. split; [by eapply reach_app|]. split; [by apply Forall_app|]. exists l. split; [|done]. apply elem_of_app. by right. }
    destruct (base_inv _ _ _ (reach_queue _ _ _ _ _ Hr)) as [h Hinv].
    destruct (decide (x ∈ wq_queue (dq_base (k_q s)))) as [Hin|Hout]; [by eapply Hgo|].
    assert (x ∈ wq_proc (dq_base (k_q s))) as Hpr.
    { destruct (decide (x ∈ wq_proc (dq_base (k_q s)))) as [|Hn]; [done|]. exfalso. apply Hout, (inv_queue _ _ Hinv).
      rewrite (inv_proc _ _ Hinv) in Hn. split; [by apply (inv_dirty _ _ Hinv)|done]. }
    pose proof (reach_hinv _ _ _ _ _ Hr x) as Hv. unfold inproc in Hv. rewrite decide_True in Hv by done.
    assert (∃ j pj, k_ws s !! j = Some pj ∧ holdsb x pj = true) as (j&pj&Hj&Hh).
    { clear -Hv. induction (k_ws s) as [|p ws IH]; [done|]. rewrite countb_cons in Hv. destruct (holdsb x p) eqn:E; [by exists 0, p|].
      destruct IH as (j&pj&?&?); [lia|]. by exists (S j), pj. }
    destruct (release _ _ _ _ _ _ _ Hr Hj Hh) as (ls&s'&r&w&Hs&Hb&Hdn&Hw&Hal).
    assert (x ∈ wq_queue (dq_base (k_q s'))) as Hin.
    { unfold wq_done in Hdn. rewrite decide_True in Hdn by done. simpl in Hdn. rewrite decide_True in Hdn by done. injection Hdn as <- _. simpl.
      apply elem_of_app. right. by left. }
    assert (∃ p', k_ws s' !! i = Some p' ∧ alive p') as (p'&Hp'&Ha').
    { rewrite Hw. destruct (decide (i = j)) as [->|].
      - simplify_eq. eexists. split; [apply list_lookup_insert; by eapply lookup_lt_Some|]. specialize (Hal Ha). by destruct r.
      - exists p. by rewrite list_lookup_insert_ne. }
    destruct (Hgo _ _ _ (reach_app _ _ _ _ _ _ Hr Hs) Hp' Ha' Hin) as (ls3&s3&Hs3&Hb3&l&Hl&Hst).
    exists (ls ++ ls3), s3. split; [by eapply reach_app|]. split; [by apply Forall_app|]. exists l. split; [|done]. apply elem_of_app. by right.
  Qed.
End general.

(** the 1025th failure in a row *)
Definition always (_ : nat) : bool := true.
Notation kst := (kstep always).
Definition ready (t : Z) (c : nat) : dq nat := DQ t (WQ [0] [] [0] false) false [] [] (PQ [] [] c 0) (LWait None).
Lemma round t c ms : (∃ d b, ms = shape d b ∧ counter_get 0 d < 1024) →
  ∃ ls t' ms', reach kst (K (ready t c) ms [WIdle]) ls (K (ready t' (S c)) ms' [WIdle]) ∧ given 0 ls = 1 ∧ requests_for 0 (ls ≫= to_queue) = 1 ∧
    (∀ n, foldl (count_step always 0) n ls = S n) ∧ Forall natural ls.
Proof.
  intros (dd&b&->&Hn). destruct (limit_when_shape (A:=nat) 0 0 dd b) as (b'&Hms&_&Hlt). destruct (Hlt Hn) as (d'&Hd&Hle&_).
  destruct (limit_when 0 0 (shape dd b)) as [ms' o] eqn:Hlw. simpl in Hms, Hd. subst ms' o.
  assert (0 < ticks d')%Z as Hpos.
  { unfold ticks. apply Z.lt_nge. intros Hc. pose proof (Qle_ceiling (d' * (1000000000 # 1))) as Hq.
    assert (inject_Z (Qceiling (d' * (1000000000 # 1))) <= inject_Z 0)%Q as Hz by (by rewrite <-Zle_Qle).
    assert (0 < backoff (counter_get 0%nat dd))%Q.
    { unfold backoff. destruct (Qle_bool _ _); [|by vm_compute]. apply Qmult_lt_0_compat; [by vm_compute|].
      change 0%Q with (inject_Z 0). rewrite <-Zlt_Qlt. apply Z.pow_pos_nonneg; lia. }
    change (inject_Z 0) with 0%Q in Hz. lra. }
  set (d := ticks d') in *. assert (Z.leb d 0 = false) as Hd0 by (apply Z.leb_gt; lia).
  exists [KGet 0 (RItem 0) t; KRet 0 0 ORaise 0 (Some (d, t)); KEnv DPut; KResume 0; KDone 0 0 RNone; KWake 0; KEnv DTake; KEnv DResume;
     KEnv DLoopTop; KEnv (DTick (t + d)); KEnv DWakeTimer; KEnv DLoopTop], (t + d)%Z. eexists.
  split; [|split; [done|split; [done|split; [done|by repeat constructor]]]].
  eapply reach_cons; [eapply (k_get always (K _ _ _) 0 (RItem 0)); [done|by apply (dt_get (ready t c))]|]. simpl.
  eapply reach_cons.
  { eapply (k_ret always (K _ _ _) 0 0 ORaise 0); [done|]. unfold handle. simpl. rewrite Hlw. unfold do_add_after, dq_add_after, suspends. simpl. rewrite Hd0. simpl. reflexivity. }
  simpl. eapply reach_cons; [eapply (k_env always (K _ _ _)); [done|]; eapply (dt_put (DQ _ _ _ _ _ _ _) _ [] []); [done|]; simpl; unfold incoming_max; lia|]. simpl.
  eapply reach_cons; [by eapply (k_resume always (K _ _ _))|]. unfold set_w. simpl.
  eapply reach_cons; [eapply (k_done always (K _ _ _) 0 0 RFalse _ RNone); [done|]; by apply dt_done|]. simpl.
  eapply reach_cons; [by eapply (k_wake always (K _ _ _))|]. unfold set_w, with_base. simpl.
  eapply reach_cons; [eapply (k_env always (K _ _ _)); [done|]; by eapply (dt_take (DQ _ _ _ _ _ _ _))|]. simpl.
  eapply reach_cons; [eapply (k_env always (K _ _ _)); [done|]; by eapply (dt_resume (DQ _ _ _ _ _ _ _))|].
  unfold loop_resume, absorb_all, absorb. simpl.
  assert (Z.gtb (t + d) t = true) as Hg by (apply Z.gtb_lt; lia). rewrite Hg.
  change (pq_insert 0 (t + d)%Z {| pq_heap := []; pq_finder := []; pq_count := c; pq_len := 0 |}) with (PQ [((t + d)%Z, c, Some 0)] [(0, ((t + d)%Z, c))] (S c) 1).
  eapply reach_cons; [eapply (k_env always (K _ _ _)); [done|]; by eapply (dt_top (DQ _ _ _ _ _ _ _))|].
  unfold loop_top. simpl. rewrite Hg. unfold with_loop. simpl.
  eapply reach_cons; [eapply (k_env always (K _ _ _)); [done|]; eapply (dt_tick (DQ _ _ _ _ _ _ _)); simpl; lia|]. simpl.
  eapply reach_cons; [eapply (k_env always (K _ _ _)); [done|]; eapply (dt_wake_timer (DQ _ _ _ _ _ _ _)); [done|simpl; lia]|].
  unfold loop_wake, with_loop. simpl.
  eapply reach_cons; [eapply (k_env always (K _ _ _)); [done|]; by eapply (dt_top (DQ _ _ _ _ _ _ _))|].
  unfold loop_top. simpl. assert (Z.gtb (t + d) (t + d) = false) as Hg2 by (rewrite Z.gtb_ltb; apply Z.ltb_ge; lia). rewrite Hg2. simpl. unfold with_loop. simpl. constructor.
Qed.
Lemma failing n : n ≤ 1024 → ∃ tr t c ms, reach kst (kinit 0 1) tr (K (ready t c) ms [WIdle]) ∧ failures_of always 0 tr = n ∧
  given 0 tr = n ∧ requests_for 0 (tr ≫= to_queue) = S n ∧ Forall natural tr.
Proof.
  induction n as [|n IH]; intros Hn.
  - exists [KEnv DLoopTop; KEnv (DAdd 0)], 0%Z, 0, default_limiter. split; [|by repeat constructor].
    eapply reach_cons; [by eapply (k_env always (kinit 0 1)), dt_top|]. eapply reach_cons; [by eapply k_env, dt_add|]. constructor.
  - destruct IH as (tr&t&c&ms&Hr&Hf&Hg&Hq&Hna); [lia|]. pose proof (reach_linv _ _ _ _ _ Hr) as (d&b&Hk&Hc). simpl in Hk.
    destruct (round t c ms) as (ls&t'&ms'&Hr'&Hg'&Hq'&Hf'&Hna'). { exists d, b. split; [done|]. rewrite Hc, Hf. lia. }
    exists (tr ++ ls), t', (S c), ms'. split; [by eapply reach_app|]. split; [|split; [|split; [|by apply Forall_app]]].
    + unfold failures_of in *. rewrite foldl_app, Hf. apply Hf'.
    + unfold given in *. rewrite countb_app. lia.
    + rewrite bind_app. unfold requests_for in *. rewrite countb_app. lia.
Qed.
Lemma dropped : ∃ tr s, reach kst (kinit 0 1) tr s ∧ failures_of always 0 tr = 1025 ∧ Forall natural tr ∧
  k_ws s = [WIdle] ∧ ∀ ls s', reach kst s ls s' → (∀ l, l ∈ ls → ¬ asks 0 l) → ∀ l, l ∈ ls → ¬ starts 0 l.
Proof.
  destruct (failing 1024) as (tr&t&c&ms&Hr&Hf&Hg&Hq&Hna); [lia|]. pose proof (reach_linv _ _ _ _ _ Hr) as (d&b&Hk&Hc). simpl in Hk. subst ms.
  destruct (limit_when_shape (A:=nat) 0 0 d b) as (b'&Hms&Hov&_). rewrite Hc, Hf in Hov. specialize (Hov (le_n _)).
  destruct (limit_when 0 0 (shape d b)) as [ms' o] eqn:Hlw. simpl in Hov. subst o.
  set (ls := [KGet 0 (RItem 0) t; KRet 0 0 ORaise 0 None; KDone 0 0 RNone; KWake 0]).
  assert (∃ s, reach kst (K (ready t c) (shape d b) [WIdle]) ls s ∧ k_ws s = [WIdle]) as (s&Hs&Hw).
  { eexists. split; [|]. eapply reach_cons; [eapply (k_get always (K _ _ _) 0 (RItem 0)); [done|by apply (dt_get (ready t c))]|]. simpl.
    eapply reach_cons. { eapply (k_ret always (K _ _ _) 0 0 ORaise 0); [done|]. unfold handle. simpl. rewrite Hlw. reflexivity. }
    simpl. eapply reach_cons; [eapply (k_done always (K _ _ _) 0 0 RNothing _ RNone); [done|]; by apply dt_done|]. simpl.
    eapply reach_cons; [by eapply (k_wake always (K _ _ _))|]. constructor. done. }
  assert (reach kst (kinit 0 1) (tr ++ ls) s) as Hrs by (by eapply reach_app).
  exists (tr ++ ls), s. split; [done|]. split; [|split; [|split; [done|]]].
  - unfold failures_of in *. by rewrite foldl_app, Hf.
  - apply Forall_app. split; [done|]. by repeat constructor.
  - intros ls' s' Hr' Hn l Hl Hst. destruct (drop_stays always 0 1 (tr ++ ls) s 0 ls' s') as [H0 _]; [done|by rewrite Hw| |done|done|].
    + assert (given 0 ls = 1) as H1 by done. assert (requests_for 0 (ls ≫= to_queue) = 0) as H2 by done.
      unfold given in *. rewrite bind_app. unfold requests_for in *. rewrite !countb_app, Hg, Hq, H1, H2. lia.
    + unfold given in H0. rewrite countb_zero in H0. specialize (H0 l Hl). destruct Hst as (i&tt&->). done.
Qed.

(** an example: two workers and a request added again while it is reconciled *)
Definition busy_trace : list (klabel nat) :=
  [KEnv (DAdd 7); KEnv (DAdd 8); KGet 0 (RItem 7) 0; KGet 1 (RItem 8) 0; KEnv (DAdd 7)].
Lemma busy_case : ∃ s, reach kst (kinit 0 2) busy_trace s ∧ reconciling 0 7 s ∧ reconciling 1 8 s ∧ ready_owed 7 (k_q s).
Proof.
  eexists. split; [|].
  { eapply reach_cons; [by eapply k_env, dt_add|]. eapply reach_cons; [by eapply k_env, dt_add|].
    eapply reach_cons; [eapply (k_get _ _ 0 (RItem 7)); [done|by apply dt_get]|].
    eapply reach_cons; [eapply (k_get _ _ 1 (RItem 8)); [done|by apply dt_get]|].
    eapply reach_cons; [by eapply k_env, dt_add|]. constructor. }
  split; [done|]. split; [done|]. exists [(Add 7, RNone); (Add 8, RNone); (Get, RItem 7); (Get, RItem 8); (Add 7, RNone)]. split.
  - repeat (eapply exec_cons; [by vm_compute|]); try apply exec_nil.
  - exists [(Add 7, RNone); (Add 8, RNone); (Get, RItem 7); (Get, RItem 8)], []. split; [done|]. split.
    + unfold shut. rewrite !elem_of_cons, elem_of_nil. naive_solver.
    + by intros ?%elem_of_nil.
Qed.
Lemma after_case : ∃ s s', reach kst (kinit 0 1) [KEnv (DAdd 7); KGet 0 (RItem 7) 0] s ∧
  kst s (KRet 0 7 (OResult true (3 # 2)) 0 (Some (1500000000%Z, 0%Z))) s' ∧ dq_puts (k_q s') = [(7, 1500000000%Z)].
Proof.
  eexists _, _. split; [|split].
  - eapply reach_cons; [by eapply k_env, dt_add|]. eapply reach_cons; [eapply (k_get _ _ 0 (RItem 7)); [done|by apply dt_get]|]. constructor.
  - eapply (k_ret always (K _ _ _)); [done|]. vm_compute. reflexivity.
  - done.
Qed.
Lemma pause_case : ∃ s, reach kst (kinit 0 1)
  ([KEnv (DAdd 7); KGet 0 (RItem 7) 0] ++ KRet 0 7 OBad 0 None :: [KDone 0 7 RNone; KWake 0] ++ KGet 0 RBlocked 0 :: []) s ∧ goes_wrong 0 (KRet 0 7 OBad 0 None).
Proof.
  eexists. split; [|split; [done|by right]]. simpl. eapply reach_cons; [by eapply k_env, dt_add|].
  eapply reach_cons; [eapply (k_get _ _ 0 (RItem 7)); [done|by apply dt_get]|]. eapply reach_cons; [by eapply (k_ret always (K _ _ _))|].
  eapply reach_cons; [eapply (k_done always (K _ _ _) 0 7 RNothing _ RNone); [done|]; by apply dt_done|]. simpl.
  eapply reach_cons; [by eapply (k_wake always (K _ _ _))|]. eapply reach_cons; [eapply (k_get always (K _ _ _) 0 RBlocked); [done|by apply dt_get]|]. constructor.
Qed.
