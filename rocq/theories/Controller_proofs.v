From Verif Require Import Base WorkQueue_model WorkQueue_spec WorkQueue_proofs WaitPQ_model DelayQueue_model DelayQueue_spec
  DelayQueue_proofs RateLimit_model Controller_model Controller_spec.
From Coq Require Import ZArith QArith.
Local Open Scope nat_scope.

Section proofs.
  Context {A : Type} `{EqDecision A} (is_request : A → bool).
  Implicit Types (tr : list (klabel A)) (s : kstate A) (x : A) (q : wq A).
  Notation kst := (kstep is_request).

  (** the queue sees a trace of its own *)
  Lemma step_queue s l s' : kst s l s' → reach dtrans (k_q s) (to_queue l) (k_q s').
  Proof.
    intros Hs. destruct Hs as [l q' Ho Ht|i r q' t Hw Ht|i x o sec ms q' p a Hw Hh|i x r Hw|i x r q' e Hw Ht|i Hw|i p Hw]; simpl;
      try (by apply reach_one); try constructor.
    unfold handle, do_add_after in Hh.
    assert (∀ d, reach dtrans (k_q s) [DAddAfter x d (dq_now (k_q s))] (dq_add_after x d (k_q s))) as Ha.
    { intros d. apply reach_one. constructor. }
    destruct o as [|requeue after|].
    - destruct (limit_when x sec (k_lim s)) as [ms' [d|]]; simplify_eq; [apply Ha|constructor].
    - destruct (negb (Qeq_bool after 0)); [simplify_eq; apply Ha|].
      destruct requeue; [|simplify_eq; constructor].
      destruct (limit_when x sec (k_lim s)) as [ms' [d|]]; simplify_eq; [apply Ha|constructor].
    - simplify_eq. constructor.
  Qed.
  Lemma reach_queue t n tr s : reach kst (kinit t n) tr s → reach dtrans (dq_init t) (tr ≫= to_queue) (k_q s).
  Proof.
    intros Hr. apply (reach_trace_inv kst (λ tr s, reach dtrans (dq_init t) (tr ≫= to_queue) (k_q s)) (kinit t n) tr s); [constructor| |done].
    intros tr1 s1 l s2 _ IH Hs. rewrite bind_app. simpl. rewrite app_nil_r. eapply reach_app; [exact IH|]. by apply step_queue.
  Qed.

  (** the queue's set of items given out *)
  Lemma wq_add_proc x q : wq_proc (wq_add x q).1 = wq_proc q.
  Proof. unfold wq_add. repeat case_match; done. Qed.
  Lemma drain_proc fuel now w q w' q' : drain_due fuel now w q = Some (w', q') → wq_proc q' = wq_proc q.
  Proof.
    revert w q. induction fuel as [|fuel IH]; intros w q; simpl; [by intros [= -> ->]|].
    destruct (Nat.eqb _ _); [by intros [= -> ->]|]. destruct (pq_peek w) as [w1 [e|]]; [|done].
    destruct (Z.gtb e now); [by intros [= -> ->]|]. destruct (pq_pop w1) as [w2 [d|]]; [|done].
    intros H%IH. rewrite H. apply wq_add_proc.
  Qed.
  Lemma absorb_proc now (es : list (A * Z)) wb : wq_proc (absorb_all now es wb).2 = wq_proc wb.2.
  Proof.
    revert wb. induction es as [|e es IH]; intros wb; simpl; [done|]. rewrite IH. unfold absorb. case_match; simpl; [done|apply wq_add_proc].
  Qed.
  Lemma outside_proc (s : dq A) l (s' : dq A) : outside l → dtrans s l s' → wq_proc (dq_base s') = wq_proc (dq_base s).
  Proof.
    intros Ho Ht. destruct Ht; try done; simpl.
    - apply wq_add_proc.
    - unfold dq_add_after. repeat case_match; simpl; try done. apply wq_add_proc.
    - unfold dq_shut_down, shut_down_body. repeat case_match; done.
    - unfold loop_top. destruct (wq_down _); [done|]. destruct (drain_due _ _ _ _) as [[w q]|] eqn:Hd; [|done].
      apply drain_proc in Hd. destruct (Nat.eqb _ _); [done|]. destruct (pq_peek w) as [w1 [e|]]; done.
    - unfold loop_resume. destruct (dq_stop s); [done|].
      pose proof (absorb_proc (dq_now s) (dq_incoming s) (absorb (dq_now s) e (dq_pq s, dq_base s))) as Hp.
      destruct (absorb_all _ _ _) as [w q]. simpl in *. rewrite Hp. unfold absorb. case_match; simpl; [done|apply wq_add_proc].
  Qed.

  (** what a worker has in hand *)
  Definition inproc x q : nat := if decide (x ∈ wq_proc q) then 1 else 0.
  Lemma countb_insert {X} (f : X → bool) l i u v : l !! i = Some u →
    countb f (<[i:=v]> l) + (if f u then 1 else 0) = countb f l + (if f v then 1 else 0).
  Proof.
    revert i. induction l as [|z l IH]; intros [|i] Hi; simplify_eq/=; rewrite ?countb_cons; [lia|].
    specialize (IH _ Hi). lia.
  Qed.
  Lemma countb_two {X} (f : X → bool) l i j u v : l !! i = Some u → l !! j = Some v → i ≠ j → f u = true → f v = true → 2 ≤ countb f l.
  Proof.
    revert i j. induction l as [|z l IH]; intros [|i] [|j] Hi Hj Hne Hx Hy; simplify_eq/=; rewrite countb_cons.
    - rewrite Hx. assert (countb f l ≠ 0); [|lia]. intros H0. rewrite countb_zero in H0. rewrite (H0 v) in Hy; [done|]. by eapply elem_of_list_lookup_2.
    - rewrite Hy. assert (countb f l ≠ 0); [|lia]. intros H0. rewrite countb_zero in H0. rewrite (H0 u) in Hx; [done|]. by eapply elem_of_list_lookup_2.
    - pose proof (IH i j Hi Hj ltac:(lia) Hx Hy). lia.
  Qed.
  Lemma base_inv t ls (s : dq A) : reach dtrans (dq_init t) ls s → ∃ h, wq_inv h (dq_base s).
  Proof. intros Hr. destruct (DI_reach _ _ _ Hr) as [m Hd]. destruct (di_base _ _ _ Hd) as [h Hh]. exists h. by apply wq_inv_exec. Qed.
  Lemma handle_holds x y o sec (q : dq A) ms ms' (q' : dq A) p a : handle x o sec q ms = (ms', (q', p, a)) →
    holdsb y p = bool_decide (x = y) ∧ wq_proc (dq_base q') = wq_proc (dq_base q).
  Proof.
    intros Hh.
    assert (∀ d, wq_proc (dq_base (dq_add_after x d q)) = wq_proc (dq_base q)) as Ha.
    { intros d. apply (outside_proc q (DAddAfter x d (dq_now q))); [done|constructor]. }
    unfold handle, do_add_after in Hh. repeat case_match; simplify_eq/=; try (split; [|done]; try case_match; done).
    all: split; [case_match; done|apply Ha].
  Qed.

  Definition hinv s : Prop := ∀ x, countb (holdsb x) (k_ws s) = inproc x (dq_base (k_q s)).
  Lemma count_step_hold t n tr s l s' : reach kst (kinit t n) tr s → hinv s → kst s l s' →
    hinv s' ∧ (∀ i x r, l = KDone i x r → r = RNone).
  Proof.
    intros Hr Hi Hs. pose proof (reach_queue _ _ _ _ Hr) as Hq. destruct (base_inv _ _ _ Hq) as [h Hinv].
    destruct Hs as [l q' Ho Ht|i r q' t' Hw Ht|i x o sec ms q' p a Hw Hh|i x r Hw|i x r q' e Hw Ht|i Hw|i p Hw].
    - split; [|done]. intros x. unfold inproc. simpl. rewrite (outside_proc _ _ _ Ho Ht). apply Hi.
    - split; [|done]. intros x. simpl. inversion Ht as [| |? q1 ? Hg| | | | | | | | | | |]; subst. simpl in Hg. specialize (Hi x). unfold inproc in *.
      pose proof (countb_insert (holdsb x) _ i _ (handle_get is_request r (k_lim s)).2 Hw) as Hc. simpl in Hc.
      unfold wq_get in Hg. destruct (wq_queue (dq_base (k_q s))) as [|y rest] eqn:Hy.
      { destruct (wq_down _); injection Hg as <- <-; simpl in *; lia. }
      injection Hg as <- <-. simpl in *.
      assert (y ∉ wq_proc (dq_base (k_q s))) as Hny.
      { intros Hy1%(inv_proc _ _ Hinv). assert (y ∈ wq_queue (dq_base (k_q s))) as Hy2 by (rewrite Hy; left).
        apply (inv_queue _ _ Hinv) in Hy2 as [_ ?]. done. }
      assert (holdsb x (if is_request y then (k_lim s, WRun y) else (limit_forget y (k_lim s), WFinish y RTrue)).2 = bool_decide (y = x)) as Hb by by destruct (is_request y).
      rewrite Hb in Hc. destruct (decide (y = x)) as [->|Hne].
      + rewrite bool_decide_eq_true_2 in Hc by done. rewrite decide_True by (rewrite elem_of_sadd; by left). rewrite decide_False in Hi by done. lia.
      + rewrite bool_decide_eq_false_2 in Hc by done.
        assert (x ∈ sadd y (wq_proc (dq_base (k_q s))) ↔ x ∈ wq_proc (dq_base (k_q s))) as Heq by (rewrite elem_of_sadd; naive_solver).
        destruct (decide (x ∈ wq_proc (dq_base (k_q s)))) as [H1|H1].
        * rewrite decide_True by by apply Heq. lia.
        * rewrite decide_False; [lia|]. intros H2%Heq. done.
    - split; [|done]. intros y. simpl. destruct (handle_holds _ y _ _ _ _ _ _ _ _ Hh) as [Hp Hproc]. unfold inproc. rewrite Hproc.
      pose proof (countb_insert (holdsb y) _ i _ p Hw) as Hc. simpl in Hc. rewrite Hp in Hc. specialize (Hi y). unfold inproc in Hi. lia.
    - split; [|done]. intros y. simpl. pose proof (countb_insert (holdsb y) _ i _ (WFinish x r) Hw) as Hc. simpl in Hc. specialize (Hi y). lia.
    - inversion Ht as [| | |? ? q1 ? Hg| | | | | | | | | |]; subst. simpl in Hg.
      assert (x ∈ wq_proc (dq_base (k_q s))) as Hx.
      { specialize (Hi x). unfold inproc in Hi. destruct (decide _); [done|]. exfalso. rewrite countb_zero in Hi.
        specialize (Hi (WFinish x r)). simpl in Hi. rewrite bool_decide_eq_true_2 in Hi by done. by specialize (Hi (elem_of_list_lookup_2 _ _ _ Hw)). }
      unfold wq_done in Hg. rewrite decide_True in Hg by done.
      assert (e = RNone ∧ wq_proc q1 = srem x (wq_proc (dq_base (k_q s)))) as [-> Hp] by (destruct (decide _); by injection Hg as <- <-).
      split; [|naive_solver]. intros y. unfold inproc. simpl. rewrite Hp.
      pose proof (countb_insert (holdsb y) _ i _ (after_done r) Hw) as Hc. simpl in Hc. specialize (Hi y). unfold inproc in Hi.
      assert (holdsb y (after_done r) = false) as Hf by by destruct r. rewrite Hf in Hc.
      destruct (decide (x = y)) as [->|Hne].
      + rewrite bool_decide_eq_true_2 in Hc by done. rewrite decide_True in Hi by done. rewrite decide_False by (rewrite elem_of_srem; naive_solver). lia.
      + rewrite bool_decide_eq_false_2 in Hc by done.
        assert (y ∈ srem x (wq_proc (dq_base (k_q s))) ↔ y ∈ wq_proc (dq_base (k_q s))) as Heq by (rewrite elem_of_srem; naive_solver).
        destruct (decide (y ∈ wq_proc (dq_base (k_q s)))) as [H1|H1].
        * rewrite decide_True by by apply Heq. lia.
        * rewrite decide_False; [lia|]. intros H2%Heq. done.
    - split; [|done]. intros y. simpl. pose proof (countb_insert (holdsb y) _ i _ WIdle Hw) as Hc. simpl in Hc. specialize (Hi y). lia.
    - split; [|done]. intros y. simpl. pose proof (countb_insert (holdsb y) _ i _ (cancelled p) Hw) as Hc.
      assert (holdsb y (cancelled p) = holdsb y p) as Hf by by destruct p. rewrite Hf in Hc. specialize (Hi y). lia.
  Qed.
  Lemma hinv_init t n : hinv (kinit t n).
  Proof.
    intros x. unfold inproc. destruct (decide _) as [?%elem_of_nil|_]; [done|]. simpl.
    induction n as [|n IH]; [done|]. simpl. rewrite countb_cons. done.
  Qed.
  Lemma reach_hinv t n tr s : reach kst (kinit t n) tr s → hinv s.
  Proof.
    intros Hr. enough (reach kst (kinit t n) tr s ∧ hinv s) by tauto.
    apply (reach_trace_inv kst (λ tr s, reach kst (kinit t n) tr s ∧ hinv s) (kinit t n) tr s); [split; [constructor|apply hinv_init]| |done].
    intros tr1 s1 l s2 Hr1 [_ IH] Hs. split; [by eapply reach_snoc|]. by eapply count_step_hold.
  Qed.

  (** C62 *)
  Lemma one_reconcile t n tr s i j x : reach kst (kinit t n) tr s → reconciling i x s → reconciling j x s → i = j.
  Proof.
    intros Hr Hi Hj. apply reach_hinv in Hr. specialize (Hr x). destruct (decide (i = j)); [done|].
    assert (2 ≤ countb (holdsb x) (k_ws s)).
    { eapply countb_two; [exact Hi|exact Hj|done|..]; simpl; by rewrite bool_decide_eq_true_2. }
    unfold inproc in *. case_decide; lia.
  Qed.
  Lemma released_once t n tr s x : reach kst (kinit t n) tr s →
    given x tr = released x tr + countb (holdsb x) (k_ws s) ∧ countb (holdsb x) (k_ws s) ≤ 1 ∧ (∀ i y r, KDone i y r ∈ tr → r = RNone) ∧ (∀ i, k_ws s !! i ≠ Some WCrashed).
  Proof.
    intros Hr.
    enough (reach kst (kinit t n) tr s ∧ given x tr = released x tr + countb (holdsb x) (k_ws s) ∧ (∀ i y r, KDone i y r ∈ tr → r = RNone) ∧ (∀ i, k_ws s !! i ≠ Some WCrashed)) as (_&H1&H2&H3).
    { split; [done|]. split; [|done]. rewrite (reach_hinv _ _ _ _ Hr). unfold inproc. case_decide; lia. }
    apply (reach_trace_inv kst (λ tr s, reach kst (kinit t n) tr s ∧ given x tr = released x tr + countb (holdsb x) (k_ws s) ∧ (∀ i y r, KDone i y r ∈ tr → r = RNone) ∧ (∀ i, k_ws s !! i ≠ Some WCrashed)) (kinit t n) tr s); [| |done].
    - split; [constructor|]. split; [|split; [by intros ??? ?%elem_of_nil|]].
      + rewrite (hinv_init t n). unfold inproc. by destruct (decide _) as [?%elem_of_nil|_].
      + intros i Hc. simpl in Hc. apply lookup_replicate in Hc as [? _]. done.
    - intros tr1 s1 l s2 Hr1 (_&H1&H2&H3) Hs. pose proof (count_step_hold _ _ _ _ _ _ Hr1 (reach_hinv _ _ _ _ Hr1) Hs) as [Hi2 Hd].
      split; [by eapply reach_snoc|]. split; [|split].
      + unfold given, released in *. rewrite !countb_app, !countb_cons, !countb_nil.
        destruct Hs as [l q' Ho Ht|i r q' t' Hw Ht|i y o sec ms q' p a Hw Hh|i y r Hw|i y r q' e Hw Ht|i Hw|i p Hw]; simpl; try lia.
        * pose proof (countb_insert (holdsb x) _ i _ (handle_get is_request r (k_lim s1)).2 Hw) as Hc. simpl in Hc.
          destruct r as [|y| | |]; simpl in *; try lia. assert (holdsb x (if is_request y then (k_lim s1, WRun y) else (limit_forget y (k_lim s1), WFinish y RTrue)).2 = bool_decide (y = x)) as Hb by by destruct (is_request y).
          rewrite Hb in Hc. lia.
        * destruct (handle_holds _ x _ _ _ _ _ _ _ _ Hh) as [Hp _]. pose proof (countb_insert (holdsb x) _ i _ p Hw) as Hc. simpl in Hc. rewrite Hp in Hc. lia.
        * pose proof (countb_insert (holdsb x) _ i _ (WFinish y r) Hw) as Hc. simpl in Hc. lia.
        * specialize (Hd i y e eq_refl). subst e. pose proof (countb_insert (holdsb x) _ i _ (after_done r) Hw) as Hc. simpl in Hc.
          assert (holdsb x (after_done r) = false) as Hf by by destruct r. rewrite Hf in Hc. lia.
        * pose proof (countb_insert (holdsb x) _ i _ WIdle Hw) as Hc. simpl in Hc. lia.
        * pose proof (countb_insert (holdsb x) _ i _ (cancelled p) Hw) as Hc. assert (holdsb x (cancelled p) = holdsb x p) as Hf by by destruct p. rewrite Hf in Hc. lia.
      + intros i y r [?|Hl%elem_of_list_singleton]%elem_of_app; [by eapply H2|]. by eapply Hd.
      + intros j Hj.
        destruct Hs as [l q' Ho Ht|i r q' t' Hw Ht|i y o sec ms q' p a Hw Hh|i y r Hw|i y r q' e Hw Ht|i Hw|i p Hw]; simpl in Hj; try (eapply H3; eassumption);
          apply list_lookup_insert_Some in Hj as [(_&Hj&_)|(_&?)]; try (eapply H3; eassumption); try done.
        * destruct r as [|y| | |]; simpl in Hj; try done. by destruct (is_request y).
        * destruct (handle_holds _ y _ _ _ _ _ _ _ _ Hh) as [Hp _]. subst p. simpl in Hp. by rewrite bool_decide_eq_true_2 in Hp.
        * rewrite (Hd i y e eq_refl) in Hj. by destruct r.
        * destruct p; try done. by apply (H3 i).
  Qed.
End proofs.
