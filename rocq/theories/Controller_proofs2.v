From Verif Require Import Base WorkQueue_model WorkQueue_spec WorkQueue_proofs WaitPQ_model DelayQueue_model DelayQueue_spec
  DelayQueue_proofs RateLimit_model RateLimit_spec RateLimit_proofs Controller_model Controller_spec Controller_proofs.
From Coq Require Import ZArith QArith Lqa.
Local Open Scope nat_scope.

Section proofs.
  Context {A : Type} `{EqDecision A} (is_request : A → bool).
  Implicit Types (tr : list (klabel A)) (s : kstate A) (x : A).
  Notation kst := (kstep is_request).

  (** the limiter *)
  Definition shape (d : dict A nat) (b : bucket) : list (lim A) := [inl (ExpLim (PyFloat five_milli) (Fin 1000) d); inr b].
  Lemma scale_backoff n : n < 1024 → ∃ p r, scale (PyFloat five_milli) n = Some p ∧ num_min p (Fin 1000) = Fin r ∧ (r == backoff n)%Q.
  Proof.
    intros Hn. destruct (scale_min (PyFloat five_milli) 1000 n) as (p&r&Hp&Hr&H1&H2); [by vm_compute..|done|].
    exists p, r. split; [done|]. split; [done|]. unfold backoff. simpl pyval in *.
    destruct (Qle_bool (five_milli * inject_Z (2 ^ Z.of_nat n)) 1000) eqn:E.
    - apply Qle_bool_iff in E. by apply H1.
    - apply H2. apply Qlt_le_weak. apply Qnot_le_lt. intros E'%Qle_bool_iff. congruence.
  Qed.
  Lemma limit_when_shape x sec d b : let n := counter_get x d in
    ∃ b', (limit_when x sec (shape d b)).1 = shape (dset x (S n) d) b' ∧
    (1024 ≤ n → (limit_when x sec (shape d b)).2 = None) ∧
    (n < 1024 → ∃ d', (limit_when x sec (shape d b)).2 = Some (ticks d') ∧ (backoff n <= d')%Q ∧ ((d' == backoff n)%Q ∨ d' = (bucket_when b sec).2)).
  Proof.
    intros n. unfold limit_when, shape, maxof_step. cbn [call_when lim_step explim_step].
    unfold exp_when. cbn [e_failures e_base e_max]. fold n. destruct (decide (1024 ≤ n)) as [Hn|Hn].
    - assert (scale (PyFloat five_milli) n = None) as ->. { unfold scale. by rewrite (proj2 (Nat.leb_le 1024 n) Hn). }
      cbn. exists b. split; [done|]. split; [done|]. lia.
    - destruct (scale_backoff n) as (p&r&Hp&Hr&Hrb); [lia|]. rewrite Hp. cbn [fmap option_fmap option_map]. rewrite Hr.
      cbn [bucket_step]. destruct (bucket_when b sec) as [b' w] eqn:Hw. cbn. exists b'. split; [done|]. split; [lia|]. intros _.
      unfold num_max. cbn [num_lt]. pose proof (qlt_spec r w) as Hq. destruct (qlt r w); cbn; eexists; (split; [done|]).
      + split; [lra|]. by right.
      + split; [lra|]. by left.
  Qed.
  Lemma limit_forget_shape x d b : limit_forget x (shape d b) = shape (ddel x d) b.
  Proof. done. Qed.
  Lemma num_requeues_shape x s d b : k_lim s = shape d b → num_requeues x s = LCount (counter_get x d).
  Proof.
    intros Hk. unfold num_requeues. rewrite Hk. unfold maxof_step, max_count, call_count, shape. simpl. unfold exp_num_requeues. simpl. f_equal. lia.
  Qed.
  Lemma counter_dset x y n d : counter_get y (dset x n d) = if bool_decide (x = y) then n else counter_get y d.
  Proof.
    unfold counter_get. rewrite dget_dset. destruct (decide (y = x)) as [->|].
    - by rewrite bool_decide_eq_true_2. - by rewrite bool_decide_eq_false_2.
  Qed.
  Lemma counter_ddel x y d : counter_get y (ddel x d) = if bool_decide (x = y) then 0 else counter_get y d.
  Proof.
    unfold counter_get. rewrite dget_ddel. destruct (decide (y = x)) as [->|].
    - by rewrite bool_decide_eq_true_2. - by rewrite bool_decide_eq_false_2.
  Qed.

  Definition linv tr s : Prop := ∃ d b, k_lim s = shape d b ∧ ∀ x, counter_get x d = failures_of is_request x tr.
  Lemma failures_snoc x tr l : failures_of is_request x (tr ++ [l]) = count_step is_request x (failures_of is_request x tr) l.
  Proof. unfold failures_of. by rewrite foldl_app. Qed.
  Lemma linv_step tr s l s' : linv tr s → kst s l s' → linv (tr ++ [l]) s'.
  Proof.
    intros (d&b&Hk&Hc) Hs.
    destruct Hs as [l q' Ho Ht|i r q' t' Hw Ht|i y o sec ms q' p a Hw Hh|i y r Hw|i y r q' e Hw Ht|i Hw|i p Hw];
      try (exists d, b; split; [done|]; intros z; rewrite failures_snoc; simpl; apply Hc).
    - destruct r as [|y| | |]; try (exists d, b; split; [done|]; intros z; rewrite failures_snoc; simpl; apply Hc).
      destruct (is_request y) eqn:Hy; simpl; rewrite Hy; simpl.
      + exists d, b. split; [done|]. intros z. rewrite failures_snoc. simpl. rewrite bool_decide_eq_false_2 by (rewrite Hy; naive_solver). apply Hc.
      + exists (ddel y d), b. split; [by rewrite Hk|]. intros z. rewrite failures_snoc, counter_ddel, Hc. simpl.
        destruct (decide (y = z)) as [->|].
        * rewrite !bool_decide_eq_true_2; done.
        * rewrite !bool_decide_eq_false_2; naive_solver.
    - destruct (limit_when_shape y sec d b) as (b'&H1&_&_). rewrite <-Hk in H1.
      assert (Hrep : ∀ l, (∀ z n, count_step is_request z n l = if bool_decide (y = z) then S n else n) →
                ms = (limit_when y sec (k_lim s)).1 → linv (tr ++ [l]) (K q' ms (<[i:=p]> (k_ws s)))).
      { intros l Hl ->. eexists _, b'. split; [exact H1|]. intros z. rewrite failures_snoc, Hl, counter_dset, !Hc. case_bool_decide as E; [by subst|done]. }
      unfold handle in Hh. destruct o as [|requeue after|].
      + apply Hrep; [done|]. destruct (limit_when y sec (k_lim s)) as [ms' [dd|]]; by injection Hh.
      + destruct (negb (Qeq_bool after 0)) eqn:Ha.
        * injection Hh as <- _ _ _. exists (ddel y d), b. split; [by rewrite Hk|]. intros z. rewrite failures_snoc, counter_ddel, Hc. simpl. by rewrite Ha.
        * destruct requeue.
          { apply Hrep; [intros; simpl; by rewrite Ha|]. destruct (limit_when y sec (k_lim s)) as [ms' [dd|]]; by injection Hh. }
          injection Hh as <- _ _ _. exists (ddel y d), b. split; [by rewrite Hk|]. intros z. rewrite failures_snoc, counter_ddel, Hc. simpl. by rewrite Ha.
      + injection Hh as <- _ _ _. exists d, b. split; [done|]. intros z. rewrite failures_snoc. simpl. apply Hc.
  Qed.
  Lemma reach_linv t n tr s : reach kst (kinit t n) tr s → linv tr s.
  Proof.
    intros Hr. apply (reach_trace_inv kst linv (kinit t n) tr s); [| |done].
    - exists [], (Bucket 10 100 0 0). done.
    - intros tr1 s1 l s2 _ IH Hs. by eapply linv_step.
  Qed.

  (** C63 *)
  Lemma outcome_table t n tr s i x o sec a s' : reach kst (kinit t n) tr s → kst s (KRet i x o sec a) s' →
    let p := plan_of o (failures_of is_request x tr) in met p.1 sec s a s' ∧ num_requeues x s' = LCount p.2.
  Proof.
    intros Hr Hs. pose proof (reach_linv _ _ _ _ Hr) as Hi. pose proof Hi as (d&b&Hk&Hc).
    pose proof (linv_step _ _ _ _ Hi Hs) as (d2&b2&Hk2&Hc2).
    intros p. split; cycle 1.
    { rewrite (num_requeues_shape _ _ _ _ Hk2), Hc2, failures_snoc. subst p. f_equal.
      destruct o as [|requeue after|]; simpl; rewrite ?bool_decide_eq_true_2 by done; [done| |done].
      destruct (Qeq_bool after 0); simpl; [by destruct requeue|done]. }
    inversion Hs as [| |i' x' o' sec' ms q' ph a' Hw Hh E1 E2| | | |]; subst.
    destruct (limit_when_shape x sec d b) as (b'&_&H2&H3). rewrite Hc in H2, H3. rewrite <-Hk in H2, H3.
    assert (Hrep : ∀ r, match limit_when x sec (k_lim s) with
                        | (ms, Some d) => (ms, do_add_after x d r (k_q s))
                        | (ms, None) => (ms, (k_q s, WFinish x RNothing, None)) end = (ms, (q', ph, a)) →
               met (repeat_plan (failures_of is_request x tr)).1 sec s a (K q' ms (<[i:=ph]> (k_ws s)))).
    { intros r Hr'. unfold repeat_plan. destruct (Nat.ltb_spec (failures_of is_request x tr) 1024) as [Hn|Hn]; simpl.
      - destruct (H3 Hn) as (d'&Hd'&Hle&Heq). destruct (limit_when x sec (k_lim s)) as [ms' o']. simpl in Hd'. subst o'. injection Hr' as <- <- <- <-.
        exists d'. split; [done|]. split; [done|]. destruct Heq as [?| ->]; [by left|right]. exists b. split; [|done]. rewrite Hk. unfold shape. right. left.
      - specialize (H2 Hn). destruct (limit_when x sec (k_lim s)) as [ms' o']. simpl in H2. subst o'. by injection Hr' as <- <- <- <-. }
    unfold handle in Hh. subst p. destruct o as [|requeue after|]; simpl.
    - by apply (Hrep RFalse).
    - destruct (Qeq_bool after 0) eqn:Ha; simpl in Hh.
      + destruct requeue; [by apply (Hrep RTrue)|]. by injection Hh as <- <- <- <-.
      + by injection Hh as <- <- <- <-.
    - by injection Hh as <- <- <- <-.
  Qed.
  Lemma not_request t n tr s i x tm s' : reach kst (kinit t n) tr s → kst s (KGet i (RItem x) tm) s' → is_request x = false →
    k_ws s' !! i = Some (WFinish x RTrue) ∧ num_requeues x s' = LCount 0.
  Proof.
    intros Hr Hs Hx. pose proof (linv_step _ _ _ _ (reach_linv _ _ _ _ Hr) Hs) as (d2&b2&Hk2&Hc2). split.
    - inversion Hs; subst. simpl. rewrite Hx. simpl. apply list_lookup_insert. by eapply lookup_lt_Some.
    - rewrite (num_requeues_shape _ _ _ _ Hk2), Hc2, failures_snoc. simpl. by rewrite bool_decide_eq_true_2.
  Qed.
  Lemma in_to_queue tr l : l ∈ tr ≫= to_queue → ∃ k, k ∈ tr ∧ l ∈ to_queue k.
  Proof. intros (k&?&?)%elem_of_list_bind. eauto. Qed.
  Lemma requeued t n tr s l1 l2 i x o sec d t0 : reach kst (kinit t n) tr s → dq_stop (k_q s) = false →
    tr = l1 ++ KRet i x o sec (Some (d, t0)) :: l2 →
    (∃ l, l ∈ l2 ∧ starts x l) ∨ ready_owed x (k_q s) ∨ ∃ r, (x, r) ∈ dq_tracked (k_q s) ∧ (r <= t0 + d)%Z.
  Proof.
    intros Hr Hst ->. pose proof (reach_queue _ _ _ _ _ Hr) as Hq. rewrite bind_app in Hq. simpl in Hq.
    destruct (not_lost t _ _ (l1 ≫= to_queue) (l2 ≫= to_queue) x d t0 Hq Hst eq_refl) as [[T HT]|H]; [|by right].
    left. apply in_to_queue in HT as (k&Hk&HT). exists k. split; [done|].
    destruct k as [l|i' r t'|? ? ? ? [[]|]| |? ? ?| |]; simpl in HT; try (apply elem_of_list_singleton in HT; simplify_eq); try by apply elem_of_nil in HT.
    - (* KEnv (DGet ..) is not outside *)
      exfalso. assert (∀ l, KEnv l ∈ l1 ++ KRet i x o sec (Some (d, t0)) :: l2 → outside l) as Hout.
      { clear -Hr. set (tr := _ ++ _) in *. clearbody tr.
        apply (reach_trace_inv kst (λ tr s, ∀ l, KEnv l ∈ tr → outside l) (kinit t n) tr s); [by intros ? ?%elem_of_nil| |done].
        intros tr1 s1 k s2 _ IH Hs l [?|Hl%elem_of_list_singleton]%elem_of_app; [by apply IH|]. subst k. by inversion Hs. }
      apply (Hout (DGet (RItem x) T)). apply elem_of_app. right. by right.
    - by eexists _, _.
  Qed.
End proofs.
