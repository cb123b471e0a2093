From Verif Require Import Base WorkQueue_model WorkQueue_spec WorkQueue_proofs WaitPQ_model DelayQueue_model DelayQueue_spec
  DelayQueue_proofs RateLimit_model RateLimit_spec RateLimit_proofs Controller_model Controller_spec Controller_proofs Controller_proofs2 Controller_proofs3 Controller_live_spec.
From Coq Require Import ZArith QArith.
Local Open Scope nat_scope.

Section live.
  Context {A : Type} `{EqDecision A} (is_request : A → bool).
  Implicit Types (s : kstate A) (x y : A) (p : wphase A).
  Notation kst := (kstep is_request).
  Notation queue s := (wq_queue (dq_base (k_q s))).

  Lemma runs_reach σ lb n : runs is_request σ lb → reach kst (σ 0) (lb <$> seq 0 n) (σ n).
  Proof. intros Hr. induction n as [|n IH]; [constructor|]. rewrite seq_S, fmap_app. simpl. eapply reach_snoc; [exact IH|apply Hr]. Qed.

  (** outside transitions only append to the queue *)
  Lemma add_queue x (q : wq A) : ∃ b, wq_queue (wq_add x q).1 = wq_queue q ++ b.
  Proof. unfold wq_add. repeat case_match; simplify_eq/=; first [by eexists|exists []; by rewrite app_nil_r]. Qed.
  Lemma drain_queue_app fuel now w (q : wq A) w' q' : drain_due fuel now w q = Some (w', q') → ∃ b, wq_queue q' = wq_queue q ++ b.
  Proof.
    revert w q. induction fuel as [|fuel IH]; intros w q; simpl; [intros [= -> ->]; exists []; by rewrite app_nil_r|].
    destruct (Nat.eqb _ _); [intros [= -> ->]; exists []; by rewrite app_nil_r|]. destruct (pq_peek w) as [w1 [e|]]; [|done].
    destruct (Z.gtb e now); [intros [= -> ->]; exists []; by rewrite app_nil_r|]. destruct (pq_pop w1) as [w2 [d|]]; [|done].
    intros [b Hb]%IH. destruct (add_queue d q) as [b' Hb']. rewrite Hb', <-app_assoc in Hb. by eexists.
  Qed.
  Lemma absorb_queue now e (wb : pq A * wq A) : ∃ b, wq_queue (absorb now e wb).2 = wq_queue wb.2 ++ b.
  Proof. unfold absorb. case_match; simpl; [exists []; by rewrite app_nil_r|apply add_queue]. Qed.
  Lemma absorb_all_queue now (es : list (A * Z)) wb : ∃ b, wq_queue (absorb_all now es wb).2 = wq_queue wb.2 ++ b.
  Proof.
    revert wb. induction es as [|e es IH]; intros wb; simpl; [exists []; by rewrite app_nil_r|].
    destruct (IH (absorb now e wb)) as [b Hb], (absorb_queue now e wb) as [b' Hb']. rewrite Hb', <-app_assoc in Hb. by eexists.
  Qed.
  Lemma add_after_queue x d (q : dq A) : ∃ b, wq_queue (dq_base (dq_add_after x d q)) = wq_queue (dq_base q) ++ b.
  Proof. unfold dq_add_after. repeat case_match; simpl; first [apply add_queue|exists []; by rewrite app_nil_r]. Qed.
  Lemma outside_queue (s : dq A) l (s' : dq A) : outside l → dtrans s l s' → ∃ b, wq_queue (dq_base s') = wq_queue (dq_base s) ++ b.
  Proof.
    assert (Hid : ∃ b, wq_queue (dq_base s) = wq_queue (dq_base s) ++ b) by (exists []; by rewrite app_nil_r).
    intros Ho Ht. destruct Ht; try done; simpl.
    - apply add_queue.
    - apply add_after_queue.
    - unfold dq_shut_down, shut_down_body. repeat case_match; done.
    - unfold loop_top. repeat case_match; simpl; try done; by eapply drain_queue_app.
    - unfold loop_resume. case_match; [done|]. destruct (absorb_all _ _ _) as [w q] eqn:E. simpl.
      replace q with (absorb_all (dq_now s) (dq_incoming s) (absorb (dq_now s) e (dq_pq s, dq_base s))).2 by (by rewrite E).
      destruct (absorb_all_queue (dq_now s) (dq_incoming s) (absorb (dq_now s) e (dq_pq s, dq_base s))) as [b Hb], (absorb_queue (dq_now s) e (dq_pq s, dq_base s)) as [b' Hb'].
      rewrite Hb', <-app_assoc in Hb. by eexists.
  Qed.
  Lemma handle_queue x o sec (q : dq A) ms ms' q' p a : handle x o sec q ms = (ms', (q', p, a)) → ∃ b, wq_queue (dq_base q') = wq_queue (dq_base q) ++ b.
  Proof.
    unfold handle, do_add_after. intros Hh. destruct o as [|requeue after|]; repeat case_match; simplify_eq/=; first [apply add_after_queue|exists []; by rewrite app_nil_r].
  Qed.
  (** every transition appends, but the one that hands out the first *)
  Lemma step_queue_shape s l s' : kst s l s' →
    (∃ b, queue s' = queue s ++ b) ∨ ∃ i y t, l = KGet i (RItem y) t ∧ queue s = y :: queue s'.
  Proof.
    intros Hs. destruct Hs as [l q' Ho Ht|i r q' t' Hw Ht|i y o sec ms q' p a Hw Hh|i y r Hw|i y r q' e Hw Ht|i Hw|i p Hw]; simpl; try (left; exists []; by rewrite app_nil_r).
    - left. by eapply outside_queue.
    - inversion Ht as [| |? ? ? Hg| | | | | | | | | | |]; subst. simpl in Hg. unfold wq_get in Hg.
      destruct (queue s) as [|z rest] eqn:Hq.
      + left. exists []. destruct (wq_down _); injection Hg as <- <-; simpl; by rewrite Hq.
      + injection Hg as <- <-. right. by eexists _, _, _.
    - left. by eapply handle_queue.
    - left. inversion Ht as [| | |? ? ? ? Hg| | | | | | | | | |]; subst. simpl in Hg. unfold wq_done in Hg.
      repeat case_match; simplify_eq/=; first [by eexists|exists []; by rewrite app_nil_r].
  Qed.

  (** how far a worker is from asking for the next *)
  Definition far p : nat := match p with WRun _ => 4 | WPut _ _ => 3 | WFinish _ _ => 2 | WSleep => 1 | _ => 0 end.
  Lemma held_proc t n tr s i p y : reach kst (kinit t n) tr s → k_ws s !! i = Some p → holdsb y p = true → y ∈ wq_proc (dq_base (k_q s)).
  Proof.
    intros Hr Hp Hh. pose proof (reach_hinv _ _ _ _ _ Hr y) as Hv. unfold inproc in Hv. destruct (decide (y ∈ wq_proc (dq_base (k_q s)))); [done|].
    rewrite countb_zero in Hv. rewrite (Hv p) in Hh; [done|]. by eapply elem_of_list_lookup_2.
  Qed.
  Lemma no_key_error t n tr s i y r e q' : reach kst (kinit t n) tr s → k_ws s !! i = Some (WFinish y r) → dtrans (k_q s) (DDone y e) q' → e = RNone.
  Proof.
    intros Hr Hp Ht. assert (y ∈ wq_proc (dq_base (k_q s))) as Hin by (eapply held_proc; [done|done|]; simpl; by rewrite bool_decide_eq_true_2).
    inversion Ht as [| | |? ? ? ? Hg| | | | | | | | | |]; subst. simpl in Hg. unfold wq_done in Hg. rewrite decide_True in Hg by done. repeat case_match; by simplify_eq/=.
  Qed.
  Lemma handle_phase x o sec (q : dq A) ms ms' q' p a : handle x o sec q ms = (ms', (q', p, a)) →
    alive p ∧ far p ≤ 3 ∧ holdsb x p = true.
  Proof.
    unfold handle, do_add_after. intros Hh. destruct o as [|requeue after|]; repeat case_match; simplify_eq/=; repeat case_match; simpl; rewrite ?bool_decide_eq_true_2 by done; split_and?; try done; lia.
  Qed.

  (** a worker never cancelled stays alive; unless the queue is empty it comes nearer to asking, or asks *)
  Lemma worker_step t n tr s l s' i p : reach kst (kinit t n) tr s → kst s l s' → l ≠ KCancel i → k_ws s !! i = Some p → alive p →
    ∃ p', k_ws s' !! i = Some p' ∧ alive p' ∧ ((¬ moves i l ∧ p' = p) ∨ (moves i l ∧ (far p' < far p ∨ p = WIdle ∧ far p' ≤ 4 ∧ ∃ r tm, l = KGet i r tm))).
  Proof.
    intros Hr Hs Hc Hp Ha. assert (i < length (k_ws s)) as Hlt by (by eapply lookup_lt_Some).
    destruct Hs as [l q' Ho Ht|j r q' t' Hw Ht|j y o sec ms q' p1 a Hw Hh|j y r Hw|j y r q' e Hw Ht|j Hw|j p1 Hw]; simpl.
    - exists p. split; [done|]. split; [done|]. left. split; [tauto|done].
    - destruct (decide (j = i)) as [->|Hne].
      + simplify_eq. eexists. split; [by apply list_lookup_insert|]. unfold handle_get. destruct r as [|z| | |]; try destruct (is_request z); simpl; (split; [done|]); right; (split; [done|]); right; (split; [done|]); (split; [lia|]); by eexists _, _.
      + exists p. rewrite list_lookup_insert_ne by done. split; [done|]. split; [done|]. left. split; [tauto|done].
    - destruct (decide (j = i)) as [->|Hne].
      + simplify_eq. destruct (handle_phase _ _ _ _ _ _ _ _ _ Hh) as (H1&H2&_). exists p1. split; [by apply list_lookup_insert|]. split; [done|]. right. split; [done|]. left. simpl. lia.
      + exists p. rewrite list_lookup_insert_ne by done. split; [done|]. split; [done|]. left. split; [tauto|done].
    - destruct (decide (j = i)) as [->|Hne].
      + simplify_eq. exists (WFinish y r). split; [by apply list_lookup_insert|]. split; [by destruct r|]. right. split; [done|]. left. simpl. lia.
      + exists p. rewrite list_lookup_insert_ne by done. split; [done|]. split; [done|]. left. split; [tauto|done].
    - destruct (decide (j = i)) as [->|Hne].
      + simplify_eq. rewrite (no_key_error _ _ _ _ _ _ _ _ _ Hr Hw Ht). eexists. split; [by apply list_lookup_insert|]. destruct r; simpl in *; try done; (split; [done|]); right; (split; [done|]); left; lia.
      + exists p. rewrite list_lookup_insert_ne by done. split; [done|]. split; [done|]. left. split; [tauto|done].
    - destruct (decide (j = i)) as [->|Hne].
      + simplify_eq. exists WIdle. split; [by apply list_lookup_insert|]. split; [done|]. right. split; [done|]. left. simpl. lia.
      + exists p. rewrite list_lookup_insert_ne by done. split; [done|]. split; [done|]. left. split; [tauto|done].
    - destruct (decide (j = i)) as [->|Hne]; [done|]. exists p. rewrite list_lookup_insert_ne by done. split; [done|]. split; [done|]. left. split; [tauto|done].
  Qed.

  (** worker i is alive and x is in the queue, with measure at most m *)
  Definition waits i x (m : nat) s : Prop := ∃ p a b, k_ws s !! i = Some p ∧ alive p ∧ queue s = a ++ x :: b ∧ 5 * length a + far p ≤ m.
  Lemma waits_step t n tr s l s' i x m : reach kst (kinit t n) tr s → kst s l s' → l ≠ KCancel i → waits i x m s →
    starts x l ∨ (waits i x m s' ∧ (moves i l → ∃ m', m' < m ∧ waits i x m' s')).
  Proof.
    intros Hr Hs Hc (p&a&b&Hp&Ha&Hq&Hm). destruct (worker_step _ _ _ _ _ _ _ _ Hr Hs Hc Hp Ha) as (p'&Hp'&Ha'&Hmv).
    destruct (step_queue_shape _ _ _ Hs) as [[b' Hb]|(j&y&tm&Hl&Hb)].
    - right. rewrite Hq, <-app_assoc in Hb. simpl in Hb.
      destruct Hmv as [[Hn ->]|[Hmv [Hlt|(Hid&_&r&tm&Hg)]]].
      + split; [by exists p, a, (b ++ b')|done].
      + split; [exists p', a, (b ++ b'); split_and!; [done..|lia]|]. intros _. exists (5 * length a + far p'). split; [lia|]. by exists p', a, (b ++ b').
      + exfalso. subst l p. inversion Hs as [|? ? ? ? Hw Ht| | | | |]; subst. inversion Ht as [| |? ? ? Hgt| | | | | | | | | | |]; subst.
        simpl in *. unfold wq_get in Hgt. rewrite Hq in Hgt. destruct a as [|z a]; simpl in Hgt; injection Hgt as <- <-; simpl in Hb; apply (f_equal length) in Hb; simpl in Hb; rewrite ?app_length in Hb; simpl in Hb; rewrite ?app_length in Hb; simpl in Hb; lia.
    - rewrite Hq in Hb. destruct a as [|z a]; simpl in Hb; injection Hb as -> Hb; [left; subst l; by eexists _, _|]. right. simpl in Hm.
      destruct Hmv as [[Hn ->]|[Hmv [Hlt|(->&Hle&_)]]].
      + split; [exists p, a, b; split_and!; [done..|lia]|done].
      + split; [exists p', a, b; split_and!; [done..|lia]|]. intros _. exists (5 * length a + far p'). split; [lia|]. by exists p', a, b.
      + split; [exists p', a, b; split_and!; [done..|simpl in *; lia]|]. intros _. exists (5 * length a + far p'). split; [simpl in *; lia|]. by exists p', a, b.
  Qed.

  (** x is to be repeated and worker j has it in hand *)
  Definition held j x (m : nat) s : Prop := ∃ p, k_ws s !! j = Some p ∧ holdsb x p = true ∧ x ∈ wq_dirty (dq_base (k_q s)) ∧ far p ≤ m.
  Lemma held_step t n tr s l s' j x m : reach kst (kinit t n) tr s → kst s l s' → held j x m s →
    starts x l ∨ x ∈ queue s' ∨ (held j x m s' ∧ (moves j l → ∃ m', m' < m ∧ held j x m' s')).
  Proof.
    intros Hr Hs (p&Hp&Hh&Hx&Hm). destruct (step_dirty _ _ _ _ _ Hs Hx) as [?|Hx']; [by left|right].
    assert (j < length (k_ws s)) as Hlt by (by eapply lookup_lt_Some).
    assert (Hsame : k_ws s' !! j = Some p → ¬ moves j l → held j x m s' ∧ (moves j l → ∃ m', m' < m ∧ held j x m' s')) by (intros Hpp Hn; split; [by exists p|done]).
    assert (Hless : ∀ p', k_ws s' !! j = Some p' → holdsb x p' = true → far p' < far p → held j x m s' ∧ (moves j l → ∃ m', m' < m ∧ held j x m' s')).
    { intros p' H1 H2 H3. split; [exists p'; split_and!; [done..|lia]|]. intros _. exists (far p'). split; [lia|]. by exists p'. }
    destruct Hs as [l q' Ho Ht|k r q' t' Hw Ht|k y o sec ms q' p1 a Hw Hk|k y r Hw|k y r q' e Hw Ht|k Hw|k p1 Hw]; simpl in *.
    - right. apply Hsame; [done|tauto].
    - destruct (decide (k = j)) as [->|Hne]; [by simplify_eq|]. right. apply Hsame; [by rewrite list_lookup_insert_ne|tauto].
    - destruct (decide (k = j)) as [->|Hne]; [|right; apply Hsame; [by rewrite list_lookup_insert_ne|tauto]]. simplify_eq. simpl in Hh. apply bool_decide_eq_true in Hh as ->.
      destruct (handle_phase _ _ _ _ _ _ _ _ _ Hk) as (_&H2&H3). right. apply (Hless p1); [by apply list_lookup_insert|done|simpl; lia].
    - destruct (decide (k = j)) as [->|Hne]; [|right; apply Hsame; [by rewrite list_lookup_insert_ne|tauto]]. simplify_eq. right. apply (Hless (WFinish y r)); [by apply list_lookup_insert|done|simpl; lia].
    - destruct (decide (k = j)) as [->|Hne]; [|right; apply Hsame; [by rewrite list_lookup_insert_ne|tauto]]. simplify_eq. simpl in Hh. apply bool_decide_eq_true in Hh as ->.
      left. assert (x ∈ wq_proc (dq_base (k_q s))) as Hin by (eapply held_proc; [done|done|]; simpl; by rewrite bool_decide_eq_true_2).
      inversion Ht as [| | |? ? ? ? Hg| | | | | | | | | |]; subst. simpl in Hg. unfold wq_done in Hg. rewrite decide_True in Hg by done. simpl in Hg. rewrite decide_True in Hg by done.
      injection Hg as <- <-. simpl. apply elem_of_app. right. by left.
    - destruct (decide (k = j)) as [->|Hne]; [by simplify_eq|]. right. apply Hsame; [by rewrite list_lookup_insert_ne|tauto].
    - destruct (decide (k = j)) as [->|Hne]; [|right; apply Hsame; [by rewrite list_lookup_insert_ne|tauto]]. simplify_eq. right.
      destruct p1 as [|z|z r|z r| | |]; try done.
      + apply (Hless (WFinish z RCancelled)); [by apply list_lookup_insert|done|simpl; lia].
      + apply (Hless (WFinish z RCancelled)); [by apply list_lookup_insert|done|simpl; lia].
      + apply Hsame; [by apply list_lookup_insert|tauto].
  Qed.

  Section run.
    Context (σ : nat → kstate A) (lb : nat → klabel A) (t : Z) (n0 : nat).
    Hypothesis (H0 : σ 0 = kinit t n0) (Hruns : runs is_request σ lb) (Hfair : fair σ lb).
    Lemma at_reach n : reach kst (kinit t n0) (lb <$> seq 0 n) (σ n).
    Proof. rewrite <-H0. by apply runs_reach. Qed.

    Lemma waits_until i x m n d : (∀ k, lb k ≠ KCancel i) → waits i x m (σ n) → (∃ k, n ≤ k ∧ starts x (lb k)) ∨ waits i x m (σ (n + d)).
    Proof.
      intros Hc Hw. induction d as [|d IH]; [rewrite Nat.add_0_r; by right|]. destruct IH as [?|IH]; [by left|].
      destruct (waits_step _ _ _ _ _ _ _ _ _ (at_reach (n + d)) (Hruns (n + d)) (Hc _) IH) as [Hst|[Hw' _]]; [left; exists (n + d); split; [lia|done]|].
      right. by rewrite Nat.add_succ_r.
    Qed.
    Lemma queued_starts i x m : (∀ k, lb k ≠ KCancel i) → ∀ n, waits i x m (σ n) → ∃ k, n ≤ k ∧ starts x (lb k).
    Proof.
      intros Hc. induction (lt_wf m) as [m _ IH]. intros n Hw. destruct (Hw) as (p&_&_&Hp&_). destruct (Hfair _ _ _ Hp) as (k&Hk&Hmv).
      destruct (waits_until i x m n (k - n) Hc Hw) as [?|Hwk]; [done|]. replace (n + (k - n)) with k in Hwk by lia.
      assert (moves i (lb k)) as Hm. { destruct Hwk as (p'&_&_&Hp'&Ha'&_). destruct Hmv as [?|[?|?]]; [done| |]; simplify_eq; done. }
      destruct (waits_step _ _ _ _ _ _ _ _ _ (at_reach k) (Hruns k) (Hc _) Hwk) as [Hst|[_ Hd]]; [by exists k|].
      destruct (Hd Hm) as (m'&Hlt&Hw'). destruct (IH m' Hlt (S k) Hw') as (k'&?&?). exists k'. split; [lia|done].
    Qed.
    Lemma held_until j x m n d : held j x m (σ n) → (∃ k, n ≤ k ∧ starts x (lb k)) ∨ (∃ k, n ≤ k ∧ x ∈ queue (σ k)) ∨ held j x m (σ (n + d)).
    Proof.
      intros Hw. induction d as [|d IH]; [rewrite Nat.add_0_r; by right; right|]. destruct IH as [?|[?|IH]]; [by left|by right; left|].
      destruct (held_step _ _ _ _ _ _ _ _ _ (at_reach (n + d)) (Hruns (n + d)) IH) as [Hst|[Hq|[Hw' _]]].
      - left. exists (n + d). split; [lia|done].
      - right. left. exists (S (n + d)). split; [lia|done].
      - right. right. by rewrite Nat.add_succ_r.
    Qed.
    Lemma held_queued j x m : ∀ n, held j x m (σ n) → (∃ k, n ≤ k ∧ starts x (lb k)) ∨ ∃ k, n ≤ k ∧ x ∈ queue (σ k).
    Proof.
      induction (lt_wf m) as [m _ IH]. intros n Hw. destruct (Hw) as (p&Hp&_). destruct (Hfair _ _ _ Hp) as (k&Hk&Hmv).
      destruct (held_until j x m n (k - n) Hw) as [?|[?|Hwk]]; [by left|by right|]. replace (n + (k - n)) with k in Hwk by lia.
      assert (moves j (lb k)) as Hm. { destruct Hwk as (p'&Hp'&Ha'&_). destruct Hmv as [?|[?|?]]; [done| |]; simplify_eq; done. }
      destruct (held_step _ _ _ _ _ _ _ _ _ (at_reach k) (Hruns k) Hwk) as [Hst|[Hq|[_ Hd]]].
      - left. by exists k.
      - right. exists (S k). split; [lia|done].
      - destruct (Hd Hm) as (m'&Hlt&Hw'). destruct (IH m' Hlt (S k) Hw') as [(k'&?&?)|(k'&?&?)]; [left|right]; exists k'; (split; [lia|done]).
    Qed.
    Lemma alive_always i n : i < n0 → (∀ k, lb k ≠ KCancel i) → ∃ p, k_ws (σ n) !! i = Some p ∧ alive p.
    Proof.
      intros Hi Hc. induction n as [|n IH].
      - rewrite H0. exists WIdle. split; [|done]. simpl. by apply lookup_replicate_2.
      - destruct IH as (p&Hp&Ha). destruct (worker_step _ _ _ _ _ _ _ _ (at_reach n) (Hruns n) (Hc n) Hp Ha) as (p'&?&?&_). by exists p'.
    Qed.
    Lemma dirty_starts i x n : i < n0 → (∀ k, lb k ≠ KCancel i) → x ∈ wq_dirty (dq_base (k_q (σ n))) → ∃ k, n ≤ k ∧ starts x (lb k).
    Proof.
      intros Hi Hc Hd.
      assert (Hin : ∀ n, x ∈ queue (σ n) → ∃ k, n ≤ k ∧ starts x (lb k)).
      { intros n1 (a&b&Hq)%elem_of_list_split. destruct (alive_always i n1 Hi Hc) as (p&Hp&Ha). eapply (queued_starts i x (5 * length a + far p)); [done|]. by exists p, a, b. }
      destruct (decide (x ∈ queue (σ n))) as [Hq|Hout]; [by apply Hin|].
      destruct (base_inv _ _ _ (reach_queue _ _ _ _ _ (at_reach n))) as [h Hinv].
      assert (x ∈ wq_proc (dq_base (k_q (σ n)))) as Hpr.
      { destruct (decide (x ∈ wq_proc (dq_base (k_q (σ n))))) as [|Hn]; [done|]. exfalso. apply Hout, (inv_queue _ _ Hinv).
        rewrite (inv_proc _ _ Hinv) in Hn. split; [by apply (inv_dirty _ _ Hinv)|done]. }
      pose proof (reach_hinv _ _ _ _ _ (at_reach n) x) as Hv. unfold inproc in Hv. rewrite decide_True in Hv by done.
      assert (∃ j pj, k_ws (σ n) !! j = Some pj ∧ holdsb x pj = true) as (j&pj&Hj&Hh).
      { clear -Hv. induction (k_ws (σ n)) as [|p ws IH]; [done|]. rewrite countb_cons in Hv. destruct (holdsb x p) eqn:E; [by exists 0, p|].
        destruct IH as (j&pj&?&?); [lia|]. by exists (S j), pj. }
      destruct (held_queued j x (far pj) n) as [?|(k&Hk&Hq)]; [by exists pj|done|]. destruct (Hin k Hq) as (k'&?&?). exists k'. split; [lia|done].
    Qed.
    Lemma owed_starts i x n : i < n0 → (∀ k, lb k ≠ KCancel i) → ready_owed x (k_q (σ n)) → ∃ k, n ≤ k ∧ starts x (lb k).
    Proof. intros Hi Hc Hx. eapply dirty_starts; [done|done|]. eapply dirty_owed; [apply at_reach|done]. Qed.
    Lemma added_starts i x n : i < n0 → (∀ k, lb k ≠ KCancel i) → lb n = KEnv (DAdd x) → ∃ k, n < k ∧ starts x (lb k).
    Proof.
      intros Hi Hc Hl. assert (ready_owed x (k_q (σ (S n)))) as Hx.
      { assert (lb <$> seq 0 (S n) = (lb <$> seq 0 n) ++ KEnv (DAdd x) :: []) as Heq by (rewrite seq_S, fmap_app; simpl; by rewrite Hl).
        destruct (added_owed _ _ _ _ _ _ _ _ (at_reach (S n)) Heq) as [(l&[]%elem_of_nil&_)|?]. done. }
      destruct (owed_starts i x (S n) Hi Hc Hx) as (k&?&?). exists k. split; [lia|done].
    Qed.
  End run.
End live.

(** a fair run: something is added, reconciled, and the worker waits for ever *)
Definition live_q (w : wq nat) : dq nat := with_base w (dq_init 0).
Definition live_st (n : nat) : kstate nat :=
  match n with
  | 0 => kinit 0 1
  | 1 => K (live_q (WQ [5] [] [5] false)) default_limiter [WIdle]
  | 2 => K (live_q (WQ [] [5] [] false)) default_limiter [WRun 5]
  | 3 => K (live_q (WQ [] [5] [] false)) (limit_forget 5 default_limiter) [WFinish 5 RTrue]
  | _ => K (live_q (WQ [] [] [] false)) (limit_forget 5 default_limiter) [WIdle]
  end.
Definition live_lb (n : nat) : klabel nat :=
  match n with
  | 0 => KEnv (DAdd 5) | 1 => KGet 0 (RItem 5) 0 | 2 => KRet 0 5 (OResult false 0) 0 None | 3 => KDone 0 5 RNone
  | _ => KGet 0 RBlocked 0
  end.
Lemma live_case : live_st 0 = kinit 0 1 ∧ runs always live_st live_lb ∧ fair live_st live_lb ∧ (∀ k, live_lb k ≠ KCancel 0) ∧ live_lb 0 = KEnv (DAdd 5).
Proof.
  split; [done|]. split; [|split; [|split; [|done]]].
  - intros [|[|[|[|n]]]].
    + apply (k_env always (kinit 0 1)); [done|]. exact (dt_add (dq_init 0) 5).
    + apply (k_get always (live_st 1) 0 (RItem 5) (live_q (WQ [] [5] [] false)) 0%Z); [done|]. by apply (dt_get (live_q (WQ [5] [] [5] false)) (WQ [] [5] [] false) (RItem 5)).
    + by apply (k_ret always (live_st 2) 0 5 (OResult false 0) 0 (limit_forget 5 default_limiter) (live_q (WQ [] [5] [] false)) (WFinish 5 RTrue) None).
    + apply (k_done always (live_st 3) 0 5 RTrue (live_q (WQ [] [] [] false)) RNone); [done|]. by apply (dt_done (live_q (WQ [] [5] [] false)) 5 (WQ [] [] [] false) RNone).
    + apply (k_get always (live_st (S (S (S (S n))))) 0 RBlocked (live_q (WQ [] [] [] false)) 0%Z); [done|]. by apply (dt_get (live_q (WQ [] [] [] false)) (WQ [] [] [] false) RBlocked).
  - intros j n p Hp. exists (4 + n). split; [lia|]. left. simpl. by destruct j; [|destruct n as [|[|[|[|]]]]].
  - by intros [|[|[|[|]]]].
Qed.
