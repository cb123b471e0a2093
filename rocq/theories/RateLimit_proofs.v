From Verif Require Import Base RateLimit_model RateLimit_spec.
From Coq Require Import ZArith QArith Qfield Lqa Lia.
Open Scope Q_scope.

(** ** comparisons *)
Lemma qlt_spec a b : if qlt a b then a < b else b <= a.
Proof.
  unfold qlt. destruct (Qle_bool b a) eqn:E; simpl.
  - by apply Qle_bool_iff.
  - apply Qnot_le_lt. intros H%Qle_bool_iff. congruence.
Qed.
Lemma py_min_spec a b : (a <= b ∧ py_min a b = a) \/ (b < a ∧ py_min a b = b).
Proof. unfold py_min. pose proof (qlt_spec b a) as H. destruct (qlt b a); [right|left]; done. Qed.

(** ** exponential limiter *)
Section explim.
  Context {A : Type} `{EqDecision A}.
  Implicit Types (h : list (lop A * lres)) (x : A).

  Lemma exp_inv base mx h l :
    exec explim_step (ExpLim base mx []) h l →
    e_base l = base ∧ e_max l = mx ∧ ∀ x, counter_get x (e_failures l) = failures x (reverse h.*1).
  Proof.
    apply (exec_trace_inv explim_step (λ h (l : explim A), e_base l = base ∧ e_max l = mx ∧
      ∀ x, counter_get x (e_failures l) = failures x (reverse h.*1))).
    { repeat split. }
    clear. intros h l o _ (Hb & Hm & IH). rewrite fmap_app, reverse_app. cbn [fmap list_fmap fst].
    destruct o as [y t|y|y]; cbn; rewrite ?Hb, ?Hm; repeat split; try done; intros x.
    - unfold counter_get at 1. rewrite dget_dset. destruct (decide (x = y)) as [->|].
      + rewrite decide_True by done. simpl. by rewrite IH.
      + rewrite decide_False by done. apply IH.
    - unfold counter_get. rewrite dget_ddel. destruct (decide (x = y)) as [->|].
      + by rewrite decide_True.
      + rewrite decide_False by done. apply IH.
  Qed.

  Lemma exp_answers base mx h l x t :
    exec explim_step (ExpLim base mx []) h l →
    (explim_step l (When x t)).2 =
      match scale base (failures x (reverse h.*1)) with
      | Some d => LDelay (num_min d mx) | None => LOverflow end ∧
    (explim_step l (NumRequeues x)).2 = LCount (failures x (reverse h.*1)).
  Proof.
    intros (Hb & Hm & Hc)%exp_inv. simpl. unfold exp_num_requeues. rewrite Hb, Hm, Hc.
    split; [|done]. by destruct (scale _ _).
  Qed.

  Lemma pow2_pos n : 0 < inject_Z (2 ^ Z.of_nat n).
  Proof. unfold Qlt; simpl. pose proof (Z.pow_pos_nonneg 2 (Z.of_nat n)). lia. Qed.

  Lemma num_min_fin p mx : ∃ r, num_min (Fin p) (Fin mx) = Fin r ∧
    (p <= mx → r == p) ∧ (mx <= p → r == mx).
  Proof.
    unfold num_min; cbn. pose proof (qlt_spec mx p) as H. destruct (qlt mx p); eexists; (split; [done|]); split; intros; lra.
  Qed.

  Lemma scale_min base mx n : 0 <= pyval base → 0 <= mx → mx < double_limit →
    match base with PyInt _ => True | PyFloat _ => (n < 1024)%nat end →
    ∃ d r, scale base n = Some d ∧ num_min d (Fin mx) = Fin r ∧
      (pyval base * inject_Z (2 ^ Z.of_nat n) <= mx → r == pyval base * inject_Z (2 ^ Z.of_nat n)) ∧
      (mx <= pyval base * inject_Z (2 ^ Z.of_nat n) → r == mx).
  Proof.
    intros Hb Hm0 Hm Hn. pose proof (pow2_pos n) as Hp2. destruct base as [z|q]; unfold scale, pyval in *.
    - rewrite inject_Z_mult. destruct (num_min_fin (inject_Z z * inject_Z (2 ^ Z.of_nat n)) mx) as (r & ? & ? & ?).
      by eexists _, r.
    - destruct (Nat.leb_spec 1024 n); [lia|]. set (p := q * inject_Z (2 ^ Z.of_nat n)).
      assert (0 <= p) as Hp0 by (apply Qmult_le_0_compat; lra).
      assert (0 < double_limit) as Hd by (by vm_compute).
      destruct (Qle_bool double_limit p) eqn:E1.
      + apply Qle_bool_iff in E1. eexists _, mx. split; [done|]. split; [done|]. split; intros; lra.
      + destruct (Qle_bool p (- double_limit)) eqn:E2.
        * apply Qle_bool_iff in E2. lra.
        * destruct (num_min_fin p mx) as (r & ? & ? & ?). by eexists _, r.
  Qed.

  (** the answer of when(x) *)
  Lemma exp_when_value base mx h l x t :
    exec explim_step (ExpLim base (Fin mx) []) h l →
    0 <= pyval base → 0 <= mx → mx < double_limit →
    let n := failures x (reverse h.*1) in
    match base with PyInt _ => True | PyFloat _ => (n < 1024)%nat end →
    ∃ r, (explim_step l (When x t)).2 = LDelay (Fin r) ∧
      (pyval base * inject_Z (2 ^ Z.of_nat n) <= mx → r == pyval base * inject_Z (2 ^ Z.of_nat n)) ∧
      (mx <= pyval base * inject_Z (2 ^ Z.of_nat n) → r == mx).
  Proof.
    intros Hex Hb H0 Hm n Hn. destruct (scale_min base mx n Hb H0 Hm Hn) as (d & r & Hs & Hr & H1 & H2).
    exists r. split; [|done]. destruct (exp_answers _ _ _ _ x t Hex) as [-> _]. fold n. by rewrite Hs, Hr.
  Qed.

  Lemma exp_overflow_iff base mx h l x t :
    exec explim_step (ExpLim base mx []) h l →
    (explim_step l (When x t)).2 = LOverflow ↔
      (∃ q, base = PyFloat q) ∧ (1024 ≤ failures x (reverse h.*1))%nat.
  Proof.
    intros Hex. destruct (exp_answers _ _ _ _ x t Hex) as [-> _]. destruct base as [z|q]; unfold scale.
    - split; [done|]. by intros [[q ?] _].
    - destruct (Nat.leb_spec 1024 (failures x (reverse h.*1))).
      + split; [|by intros]. intros _. split; [by eexists|done].
      + split; [done|]. intros [_ ?]. lia.
  Qed.
End explim.

(** ** token bucket *)
Definition bucket_ok (b : bucket) : Prop := 0 < b_limit b ∧ 1 <= b_burst b ∧ b_tokens b <= b_burst b.
(** the time (in seconds) at which the bucket would hold exactly 0 tokens *)
Definition vtime (b : bucket) : Q := b_last b / giga - b_tokens b / b_limit b.

Lemma giga_pos : 0 < giga. Proof. by vm_compute. Qed.

Lemma Qdiv_mult_l x l : 0 < l → x / l * l == x.
Proof. intros. field. lra. Qed.

(** the tokens available at time [t] *)
Lemma advance_value b t : bucket_ok b → b_last b <= t * giga →
  (b_tokens b + (t - b_last b / giga) * b_limit b <= b_burst b ∧
   bucket_advance b (t * giga) == b_tokens b + (t - b_last b / giga) * b_limit b) ∨
  (b_burst b <= b_tokens b + (t - b_last b / giga) * b_limit b ∧
   bucket_advance b (t * giga) == b_burst b).
Proof.
  intros (Hl & HB & Hk) Hmono. destruct b as [l B k last]; simpl in *. unfold bucket_advance; simpl.
  pose proof giga_pos as Hg. pose proof (py_min_spec last (t * giga)) as [[_ ->]|[? _]]; [|lra].
  set (e := t * giga - last). assert (0 <= e) as He by (unfold e; lra).
  assert ((t - last / giga) * l == e * l / giga) as -> by (unfold e; field; lra).
  set (me := giga * (B - k) / l).
  assert (me * l / giga == B - k) as Hme by (unfold me; field; lra).
  assert (∀ a b, a <= b → a * l / giga <= b * l / giga) as Hmon.
  { intros a b ?. unfold Qdiv. apply Qmult_le_compat_r; [|apply Qinv_le_0_compat; lra]. apply Qmult_le_compat_r; lra. }
  destruct (py_min_spec e me) as [[H1 ->]|[H1 ->]].
  - specialize (Hmon _ _ H1). destruct (py_min_spec (k + e * l / giga) B) as [[H2 ->]|[H2 ->]]; [left|right]; split; lra.
  - pose proof (Hmon _ _ (Qlt_le_weak _ _ H1)). right.
    destruct (py_min_spec (k + me * l / giga) B) as [[H2 ->]|[H2 ->]]; split; lra.
Qed.

Lemma div_le a b l : 0 < l → a <= b → a / l <= b / l.
Proof. intros. unfold Qdiv. apply Qmult_le_compat_r; [done|]. apply Qinv_le_0_compat. lra. Qed.

Record when_spec (b b' : bucket) (t w : Q) : Prop := {
  ws_ok : bucket_ok b';
  ws_limit : b_limit b' = b_limit b;
  ws_burst : b_burst b' = b_burst b;
  ws_last : b_last b' = t * giga;
  ws_v1 : vtime b + 1 / b_limit b <= vtime b';
  ws_v2 : t - b_burst b / b_limit b + 1 / b_limit b <= vtime b';
  ws_v3 : vtime b' == vtime b + 1 / b_limit b ∨ vtime b' == t - b_burst b / b_limit b + 1 / b_limit b;
  ws_w0 : 0 <= w;
  ws_w1 : vtime b' <= t + w;
  ws_w2 : w == 0 ∨ t + w == vtime b'
}.

Lemma when_ok b t : bucket_ok b → b_last b <= t * giga →
  when_spec b (bucket_when b t).1 t (bucket_when b t).2.
Proof.
  intros Hok Hm. pose proof (advance_value b t Hok Hm) as Hadv. destruct Hok as (Hl & HB & Hk).
  pose proof giga_pos as Hg. unfold bucket_when. set (A := bucket_advance b (t * giga)) in *.
  assert (Hv : ∀ k, vtime (Bucket (b_limit b) (b_burst b) k (t * giga)) == t - k / b_limit b).
  { intros k. unfold vtime; simpl. field. lra. }
  assert (Hk0 : ∀ x, x / b_limit b * b_limit b == x) by (intros; by apply Qdiv_mult_l).
  assert (Hv' : t - (A - 1) / b_limit b == t - A / b_limit b + 1 / b_limit b) by (field; lra).
  assert (H01 : 0 / b_limit b == 0) by (field; lra).
  assert (Hvb : t - (b_tokens b + (t - b_last b / giga) * b_limit b) / b_limit b == vtime b) by (unfold vtime; field; lra).
  assert (A <= b_burst b) as HA by (destruct Hadv as [[? ?]|[? ?]]; lra).
  split; simpl.
  - split; [done|]. split; [done|]. simpl. lra.
  - done.
  - done.
  - done.
  - rewrite Hv, Hv'. destruct Hadv as [[H1 H2]|[H1 H2]].
    + rewrite H2, Hvb. lra.
    + apply (div_le _ _ _ Hl) in H1. rewrite H2. lra.
  - rewrite Hv, Hv'. apply (div_le _ _ _ Hl) in HA. lra.
  - rewrite Hv, Hv'. destruct Hadv as [[H1 H2]|[H1 H2]]; rewrite H2; [left|right]; lra.
  - pose proof (qlt_spec (A - 1) 0) as Hq. destruct (qlt (A - 1) 0); [|lra].
    rewrite <-H01. apply div_le; lra.
  - rewrite Hv. pose proof (qlt_spec (A - 1) 0) as Hq. destruct (qlt (A - 1) 0).
    + assert (- (A - 1) / b_limit b == - ((A - 1) / b_limit b)) as -> by (field; lra). lra.
    + apply (div_le _ _ _ Hl) in Hq. lra.
  - rewrite Hv. pose proof (qlt_spec (A - 1) 0) as Hq. destruct (qlt (A - 1) 0); [right|by left].
    assert (- (A - 1) / b_limit b == - ((A - 1) / b_limit b)) as -> by (field; lra). lra.
Qed.

#[local] Opaque bucket_when.
(** ** conformance *)
Definition qnat (n : nat) : Q := inject_Z (Z.of_nat n).
Lemma qnat_S n : qnat (S n) == 1 + qnat n.
Proof. unfold qnat. rewrite Nat2Z.inj_succ, <-Z.add_1_l, inject_Z_plus. done. Qed.
Lemma qnat_0 : qnat 0 == 0. Proof. done. Qed.
Lemma qnat_nonneg n : 0 <= qnat n.
Proof. unfold qnat, Qle; simpl. lia. Qed.

Lemma in_window_iff a z c : in_window a z c = true ↔ a <= release c ∧ release c <= z.
Proof. unfold in_window. rewrite andb_true_iff, !Qle_bool_iff. done. Qed.

Lemma mul_div1 l x : 0 < l → l * (x + 1 / l) == l * x + 1.
Proof. intros. field. lra. Qed.

Lemma count_from b ts a z l : bucket_ok b → b_limit b = l → nondecreasing (b_last b / giga) ts →
  countb (in_window a z) (bucket_run b ts) = 0%nat ∨
  qnat (countb (in_window a z) (bucket_run b ts)) <= l * (z - vtime b).
Proof.
  revert b. induction ts as [|t ts IH]; intros b Hok Hbl Hnd; [by left|].
  simpl in *. destruct Hnd as [Ht Hnd]. pose proof giga_pos as Hg.
  assert (b_last b <= t * giga) as Hlast.
  { apply (Qmult_le_compat_r _ _ giga) in Ht; [|lra]. rewrite Qdiv_mult_l in Ht by done. done. }
  pose proof (when_ok b t Hok Hlast) as [Hok' Hli Hbu Hla Hv1 Hv2 Hv3 Hw0 Hw1 Hw2].
  destruct (bucket_when b t) as [b' w]; simpl in *.
  rewrite countb_cons. assert (0 < l) as Hl by (subst; apply Hok).
  destruct (IH b') as [IH0|IH1]; [done|congruence| | |].
  { rewrite Hla. destruct ts; [done|]. simpl in *. split; [|apply Hnd].
    assert (t * giga / giga == t) as -> by (field; lra). apply Hnd. }
  - rewrite IH0. destruct (in_window a z (t, w)) eqn:Hin; [right|by left].
    apply in_window_iff in Hin as [_ Hz]. unfold release in Hz; simpl in Hz. rewrite Hbl in *.
    assert (vtime b + 1 / l <= z) as Hz' by lra.
    apply (Qmult_le_l _ _ l Hl) in Hz'. rewrite mul_div1 in Hz' by done.
    change (qnat (1 + 0)) with 1. lra.
  - right. rewrite Hbl in *.
    assert (l * (z - vtime b') <= l * (z - vtime b) - 1) as Hstep.
    { apply (Qmult_le_l _ _ l Hl) in Hv1. rewrite mul_div1 in Hv1 by done. lra. }
    destruct (in_window a z (t, w)); simpl; [rewrite qnat_S|]; lra.
Qed.

Lemma bucket_conformance b ts a z : bucket_ok b → nondecreasing (b_last b / giga) ts → a <= z →
  qnat (countb (in_window a z) (bucket_run b ts)) <= b_burst b + b_limit b * (z - a).
Proof.
  intros Hok Hnd Haz. revert b Hok Hnd. induction ts as [|t ts IH]; intros b Hok Hnd.
  { simpl. destruct Hok as (? & ? & ?). assert (0 <= b_limit b * (z - a)) by (apply Qmult_le_0_compat; lra).
    change (qnat (countb _ [])) with 0. lra. }
  simpl in *. destruct Hnd as [Ht Hnd]. pose proof giga_pos as Hg.
  assert (b_last b <= t * giga) as Hlast.
  { apply (Qmult_le_compat_r _ _ giga) in Ht; [|lra]. rewrite Qdiv_mult_l in Ht by done. done. }
  pose proof (when_ok b t Hok Hlast) as [Hok' Hli Hbu Hla Hv1 Hv2 Hv3 Hw0 Hw1 Hw2].
  destruct (bucket_when b t) as [b' w]; simpl in *.
  rewrite countb_cons. destruct Hok as (Hl & HB & Hk).
  assert (nondecreasing (b_last b' / giga) ts) as Hnd'.
  { rewrite Hla. destruct ts; [done|]. simpl in *. split; [|apply Hnd].
    assert (t * giga / giga == t) as -> by (field; lra). apply Hnd. }
  destruct (in_window a z (t, w)) eqn:Hin.
  2: { simpl. specialize (IH b' Hok' Hnd'). rewrite Hli, Hbu in IH. done. }
  apply in_window_iff in Hin as [Ha Hz]. unfold release in Ha, Hz; simpl in *.
  assert (a - b_burst b / b_limit b + 1 / b_limit b <= vtime b') as Hva.
  { destruct Hw2 as [Hw2|Hw2]; [lra|]. assert (1 / b_limit b <= b_burst b / b_limit b) by (by apply div_le). lra. }
  apply (Qmult_le_l _ _ (b_limit b) Hl) in Hva. rewrite mul_div1 in Hva by done.
  assert (b_limit b * (a - b_burst b / b_limit b) == b_limit b * a - b_burst b) as Hx by (field; lra).
  rewrite qnat_S.
  destruct (count_from b' ts a z (b_limit b)) as [->|Hc]; [done|done|done| |].
  - change (qnat 0) with 0. assert (0 <= b_limit b * (z - a)) by (apply Qmult_le_0_compat; lra). lra.
  - lra.
Qed.

(** ** the answer is the earliest lawful release time *)
Definition times_ok (l B : Q) (ts_newest : list Q) (v : Q) : Prop :=
  (∀ j t, ts_newest !! j = Some t → t - B / l + inject_Z (Z.of_nat j + 1) / l <= v) ∧
  qnat (length ts_newest) / l <= v.
Definition times_tight (l B : Q) (ts_newest : list Q) (v : Q) : Prop :=
  (∃ j t, ts_newest !! j = Some t ∧ t - B / l + inject_Z (Z.of_nat j + 1) / l == v) ∨
  qnat (length ts_newest) / l == v.

Lemma inject_succ j l : 0 < l →
  inject_Z (Z.of_nat (S j) + 1) / l == inject_Z (Z.of_nat j + 1) / l + 1 / l.
Proof.
  intros. rewrite Nat2Z.inj_succ. unfold Z.succ. rewrite inject_Z_plus. field. lra.
Qed.

Fixpoint bucket_after (b : bucket) (ts : list Q) : bucket :=
  match ts with [] => b | t :: ts => bucket_after (bucket_when b t).1 ts end.

Lemma bucket_after_app b ts1 ts2 : bucket_after b (ts1 ++ ts2) = bucket_after (bucket_after b ts1) ts2.
Proof. revert b. induction ts1; simpl; auto. Qed.
Lemma nondecreasing_app t0 ts1 ts2 : nondecreasing t0 (ts1 ++ ts2) →
  nondecreasing t0 ts1 ∧ nondecreasing (default t0 (last ts1)) ts2.
Proof.
  revert t0. induction ts1 as [|t ts1 IH]; intros t0; simpl; [done|].
  intros [H1 H2%IH]. destruct H2 as [H2 H3]. repeat split; try done.
  destruct ts1 as [|t1 ts1]; [done|]. rewrite last_cons_cons. simpl in H3 |- *.
  destruct (last (t1 :: ts1)) eqn:E; [done|]. apply last_None in E. done.
Qed.

Lemma vtime_history l B ts : 0 < l → 1 <= B → nondecreasing 0 ts →
  let b := bucket_after (Bucket l B 0 0) ts in
  bucket_ok b ∧ b_limit b = l ∧ b_burst b = B ∧
  (b_last b = default 0 (last ts) * giga) ∧
  times_ok l B (reverse ts) (vtime b) ∧ times_tight l B (reverse ts) (vtime b).
Proof.
  intros Hl HB. induction ts as [|t ts IH] using rev_ind; intros Hnd b.
  { subst b. simpl. split; [repeat split; simpl; lra|]. do 3 (split; [done|]). split; [split|].
    - intros j t Hj. by destruct j.
    - assert (qnat 0 / l == 0) as -> by (change (qnat 0) with 0; field; lra). unfold vtime; simpl.
      assert (0 / giga - 0 / l == 0) as -> by (field; split; [lra|by vm_compute]). lra.
    - right. unfold vtime; simpl. change (qnat 0) with 0. field. pose proof giga_pos. lra. }
  apply nondecreasing_app in Hnd as [Hnd1 Hnd2]. destruct (IH Hnd1) as (Hok & Hbl & Hbb & Hbla & Hto & Htt).
  clear IH. subst b. rewrite bucket_after_app. simpl. set (b0 := bucket_after (Bucket l B 0 0) ts) in *.
  assert (b_last b0 <= t * giga) as Hlast.
  { rewrite Hbla. simpl in Hnd2. destruct Hnd2 as [Hnd2 _]. pose proof giga_pos. apply Qmult_le_compat_r; [done|lra]. }
  pose proof (when_ok b0 t Hok Hlast) as [Hok' Hli Hbu Hla Hv1 Hv2 Hv3 Hw0 Hw1 Hw2].
  destruct (bucket_when b0 t) as [b' w]; simpl in *. rewrite Hbl, Hbb in *.
  split; [done|]. split; [done|]. split; [done|]. split; [by rewrite last_snoc|].
  rewrite reverse_app, reverse_singleton. destruct Hto as [Ht1 Ht2].
  assert (Hone : inject_Z (Z.of_nat 0 + 1) / l == 1 / l) by done.
  assert (Hlen : qnat (length ([t] ++ reverse ts)) / l == qnat (length (reverse ts)) / l + 1 / l).
  { simpl. rewrite qnat_S. field. lra. }
  split; [split|].
  - intros [|j] t'; simpl.
    + intros; simplify_eq. change (inject_Z 1) with 1. lra.
    + intros Hj%Ht1. rewrite (inject_succ j l Hl). lra.
  - rewrite Hlen. lra.
  - destruct Hv3 as [Hv3|Hv3].
    + destruct Htt as [(j & t' & Hj & Hjt)|Htt].
      * left. exists (S j), t'. split; [done|]. rewrite (inject_succ j l Hl). lra.
      * right. rewrite Hlen. lra.
    + left. exists 0%nat, t. split; [done|]. rewrite Hone. lra.
Qed.

Lemma lawful_iff l B ts r : 0 < l → lawful l B ts r ↔ times_ok l B ts r.
Proof.
  intros Hl. unfold lawful, times_ok.
  assert (Hdm : ∀ x, l * (x / l) == x) by (intros; field; lra).
  assert (∀ n t, n <= B + l * (r - t) ↔ t - B / l + n / l <= r) as H1.
  { intros n t. rewrite <-(Qmult_le_l (t - B / l + n / l) r l Hl).
    assert (l * (t - B / l + n / l) == l * t - B + n) as -> by (field; lra). split; intros; lra. }
  assert (∀ n, n <= l * r ↔ n / l <= r) as H2.
  { intros n. rewrite <-(Qmult_le_l (n / l) r l Hl), Hdm. done. }
  split; intros [Ha Hb]; (split; [intros j t Hj; apply H1; by apply (Ha j)|by apply H2]).
Qed.

Lemma bucket_earliest l B ts t : 0 < l → 1 <= B → nondecreasing 0 (ts ++ [t]) →
  let w := (bucket_when (bucket_after (Bucket l B 0 0) ts) t).2 in
  0 <= w ∧ lawful l B (t :: reverse ts) (t + w) ∧
  ∀ r, t <= r → lawful l B (t :: reverse ts) r → t + w <= r.
Proof.
  intros Hl HB Hnd w.
  destruct (vtime_history l B (ts ++ [t]) Hl HB Hnd) as (_ & _ & _ & _ & Hto & Htt).
  apply nondecreasing_app in Hnd as [Hnd1 Hnd2]. destruct (vtime_history l B ts Hl HB Hnd1) as (Hok & Hbl & Hbb & Hbla & _ & _).
  rewrite bucket_after_app in Hto, Htt. rewrite reverse_app, reverse_singleton in Hto, Htt.
  simpl in Hto, Htt. subst w. set (b0 := bucket_after (Bucket l B 0 0) ts) in *.
  assert (b_last b0 <= t * giga) as Hlast.
  { rewrite Hbla. simpl in Hnd2. destruct Hnd2 as [Hnd2 _]. pose proof giga_pos. apply Qmult_le_compat_r; [done|lra]. }
  pose proof (when_ok b0 t Hok Hlast) as [Hok' Hli Hbu Hla Hv1 Hv2 Hv3 Hw0 Hw1 Hw2].
  destruct (bucket_when b0 t) as [b' w]; simpl in *.
  split; [done|]. split.
  - apply lawful_iff; [done|]. destruct Hto as [H1 H2]. split.
    + intros j t' Hj. specialize (H1 j t' Hj). lra.
    + lra.
  - intros r Hr Hlaw. apply lawful_iff in Hlaw as [H1 H2]; [|done].
    destruct Hw2 as [Hw2|Hw2]; [lra|]. rewrite Hw2.
    destruct Htt as [(j & t' & Hj & Hjt)|Htt].
    + specialize (H1 j t' Hj). lra.
    + simpl in *. lra.
Qed.

(** ** after idling for burst/limit past the last release, [floor burst] calls are immediate *)
Lemma immediate_from b ts m : bucket_ok b → nondecreasing (b_last b / giga) ts →
  (length ts ≤ m)%nat →
  (∀ t ts', ts = t :: ts' → vtime b + qnat m / b_limit b <= t ∧ qnat m <= b_burst b) →
  Forall (λ c : Q * Q, c.2 == 0) (bucket_run b ts).
Proof.
  revert b m. induction ts as [|t ts IH]; intros b m Hok Hnd Hlen Hroom; [constructor|].
  simpl in *. destruct Hnd as [Ht Hnd]. pose proof giga_pos as Hg.
  assert (b_last b <= t * giga) as Hlast.
  { apply (Qmult_le_compat_r _ _ giga) in Ht; [|lra]. rewrite Qdiv_mult_l in Ht by done. done. }
  pose proof (when_ok b t Hok Hlast) as [Hok' Hli Hbu Hla Hv1 Hv2 Hv3 Hw0 Hw1 Hw2].
  destruct (bucket_when b t) as [b' w]; simpl in *. destruct Hok as (Hl & HB & Hk).
  destruct (Hroom t ts eq_refl) as [Hr1 Hr2]. destruct m as [|m]; [lia|].
  rewrite qnat_S in Hr1, Hr2.
  assert ((1 + qnat m) / b_limit b == 1 / b_limit b + qnat m / b_limit b) as Hsplit by (field; lra).
  assert (0 <= qnat m / b_limit b) as Hm0.
  { pose proof (div_le 0 (qnat m) (b_limit b) Hl (qnat_nonneg m)) as Hm0.
    assert (0 / b_limit b == 0) by (field; lra). lra. }
  pose proof (div_le _ _ _ Hl Hr2) as HB'.
  assert (vtime b' + qnat m / b_limit b <= t) as Hv' by (destruct Hv3 as [Hv3|Hv3]; lra).
  constructor.
  - simpl. destruct Hw2; lra.
  - apply (IH b' m).
    + done.
    + rewrite Hla. destruct ts; [done|]. simpl in *. split; [|apply Hnd].
      assert (t * giga / giga == t) as -> by (field; lra). apply Hnd.
    + lia.
    + intros t2 ts2 ->. simpl in Hnd. rewrite Hli, Hbu. split; [lra|]. lra.
Qed.

Lemma bucket_run_app b ts1 ts2 : bucket_run b (ts1 ++ ts2) = bucket_run b ts1 ++ bucket_run (bucket_after b ts1) ts2.
Proof. revert b. induction ts1 as [|t ts1 IH]; intros b; simpl; [done|]. by rewrite IH. Qed.

Lemma idle_then_immediate l B ts t ts2 : 0 < l → 1 <= B → nondecreasing 0 (ts ++ [t] ++ ts2) →
  let c := (t, (bucket_when (bucket_after (Bucket l B 0 0) ts) t).2) in
  (∀ t' ts', ts2 = t' :: ts' → release c + B / l <= t') →
  qnat (length ts2) <= B →
  ∃ cs, bucket_run (Bucket l B 0 0) (ts ++ [t] ++ ts2) = bucket_run (Bucket l B 0 0) ts ++ [c] ++ cs ∧
    length cs = length ts2 ∧ Forall (λ c : Q * Q, c.2 == 0) cs.
Proof.
  intros Hl HB Hnd c Hidle Hlen. rewrite bucket_run_app. simpl.
  eexists. split; [done|]. split.
  { clear. generalize (bucket_when (bucket_after (Bucket l B 0 0) ts) t).1. induction ts2; intros; simpl; [done|]. by rewrite IHts2. }
  rewrite app_assoc in Hnd. apply nondecreasing_app in Hnd as [Hnd1 Hnd2].
  destruct (vtime_history l B (ts ++ [t]) Hl HB Hnd1) as (Hok & Hbl & Hbb & Hbla & _ & _).
  rewrite bucket_after_app in *. simpl in *. rewrite last_snoc in *. simpl in *.
  apply nondecreasing_app in Hnd1 as [Hnd0 Hnd1]. simpl in Hnd1.
  destruct (vtime_history l B ts Hl HB Hnd0) as (Hok0 & Hbl0 & Hbb0 & Hbla0 & _ & _).
  assert (b_last (bucket_after (Bucket l B 0 0) ts) <= t * giga) as Hlast.
  { rewrite Hbla0. pose proof giga_pos. apply Qmult_le_compat_r; [apply Hnd1|lra]. }
  pose proof (when_ok _ t Hok0 Hlast) as [_ _ _ _ _ _ _ _ Hw1 _].
  subst c. unfold release in Hidle. simpl in Hidle.
  destruct (bucket_when (bucket_after (Bucket l B 0 0) ts) t) as [b' w]. simpl in *.
  apply (immediate_from b' ts2 (length ts2)); [done| |done|].
  - rewrite Hbla. destruct ts2; [done|]. simpl in *. split; [|apply Hnd2].
    pose proof giga_pos. assert (t * giga / giga == t) as -> by (field; lra). apply Hnd2.
  - intros t' ts' ->. rewrite Hbl, Hbb. split; [|done].
    specialize (Hidle _ _ eq_refl). pose proof (div_le _ _ _ Hl Hlen). lra.
Qed.

(** ** combined limiter *)
Section maxof.
  Context {A : Type} `{EqDecision A} {L : Type} (step : L → lop A → L * lres).

  (** [d] is a greatest element of [ds] *)
  Lemma num_lt_irr a : num_lt a a = false.
  Proof. destruct a; try done. simpl. pose proof (qlt_spec q q). destruct (qlt q q); [lra|done]. Qed.
  Lemma num_lt_asym a b : num_lt a b = true → num_lt b a = false.
  Proof.
    destruct a as [|p|], b as [|q|]; try done. simpl. pose proof (qlt_spec p q). pose proof (qlt_spec q p).
    destruct (qlt p q), (qlt q p); try done. lra.
  Qed.
  Lemma num_le_lt a b c : num_lt b a = false → num_lt c b = false → num_lt c a = false.
  Proof.
    destruct a as [|p|], b as [|q|], c as [|r|]; try done. simpl.
    pose proof (qlt_spec q p). pose proof (qlt_spec r q). pose proof (qlt_spec r p).
    destruct (qlt q p), (qlt r q), (qlt r p); try done. lra.
  Qed.
  Lemma foldl_max d ds : (foldl num_max d ds) ∈ d :: ds ∧ ∀ d', d' ∈ d :: ds → num_lt (foldl num_max d ds) d' = false.
  Proof.
    revert d. induction ds as [|e ds IH]; intros d; simpl.
    - split; [left|]. intros d' ->%elem_of_list_singleton. apply num_lt_irr.
    - destruct (IH (num_max d e)) as [IH1 IH2].
      assert (num_max d e = d ∧ num_lt d e = false ∨ num_max d e = e ∧ num_lt e d = false) as Hm.
      { unfold num_max. destruct (num_lt d e) eqn:E; [right|by left]. split; [done|]. by apply num_lt_asym. }
      split.
      + apply elem_of_cons in IH1 as [->|IH1]; [|set_solver]. destruct Hm as [[-> _]|[-> _]]; set_solver.
      + intros d' [->|[->|Hd']%elem_of_cons]%elem_of_cons.
        * eapply num_le_lt; [|apply IH2; left]. destruct Hm as [[-> ?]|[-> ?]]; [apply num_lt_irr|done].
        * eapply num_le_lt; [|apply IH2; left]. destruct Hm as [[-> ?]|[-> ?]]; [done|apply num_lt_irr].
        * apply IH2. by right.
  Qed.

  Lemma call_when_delays ms o ms' ds : call_when step ms o = (ms', inl ds) →
    ms' = (λ m, (step m o).1) <$> ms ∧ (λ m, (step m o).2) <$> ms = LDelay <$> ds.
  Proof.
    revert ms' ds. induction ms as [|m ms IH]; intros ms' ds; simpl; [by intros; simplify_eq|].
    destruct (step m o) as [m1 r] eqn:Hs. destruct r; try (intros; simplify_eq; fail).
    destruct (call_when step ms o) as [ms1 [ds1|e]]; intros; simplify_eq.
    destruct (IH _ _ eq_refl) as [-> IH2]. csimpl. rewrite ?Hs; simpl. by rewrite IH2.
  Qed.
  Lemma call_when_raises ms o ms' e : call_when step ms o = (ms', inr e) →
    ∃ pre m post, ms = pre ++ m :: post ∧ (step m o).2 = e ∧ (∀ d, e ≠ LDelay d) ∧
      (∀ m', m' ∈ pre → ∃ d, (step m' o).2 = LDelay d) ∧
      ms' = ((λ m, (step m o).1) <$> pre) ++ (step m o).1 :: post.
  Proof.
    revert ms'. induction ms as [|m ms IH]; intros ms'; simpl; [done|].
    destruct (step m o) as [m1 r] eqn:Hs.
    assert ((∃ d, r = LDelay d) ∨ ∀ d, r ≠ LDelay d) as [[d ->]|Hr] by (destruct r; eauto).
    - destruct (call_when step ms o) as [ms1 [ds1|e1]]; intros; simplify_eq.
      destruct (IH _ eq_refl) as (pre & m2 & post & -> & H1 & H2 & H3 & ->).
      exists (m :: pre), m2, post. csimpl. rewrite ?Hs. split_and!; try done.
      intros m' [->|?]%elem_of_cons; [rewrite Hs; by eexists|by apply H3].
    - intros Heq. assert (Heq' : (m1 :: ms, inr r) = (ms', inr e : list number + lres)).
      { destruct r; try done. by destruct (Hr d). }
      simplify_eq. exists [], m, ms. rewrite Hs. simpl. split_and!; try done. by intros m' ?%elem_of_nil.
  Qed.

  Lemma maxof_when_is_max ms x t ms' d : maxof_step step ms (When x t) = (ms', LDelay d) →
    (∃ ds, (λ m, (step m (When x t)).2) <$> ms = LDelay <$> ds ∧
       d ∈ ds ∧ ∀ d', d' ∈ ds → num_lt d d' = false) ∧
    ms' = (λ m, (step m (When x t)).1) <$> ms.
  Proof.
    unfold maxof_step. destruct (call_when step ms (When x t)) as [ms1 [ds|e]] eqn:Hc; intros; simplify_eq.
    - destruct (call_when_delays _ _ _ _ Hc) as [-> Hd]. split; [|done]. exists ds. split; [done|].
      unfold max_num in *. destruct ds as [|d0 ds]; simplify_eq. apply foldl_max.
    - destruct (call_when_raises _ _ _ _ Hc) as (_ & _ & _ & _ & _ & Hr & _). by destruct (Hr d).
  Qed.

  Definition maxof_fine (h : list (lop A * lres)) : Prop :=
    ∀ x t r, (When x t, r) ∈ h → ∃ d, r = LDelay d.

  Lemma maxof_members ms h ms' : (∀ m x, (step m (NumRequeues x)).1 = m) →
    exec (maxof_step step) ms h ms' → maxof_fine h →
    Forall2 (λ m m', ∃ hm, exec step m hm m' ∧ hm.*1 = h.*1) ms ms'.
  Proof.
    intros Hpure Hex. induction Hex as [ms|ms o r ms1 h ms2 Hs Hex IH]; intros Hfine.
    { apply Forall_Forall2_diag, Forall_forall. intros m _. exists []. split; [constructor|done]. }
    assert (maxof_fine h) as Hf by (intros x t r0 Hin; apply (Hfine x t); by right).
    specialize (IH Hf).
    assert (ms1 = (λ m, (step m o).1) <$> ms) as ->.
    { destruct o as [x t|x|x].
      - destruct (Hfine x t r ltac:(left)) as [d ->]. by apply maxof_when_is_max in Hs as [_ ->].
      - simpl in Hs. by simplify_eq.
      - simpl in Hs. simplify_eq. rewrite <-(list_fmap_id ms1) at 1. clear -Hpure.
        induction ms1 as [|m ms IH]; [done|]. csimpl. rewrite Hpure. f_equal. by apply IH. }
    rewrite Forall2_fmap_l in IH. eapply Forall2_impl; [exact IH|]. simpl.
    intros m m' (hm & Hm & Heq). destruct (step m o) as [m1 r1] eqn:Hst.
    exists ((o, r1) :: hm). split; [by econstructor|]. csimpl. by rewrite Heq.
  Qed.

  Lemma maxof_count ms x : ms ≠ [] → (∀ m, m ∈ ms → ∃ n, (step m (NumRequeues x)).2 = LCount n) →
    ∃ n, (maxof_step step ms (NumRequeues x)).2 = LCount n ∧
      (∃ m, m ∈ ms ∧ (step m (NumRequeues x)).2 = LCount n) ∧
      ∀ m n', m ∈ ms → (step m (NumRequeues x)).2 = LCount n' → (n' ≤ n)%nat.
  Proof.
    intros Hne Hall. simpl. destruct ms as [|m0 ms]; [done|]. simpl. clear Hne.
    eexists. split; [done|]. change (call_count step (m0 :: ms) (NumRequeues x))
      with ((λ m, match (step m (NumRequeues x)).2 with LCount n => n | _ => 0%nat end) <$> (m0 :: ms)) in *.
    destruct (Hall m0 ltac:(left)) as [n0 Hn0]. rewrite Hn0.
    assert (Hgen : ∀ ms n0, (∀ m, m ∈ ms → ∃ n, (step m (NumRequeues x)).2 = LCount n) →
      let r := foldl Nat.max n0 (call_count step ms (NumRequeues x)) in
      (n0 ≤ r)%nat ∧ (r = n0 ∨ ∃ m, m ∈ ms ∧ (step m (NumRequeues x)).2 = LCount r) ∧
      ∀ m n', m ∈ ms → (step m (NumRequeues x)).2 = LCount n' → (n' ≤ r)%nat).
    { clear. induction ms as [|m ms IH]; intros n0 Hall r.
      - subst r. simpl. split; [lia|]. split; [by left|]. by intros m n' ?%elem_of_nil.
      - destruct (Hall m ltac:(left)) as [n Hn]. subst r. simpl. rewrite Hn.
        destruct (IH (n0 `max` n)%nat) as (H1 & H2 & H3); [intros; apply Hall; by right|].
        split; [lia|]. split.
        + destruct H2 as [H2|(m' & ? & ?)]; [|right; exists m'; split; [by right|done]].
          destruct (Nat.max_spec n0 n) as [[? E]|[? E]]; rewrite E in *.
          * right. exists m. split; [left|]. unfold call_count in *. by rewrite H2.
          * by left.
        + intros m' n' [->|?]%elem_of_cons Hm'; [|by eapply H3].
          rewrite Hn in Hm'. simplify_eq. unfold call_count in *. lia. }
    destruct (Hgen ms n0) as (H1 & H2 & H3); [intros; apply Hall; by right|]. split.
    - destruct H2 as [H2|(m & ? & ?)]; [|exists m; split; [by right|done]].
      exists m0. split; [left|]. unfold call_count in *. by rewrite H2.
    - intros m n' [->|?]%elem_of_cons Hm; [|by eapply H3]. rewrite Hn0 in Hm. simplify_eq. done.
  Qed.
End maxof.

Section default.
  Context {A : Type} `{EqDecision A}.
  Lemma lim_pure (m : lim A) x : (lim_step m (NumRequeues x)).1 = m.
  Proof. by destruct m. Qed.

  Lemma exec_inl h (e : explim A) m' : exec lim_step (inl e) h m' → ∃ e', m' = inl e' ∧ exec explim_step e h e'.
  Proof.
    remember (inl e) as m eqn:Hm. intros Hex. revert e Hm.
    induction Hex as [|m o r m1 h m2 Hs Hex IH]; intros e ->; [exists e; split; [done|constructor]|].
    simpl in Hs. destruct (explim_step e o) as [e1 r1] eqn:He. simplify_eq.
    destruct (IH e1 eq_refl) as (e' & -> & ?). exists e'. split; [done|]. by econstructor.
  Qed.

  (** the default limiter raises once an item failed 1024 times in a row *)
  Lemma default_overflow h ms x t :
    exec (maxof_step lim_step) default_limiter h ms → maxof_fine (A:=A) h →
    (1024 ≤ failures x (reverse h.*1))%nat →
    (maxof_step lim_step ms (When x t)).2 = LOverflow.
  Proof.
    intros Hex Hfine Hn. pose proof (maxof_members lim_step _ _ _ lim_pure Hex Hfine) as Hm.
    unfold default_limiter in Hm. apply Forall2_cons_inv_l in Hm as (m1 & ms1 & (hm & Hm & Heq) & _ & ->).
    apply exec_inl in Hm as (e & -> & He).
    assert ((explim_step e (When x t)).2 = LOverflow) as Ho.
    { eapply exp_overflow_iff; [exact He|]. split; [by eexists|]. by rewrite Heq. }
    unfold maxof_step. cbn [call_when].
    assert (∃ e1, lim_step (inl e) (When x t) = (inl e1, LOverflow)) as [e1 ->].
    { unfold lim_step. destruct (explim_step e (When x t)) as [e1 r1]. simpl in Ho. subst r1. by exists e1. }
    done.
  Qed.
End default.

Lemma bucket_new_ok limit burst b : bucket_new limit burst = Some b →
  b_limit b = limit ∧ b_burst b = burst ∧ b_last b = 0 ∧ bucket_ok b.
Proof.
  unfold bucket_new. destruct (Qle_bool limit 0) eqn:E; [done|]. pose proof (qlt_spec burst 1) as Hq.
  destruct (qlt burst 1); [done|]. intros; simplify_eq; simpl. repeat split; simpl; try lra.
  apply Qnot_le_lt. intros H%Qle_bool_iff. congruence.
Qed.
Lemma bucket_tokens_le l B ts : 0 < l → 1 <= B → nondecreasing 0 ts →
  b_tokens (bucket_after (Bucket l B 0 0) ts) <= B.
Proof. intros Hl HB Hnd. destruct (vtime_history l B ts Hl HB Hnd) as ((_ & _ & Ht) & _ & Hb & _).
  by rewrite Hb in Ht. Qed.
Transparent bucket_when.
Lemma bucket_wait_exact b t : 0 < b_limit b →
  let available := bucket_advance b (t * giga) in
  let w := (bucket_when b t).2 in
  (1 <= available → w == 0) ∧ (available < 1 → 0 < w ∧ available + b_limit b * w == 1).
Proof.
  intros Hl A w. subst w. unfold bucket_when; simpl. fold A.
  pose proof (qlt_spec (A - 1) 0) as Hq. destruct (qlt (A - 1) 0); split; intros; try lra.
  split; [|field; lra]. apply Qlt_shift_div_l; lra.
Qed.

Definition fineb {A} (h : list (lop A * lres)) : bool :=
  forallb (λ c, match c with (When _ _, LDelay _) => true | (When _ _, _) => false | _ => true end) h.
Lemma fine_check {A} `{EqDecision A} (h : list (lop A * lres)) : fineb h = true → maxof_fine h.
Proof.
  intros Hf x t r Hin. unfold fineb in Hf. rewrite forallb_forall in Hf.
  apply elem_of_list_In in Hin. specialize (Hf _ Hin). simpl in Hf. destruct r; try done. by eexists.
Qed.
