(** [double] is a rounding with error 2^-53. *)
From Verif Require Import Base Rounded_model Rounded_spec.
From Coq Require Import ZArith QArith Qpower Qround Qabs Lqa Lia.
Open Scope Q_scope.

Lemma two_pos e : 0 < 2 ^ e. Proof. by apply Qpower_0_lt. Qed.
Lemma two_plus a b : 2 ^ (a + b) == 2 ^ a * 2 ^ b. Proof. by apply Qpower_plus. Qed.
Lemma two_S e : 2 ^ (e + 1) == 2 * 2 ^ e.
Proof. rewrite two_plus. change (2 ^ 1) with 2. ring. Qed.
Lemma inj_lt a b : (a < b)%Z → inject_Z a < inject_Z b. Proof. by rewrite <-Zlt_Qlt. Qed.
Lemma inj_le a b : (a <= b)%Z → inject_Z a <= inject_Z b. Proof. by rewrite <-Zle_Qle. Qed.
Lemma inj_S a : inject_Z (a + 1) == inject_Z a + 1. Proof. by rewrite inject_Z_plus. Qed.

Lemma nearest_err x : inject_Z (nearest x) - (1 # 2) <= x <= inject_Z (nearest x) + (1 # 2).
Proof.
  unfold nearest. pose proof (Qfloor_le x). pose proof (Qlt_floor x) as H2. rewrite inj_S in H2.
  destruct (Qcompare_spec (x - inject_Z (Qfloor x)) (1 # 2)); [destruct (Z.even _)| |]; rewrite ?inj_S; lra.
Qed.
Lemma nearest_proper x y : x == y → nearest x = nearest y.
Proof. intros E. unfold nearest. rewrite (Qfloor_comp _ _ E). by rewrite E. Qed.
Lemma nearest_mono x y : x <= y → (nearest x <= nearest y)%Z.
Proof.
  intros Hxy. destruct (Z.le_gt_cases (nearest x) (nearest y)) as [|Hlt]; [done|]. exfalso.
  assert (inject_Z (nearest y) + 1 <= inject_Z (nearest x)) as Hi. { rewrite <-inj_S. apply inj_le. lia. }
  pose proof (nearest_err x). pose proof (nearest_err y). assert (x == y) as E by lra. rewrite (nearest_proper _ _ E) in Hlt. lia.
Qed.
Lemma nearest_int z : nearest (inject_Z z) = z.
Proof. unfold nearest. rewrite Qfloor_Z. destruct (Qcompare_spec (inject_Z z - inject_Z z) (1 # 2)); [|done|]; exfalso; lra. Qed.

Lemma log_bounds p : 2 ^ Z.log2 (Zpos p) <= inject_Z (Zpos p) < 2 ^ (Z.log2 (Zpos p) + 1).
Proof.
  pose proof (Z.log2_spec (Zpos p) eq_refl) as [H1 H2]. pose proof (Z.log2_nonneg (Zpos p)).
  change 2 with (inject_Z 2). rewrite <-!Zpower_Qpower by lia. split; [by apply inj_le|by apply inj_lt].
Qed.
Lemma exponent_spec q : 0 < q → 2 ^ exponent q <= q < 2 ^ (exponent q + 1).
Proof.
  intros Hq. destruct q as [[|n|n] d]; [by inversion Hq| |by inversion Hq].
  pose proof (log_bounds n) as [Hn1 Hn2]. pose proof (log_bounds d) as [Hd1 Hd2].
  unfold exponent. simpl Qnum. simpl Qden. set (a := Z.log2 (Zpos n)) in *. set (b := Z.log2 (Zpos d)) in *. set (e := (a - b)%Z).
  assert (Zpos n # d == inject_Z (Zpos n) / inject_Z (Zpos d)) as Eq by (by rewrite Qmake_Qdiv).
  set (q := Zpos n # d) in *. assert (0 < inject_Z (Zpos d)) as Hd by done.
  assert (q * inject_Z (Zpos d) == inject_Z (Zpos n)) as Eq'. { rewrite Eq. field. lra. }
  assert (2 ^ a == 2 ^ e * 2 ^ b) as Ea. { rewrite <-two_plus. by replace (e + b)%Z with a by lia. }
  rewrite two_S in Hn2, Hd2. pose proof (two_pos e). pose proof (two_pos b).
  assert (q < 2 * 2 ^ e) as Hup. { apply (Qmult_lt_r _ _ (inject_Z (Zpos d))); [done|]. nra. }
  assert (2 ^ e < 2 * q) as Hlo. { apply (Qmult_lt_r _ _ (inject_Z (Zpos d))); [done|]. nra. }
  destruct (Qle_bool (2 ^ e) q) eqn:E.
  - apply Qle_bool_iff in E. rewrite two_S. lra.
  - assert (¬ 2 ^ e <= q) as Hn. { intros Hle. apply Qle_bool_iff in Hle. congruence. }
    apply Qnot_le_lt in Hn. replace (e - 1 + 1)%Z with e by lia. assert (2 ^ e == 2 * 2 ^ (e - 1)) as E2. { rewrite <-two_S. by replace (e - 1 + 1)%Z with e by lia. } lra.
Qed.
Lemma exponent_mono p q : 0 < p → p <= q → (exponent p <= exponent q)%Z.
Proof.
  intros Hp Hpq. assert (0 < q) as Hq by lra. destruct (exponent_spec p Hp) as [H1 _]. destruct (exponent_spec q Hq) as [_ H2].
  assert (exponent p < exponent q + 1)%Z; [|lia]. apply (Qpower_lt_compat_l_inv 2); [lra|done].
Qed.
Lemma ulp_52 e : 2 ^ e == 2 ^ 52 * 2 ^ (e - 52).
Proof. rewrite <-two_plus. by replace (52 + (e - 52))%Z with e by lia. Qed.
Lemma round_bounds q : 0 < q → 2 ^ exponent q <= round_pos q <= 2 ^ (exponent q + 1).
Proof.
  intros Hq. destruct (exponent_spec q Hq) as [H1 H2]. unfold round_pos. rewrite two_S in *. rewrite (ulp_52 (exponent q)) in *.
  set (ulp := 2 ^ (exponent q - 52)) in *. assert (0 < ulp) as Hu by apply two_pos. change (2 ^ 52) with (inject_Z 4503599627370496) in *.
  assert (inject_Z 4503599627370496 <= q / ulp) as L. { apply Qle_shift_div_l; lra. }
  assert (q / ulp <= inject_Z 9007199254740992) as U. { apply Qle_shift_div_r; [done|]. change (inject_Z 9007199254740992) with (2 * inject_Z 4503599627370496). lra. }
  apply nearest_mono in L, U. rewrite nearest_int in L, U. apply inj_le in L, U. change (inject_Z 9007199254740992) with (2 * inject_Z 4503599627370496) in U. nra.
Qed.
Lemma round_proper p q : 0 < p → p == q → round_pos p == round_pos q.
Proof.
  intros Hp E. assert (exponent p = exponent q) as Ee. { apply Z.le_antisymm; apply exponent_mono; lra. }
  unfold round_pos. rewrite Ee. assert (p / 2 ^ (exponent q - 52) == q / 2 ^ (exponent q - 52)) as Ed by (by rewrite E). by rewrite (nearest_proper _ _ Ed).
Qed.
Lemma round_mono p q : 0 < p → p <= q → round_pos p <= round_pos q.
Proof.
  intros Hp Hpq. assert (0 < q) as Hq by lra. pose proof (exponent_mono p q Hp Hpq) as He.
  destruct (Z.eq_dec (exponent p) (exponent q)) as [Ee|Hne].
  - unfold round_pos. rewrite Ee. pose proof (two_pos (exponent q - 52)) as Hu. apply Qmult_le_compat_r; [|lra]. apply inj_le, nearest_mono.
    apply Qmult_le_compat_r; [done|]. apply Qlt_le_weak, Qinv_lt_0_compat, Hu.
  - pose proof (round_bounds p Hp) as [_ H1]. pose proof (round_bounds q Hq) as [H2 _].
    assert (2 ^ (exponent p + 1) <= 2 ^ exponent q); [|lra]. apply Qpower_le_compat_l; [lia|lra].
Qed.
Lemma round_err q : 0 < q → Qabs (round_pos q - q) <= (1 # (2 ^ 53)) * q.
Proof.
  intros Hq. destruct (exponent_spec q Hq) as [H1 _]. unfold round_pos. set (ulp := 2 ^ (exponent q - 52)) in *. assert (0 < ulp) as Hu by apply two_pos.
  pose proof (nearest_err (q / ulp)) as [L U]. set (n := inject_Z (nearest (q / ulp))) in *.
  assert (q == q / ulp * ulp) as E. { field. lra. } set (x := q / ulp) in *.
  assert (2 ^ 52 * ulp <= q) as HX. { rewrite (ulp_52 (exponent q)) in H1. exact H1. } change (2 ^ 52) with (inject_Z 4503599627370496) in HX.
  assert (ulp * (1 # 2) <= (1 # 2 ^ 53) * q) as Hh. { change (1 # 2 ^ 53) with ((1 # 2) * (1 # 4503599627370496)). assert (ulp <= (1 # 4503599627370496) * q); [|lra]. change (inject_Z 4503599627370496) with (4503599627370496 # 1) in HX. lra. }
  assert ((n - (1 # 2)) * ulp <= x * ulp) by (apply Qmult_le_compat_r; lra). assert (x * ulp <= (n + (1 # 2)) * ulp) by (apply Qmult_le_compat_r; lra).
  apply Qabs_Qle_condition. split; lra.
Qed.
Lemma round_idem q : 0 < q → round_pos (round_pos q) == round_pos q.
Proof.
  intros Hq. pose proof (round_bounds q Hq) as [L U]. pose proof (two_pos (exponent q)).
  destruct (Qle_lt_or_eq _ _ U) as [Hlt|Heq].
  - assert (exponent (round_pos q) = exponent q) as Ee.
    { destruct (exponent_spec (round_pos q)) as [H1 H2]; [lra|]. apply Z.le_antisymm.
      - assert (exponent (round_pos q) < exponent q + 1)%Z; [|lia]. apply (Qpower_lt_compat_l_inv 2); lra.
      - assert (exponent q < exponent (round_pos q) + 1)%Z; [|lia]. apply (Qpower_lt_compat_l_inv 2); lra. }
    unfold round_pos at 1. rewrite Ee. pose proof (two_pos (exponent q - 52)) as Hu.
    assert (round_pos q / 2 ^ (exponent q - 52) == inject_Z (nearest (q / 2 ^ (exponent q - 52)))) as E. { unfold round_pos. field. lra. }
    rewrite (nearest_proper _ _ E), nearest_int. done.
  - assert (0 < round_pos q) as Hrq by lra. rewrite (round_proper _ _ Hrq Heq). rewrite Heq. set (p := 2 ^ (exponent q + 1)). assert (0 < p) as Hp by apply two_pos.
    assert (exponent p = exponent q + 1)%Z as Ee.
    { destruct (exponent_spec p Hp) as [H1 H2]. unfold p in H1 at 2, H2 at 1. apply Z.le_antisymm.
      - apply (Qpower_le_compat_l_inv 2); [done|lra].
      - assert (exponent q + 1 < exponent p + 1)%Z; [|lia]. apply (Qpower_lt_compat_l_inv 2); [done|lra]. }
    unfold round_pos. rewrite Ee. pose proof (two_pos (exponent q + 1 - 52)) as Hu.
    assert (p / 2 ^ (exponent q + 1 - 52) == inject_Z 4503599627370496) as E. { unfold p. rewrite (ulp_52 (exponent q + 1)) at 1. change (2 ^ 52) with (inject_Z 4503599627370496). field. lra. }
    rewrite (nearest_proper _ _ E), nearest_int. symmetry. exact (ulp_52 (exponent q + 1)).
Qed.

Lemma double_cases q : (q == 0 ∧ double q == 0) ∨ (0 < q ∧ double q == round_pos q) ∨ (q < 0 ∧ double q == - round_pos (- q)).
Proof. destruct q as [[|n|n] d]; [left|right; left|right; right]; done. Qed.
Lemma double_rounding : rounding double (1 # 2 ^ 53).
Proof.
  split.
  - intros x y Hxy. destruct (double_cases x) as [[Hx ->]|[[Hx ->]|[Hx ->]]], (double_cases y) as [[Hy ->]|[[Hy ->]|[Hy ->]]]; try (exfalso; lra); try lra.
    + pose proof (round_bounds y Hy). pose proof (two_pos (exponent y)). lra.
    + by apply round_mono.
    + pose proof (round_bounds (- x) ltac:(lra)). pose proof (two_pos (exponent (- x))). lra.
    + pose proof (round_bounds (- x) ltac:(lra)). pose proof (two_pos (exponent (- x))). pose proof (round_bounds y Hy). pose proof (two_pos (exponent y)). lra.
    + pose proof (round_mono (- y) (- x) ltac:(lra) ltac:(lra)). lra.
  - intros x. destruct (double_cases x) as [[Hx E]|[[Hx E]|[Hx E]]].
    + destruct (double_cases (double x)) as [[Hy ->]|[[Hy _]|[Hy _]]]; lra.
    + pose proof (round_bounds x Hx). pose proof (two_pos (exponent x)).
      destruct (double_cases (double x)) as [[Hy _]|[[Hy ->]|[Hy _]]]; try (exfalso; lra). rewrite (round_proper _ _ Hy E), E. by apply round_idem.
    + pose proof (round_bounds (- x) ltac:(lra)). pose proof (two_pos (exponent (- x))).
      destruct (double_cases (double x)) as [[Hy _]|[[Hy _]|[Hy ->]]]; try (exfalso; lra).
      assert (- double x == round_pos (- x)) as E2 by lra. assert (0 < - double x) as Hn by lra. rewrite (round_proper _ _ Hn E2), E, round_idem by lra. done.
  - intros x. destruct (double_cases x) as [[Hx E]|[[Hx E]|[Hx E]]].
    + rewrite E, Hx. done.
    + rewrite E, (Qabs_pos x) by lra. by apply round_err.
    + rewrite E, (Qabs_neg x) by lra. rewrite <-Qabs_opp. assert (- (- round_pos (- x) - x) == round_pos (- x) - - x) as -> by ring. apply round_err. lra.
Qed.
