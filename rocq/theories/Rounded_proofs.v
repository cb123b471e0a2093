(** Lemmas for Rounded_props.v. *)
From Verif Require Import Base RateLimit_model RateLimit_spec Wait_model Rounded_model Rounded_spec Rounded_double.
From Coq Require Import ZArith QArith Qabs Lqa Lia.
Open Scope Q_scope.

Lemma qlt_true a b : qlt a b = true → a < b.
Proof. unfold qlt. intros H. apply Qnot_le_lt. intros Hle. apply Qle_bool_iff in Hle. by rewrite Hle in H. Qed.
Lemma qlt_false a b : qlt a b = false → b <= a.
Proof. unfold qlt. intros H. apply Qle_bool_iff. by destruct (Qle_bool b a). Qed.
Lemma py_min_spec a b : (py_min a b == a ∧ a <= b) ∨ (py_min a b == b ∧ b <= a).
Proof. unfold py_min. destruct (qlt b a) eqn:E; [apply qlt_true in E; right|apply qlt_false in E; left]; split; lra. Qed.

Section rounded.
  Context (rnd : Q → Q) (u : Q) (HR : rounding rnd u).

  Lemma u_nonneg : 0 <= u.
  Proof. pose proof (rnd_error _ _ HR 1) as H. pose proof (Qabs_nonneg (rnd 1 - 1)). change (Qabs 1) with 1 in H. lra. Qed.
  Lemma rnd_proper x y : x == y → rnd x == rnd y.
  Proof. intros E. pose proof (rnd_mono _ _ HR x y). pose proof (rnd_mono _ _ HR y x). lra. Qed.
  Lemma rnd_abs x k : - k <= x → x <= k → x - u * k <= rnd x ∧ rnd x <= x + u * k.
  Proof.
    intros H1 H2. pose proof (rnd_error _ _ HR x) as H. apply Qabs_Qle_condition in H as [L U]. assert (Qabs x <= k) by (by apply Qabs_Qle_condition).
    pose proof u_nonneg. assert (u * Qabs x <= u * k). { rewrite !(Qmult_comm u). by apply Qmult_le_compat_r. } lra.
  Qed.
  Lemma rnd_pos x : 0 <= x → 0 <= rnd x ∧ x - u * x <= rnd x ∧ rnd x <= x + u * x.
  Proof.
    intros Hx. assert (0 <= rnd x). { destruct (rnd_abs 0 0) as [H _]; [lra|lra|]. pose proof (rnd_mono _ _ HR 0 x Hx). lra. }
    destruct (rnd_abs x x); [lra|lra|]. done.
  Qed.

  (** ** jitter *)
  Lemma jitter_low d f r : 0 <= d → rnd d == d → 0 <= r → d <= rjitter rnd d f r.
  Proof.
    intros Hd Ed Hr. unfold rjitter. set (g := if Qle_bool f 0 then 1 else f). assert (0 <= g) as Hg.
    { unfold g. destruct (Qle_bool f 0) eqn:E; [lra|]. assert (¬ f <= 0) as Hn. { intros Hl. apply Qle_bool_iff in Hl. congruence. } apply Qnot_le_lt in Hn. lra. }
    destruct (rnd_pos (r * g)) as [H1 _]; [by apply Qmult_le_0_compat|]. destruct (rnd_pos (rnd (r * g) * d)) as [H2 _]; [by apply Qmult_le_0_compat|].
    rewrite <-Ed at 1. apply (rnd_mono _ _ HR). lra.
  Qed.
  Lemma jitter_high d f r : 0 <= d → 0 <= r → r < 1 → let g := if Qle_bool f 0 then 1 else f in rnd g == g →
    rjitter rnd d f r <= d * (1 + g) * ((1 + u) * (1 + u)).
  Proof.
    intros Hd Hr Hr1 g Eg. unfold rjitter. fold g. assert (0 <= g) as Hg.
    { unfold g. destruct (Qle_bool f 0) eqn:E; [lra|]. assert (¬ f <= 0) as Hn. { intros Hl. apply Qle_bool_iff in Hl. congruence. } apply Qnot_le_lt in Hn. lra. }
    pose proof u_nonneg as Hu.
    assert (rnd (r * g) <= g) as H1. { rewrite <-Eg at 2. apply (rnd_mono _ _ HR). nra. }
    destruct (rnd_pos (r * g)) as (H0 & _ & _); [by apply Qmult_le_0_compat|].
    destruct (rnd_pos (rnd (r * g) * d)) as (H2 & _ & H3); [by apply Qmult_le_0_compat|].
    assert (rnd (r * g) * d <= g * d) as H4 by (by apply Qmult_le_compat_r).
    set (x := rnd (rnd (r * g) * d)) in *. assert (x <= g * d * (1 + u)) as H5. { assert (u * (rnd (r * g) * d) <= u * (g * d)); [|lra]. rewrite !(Qmult_comm u). by apply Qmult_le_compat_r. }
    destruct (rnd_pos (d + x)) as (_ & _ & H6); [lra|].
    assert (d + x <= d * (1 + g) * (1 + u)) as H7. { assert (0 <= d * u) by (by apply Qmult_le_0_compat). lra. }
    assert (u * (d + x) <= u * (d * (1 + g) * (1 + u))). { rewrite !(Qmult_comm u). by apply Qmult_le_compat_r. } lra.
  Qed.

  (** ** resync period *)
  Lemma resync_high p c r : u <= 1 # 1024 → 0 <= p → 0 <= c → c <= 91 # 100 → 0 <= r → r < 1 → 0 <= rresync rnd p c r ∧ rresync rnd p c r <= p * (1 # 5).
  Proof.
    intros Hu Hp Hc Hc9 Hr Hr1. unfold rresync. pose proof u_nonneg as Hu0.
    assert (0 <= r / 5 <= 1 # 5) as [Ha Hb]. { unfold Qdiv. change (/ 5) with (1 # 5). split; lra. }
    destruct (rnd_pos (r / 5)) as (H1 & _ & H2); [done|]. set (a := rnd (r / 5)) in *.
    assert (a <= 201 # 1000) as Ha2 by nra.
    destruct (rnd_pos (a * c)) as (H3 & _ & H4); [nra|]. set (b := rnd (a * c)) in *.
    assert (a * c <= 184 # 1000) as Hac by nra.
    assert (b <= 185 # 1000) as Hb2 by nra.
    destruct (rnd_pos (p * b)) as (H5 & _ & H6); [nra|]. split; [done|].
    assert (p * b <= p * (185 # 1000)) by nra. nra.
  Qed.

  (** ** Backoff *)
  Lemma qpow_pos x n : 0 <= x → 0 <= qpow x n.
  Proof. intros Hx. induction n as [|n IH]; simpl; [lra|]. by apply Qmult_le_0_compat. Qed.
  Lemma qpow_S x n : qpow x (S n) == qpow x n * x.
  Proof. simpl. ring. Qed.
  Lemma qpow_mul n x y : qpow x n * qpow y n == qpow (x * y) n.
  Proof. induction n as [|n IH]; [done|]. simpl. rewrite <-IH. ring. Qed.
  Lemma rsteps_near b rs k x : u <= 1 → bo_jitter b == 0 → bo_cap b == 0 → 0 < bo_factor b → 0 <= bo_duration b → (Z.of_nat (length rs) <= bo_steps b)%Z →
    rsteps rnd b rs !! k = Some x → bo_duration b * qpow (bo_factor b * (1 - u)) k <= x ∧ x <= bo_duration b * qpow (bo_factor b * (1 + u)) k.
  Proof.
    intros Hu1. revert b k. induction rs as [|r rs IH]; intros b k Hj Hc Hf Hd Hs Hk; [done|]. simpl in Hs, Hk.
    assert (Es : (bo_steps b <? 1)%Z = false) by (apply Z.ltb_ge; lia).
    assert (Ej : is_zero (bo_jitter b) = true) by (by apply Qeq_bool_iff). assert (Ec : is_zero (bo_cap b) = true) by (by apply Qeq_bool_iff).
    assert (Ef : is_zero (bo_factor b) = false). { destruct (is_zero (bo_factor b)) eqn:E; [|done]. apply Qeq_bool_iff in E. lra. }
    unfold rstep in Hk. rewrite Es, Ej, Ec, Ef in Hk. simpl in Hk. destruct k as [|k]; simpl in Hk.
    - injection Hk as <-. simpl. lra.
    - pose proof u_nonneg as Hu. assert (Hm : 0 <= bo_duration b * bo_factor b) by (apply Qmult_le_0_compat; lra).
      destruct (rnd_pos _ Hm) as (H0 & H1 & H2).
      apply IH in Hk as [L U]; simpl in *; try done; [|lia]. pose proof (qpow_pos (bo_factor b * (1 - u)) k ltac:(apply Qmult_le_0_compat; lra)). pose proof (qpow_pos (bo_factor b * (1 + u)) k ltac:(apply Qmult_le_0_compat; lra)).
      split.
      + apply Qle_trans with (2 := L). assert (bo_duration b * (bo_factor b * (1 - u) * qpow (bo_factor b * (1 - u)) k) == (bo_duration b * bo_factor b - u * (bo_duration b * bo_factor b)) * qpow (bo_factor b * (1 - u)) k) as -> by ring. by apply Qmult_le_compat_r.
      + apply Qle_trans with (1 := U). assert (bo_duration b * (bo_factor b * (1 + u) * qpow (bo_factor b * (1 + u)) k) == (bo_duration b * bo_factor b + u * (bo_duration b * bo_factor b)) * qpow (bo_factor b * (1 + u)) k) as -> by ring. by apply Qmult_le_compat_r.
  Qed.
  Lemma rsteps_capped b rs x : bo_jitter b == 0 → ¬ bo_cap b == 0 → bo_duration b <= bo_cap b → x ∈ rsteps rnd b rs → x <= bo_cap b.
  Proof.
    revert b. induction rs as [|r rs IH]; intros b Hj Hc Hd Hx; [by apply elem_of_nil in Hx|]. simpl in Hx.
    assert (Ej : is_zero (bo_jitter b) = true) by (by apply Qeq_bool_iff).
    assert (Ec : is_zero (bo_cap b) = false). { destruct (is_zero (bo_cap b)) eqn:E; [|done]. by apply Qeq_bool_iff in E. }
    apply elem_of_cons in Hx as [->|Hx].
    - unfold rstep. rewrite Ej. simpl. destruct (bo_steps b <? 1)%Z; [done|]. destruct (is_zero (bo_factor b)); simpl; [done|]. by destruct (negb _ && _).
    - assert (Hcap : bo_cap (rstep rnd b r).1 = bo_cap b ∧ bo_jitter (rstep rnd b r).1 = bo_jitter b ∧ bo_duration (rstep rnd b r).1 <= bo_cap b).
      { unfold rstep. rewrite Ec. destruct (bo_steps b <? 1)%Z; [done|]. destruct (is_zero (bo_factor b)); simpl; [done|]. destruct (qlt (bo_cap b) (rnd (bo_duration b * bo_factor b))) eqn:E; simpl; [split_and!; try done; lra|]. apply qlt_false in E. done. }
      destruct Hcap as (E1 & E2 & E3). rewrite <-E1. apply (IH (rstep rnd b r).1); [by rewrite E2|by rewrite E1|by rewrite E1|done].
  Qed.

  (** ** Token bucket *)
  Section bucket.
    Context (L B D : Q) (HL : 0 < L) (HB : 1 <= B) (HD : 0 <= D) (EB : rnd B == B) (Hu : u <= 1 # 1024).
    Definition eps : Q := 12 * u * (B + D + 1).
    Lemma delta_bound Y el : 0 <= Y → 0 <= el →
      let a3 := rnd (rnd (giga * rnd Y) / L) in let dl := rnd (rnd (py_min (rnd el) a3 * L) / giga) in
      0 <= dl ∧ dl <= el * L / giga + 8 * u * Y ∧ dl <= 2 * Y.
    Proof.
      intros HY Hel a3 dl. pose proof u_nonneg as Hu0. assert (HG : 0 < giga) by done.
      destruct (rnd_pos Y HY) as (A1 & _ & A2). set (a1 := rnd Y) in *.
      destruct (rnd_pos (giga * a1)) as (A3 & _ & A4); [by apply Qmult_le_0_compat|]. set (a2 := rnd (giga * a1)) in *.
      assert (A5 : 0 <= a2 / L) by (apply Qle_shift_div_l; lra).
      destruct (rnd_pos (a2 / L) A5) as (A6 & _ & A7). fold a3 in A6, A7.
      destruct (rnd_pos el Hel) as (E1 & _ & E2). set (e0 := rnd el) in *.
      assert (Hv : ∀ e, 0 <= e → 0 <= rnd (rnd (e * L) / giga) ∧ rnd (rnd (e * L) / giga) <= e * L / giga * ((1 + u) * (1 + u))).
      { intros e He. assert (He' : 0 <= e * L) by (apply Qmult_le_0_compat; lra). destruct (rnd_pos _ He') as (P1 & _ & P2). set (p1 := rnd (e * L)) in *.
        assert (P3 : 0 <= p1 / giga) by (apply Qle_shift_div_l; [done|lra]). destruct (rnd_pos _ P3) as (Q1 & _ & Q2). split; [done|].
        assert (p1 / giga <= e * L / giga * (1 + u)) as P4. { apply Qle_shift_div_r; [done|]. assert (e * L / giga * (1 + u) * giga == e * L + u * (e * L)) as -> by (field; lra). done. }
        assert (u * (p1 / giga) <= u * (e * L / giga * (1 + u))). { rewrite !(Qmult_comm u). by apply Qmult_le_compat_r. } lra. }
      assert (Hc : 1 <= 1 + u) by lra.
      assert (C2 : (1 + u) * (1 + u) <= 1 + (3 # 1) * u) by nra.
      assert (C3 : (1 + u) * (1 + u) * (1 + u) <= 1 + 4 * u). { assert ((1 + u) * (1 + u) * (1 + u) <= (1 + (2 + (1 # 1024)) * u) * (1 + u)); [|nra]. apply Qmult_le_compat_r; [nra|lra]. }
      (* in terms of the elapsed time *)
      assert (X1 : e0 * L / giga * ((1 + u) * (1 + u)) <= el * L / giga * (1 + 4 * u)).
      { set (w := L / giga). assert (0 <= w) as Hw by (apply Qle_shift_div_l; [done|lra]). assert (e0 * L / giga == e0 * w) as -> by (unfold w; field; lra). assert (el * L / giga == el * w) as -> by (unfold w; field; lra).
        assert (e0 <= el * (1 + u)) by lra. assert (0 <= el * w) by (by apply Qmult_le_0_compat).
        assert (e0 * w * ((1 + u) * (1 + u)) <= el * (1 + u) * w * ((1 + u) * (1 + u))). { apply Qmult_le_compat_r; [|nra]. by apply Qmult_le_compat_r. }
        assert (el * (1 + u) * w * ((1 + u) * (1 + u)) == el * w * ((1 + u) * (1 + u) * (1 + u))) as EE by ring. rewrite EE in H1.
        assert (el * w * ((1 + u) * (1 + u) * (1 + u)) <= el * w * (1 + 4 * u)). { rewrite !(Qmult_comm (el * w)). by apply Qmult_le_compat_r. } lra. }
      (* in terms of the room in the bucket *)
      assert (X2 : a3 * L / giga * ((1 + u) * (1 + u)) <= 2 * Y).
      { assert (B1 : a3 * L <= a2 * (1 + u)). { assert (a3 * L <= (a2 / L + u * (a2 / L)) * L) as H by (apply Qmult_le_compat_r; lra). assert ((a2 / L + u * (a2 / L)) * L == a2 * (1 + u)) as EE by (field; lra). lra. }
        assert (B2 : a2 <= giga * (Y * ((1 + u) * (1 + u)))). { assert (giga * a1 <= giga * (Y * (1 + u))). { rewrite !(Qmult_comm giga). apply Qmult_le_compat_r; lra. } assert (u * (giga * a1) <= u * (giga * (Y * (1 + u)))) by (rewrite !(Qmult_comm u); by apply Qmult_le_compat_r). lra. }
        assert (B3 : a3 * L <= giga * (Y * (1 + 4 * u))).
        { assert (a2 * (1 + u) <= giga * (Y * ((1 + u) * (1 + u))) * (1 + u)) by (apply Qmult_le_compat_r; lra). assert (giga * (Y * ((1 + u) * (1 + u))) * (1 + u) == giga * (Y * ((1 + u) * (1 + u) * (1 + u)))) as EE by ring. rewrite EE in H.
          assert (Y * ((1 + u) * (1 + u) * (1 + u)) <= Y * (1 + 4 * u)) by (rewrite !(Qmult_comm Y); by apply Qmult_le_compat_r).
          assert (giga * (Y * ((1 + u) * (1 + u) * (1 + u))) <= giga * (Y * (1 + 4 * u))) by (rewrite !(Qmult_comm giga); by apply Qmult_le_compat_r). lra. }
        assert (B4 : a3 * L / giga <= Y * (1 + 4 * u)). { apply Qle_shift_div_r; [done|]. lra. }
        assert (B5 : a3 * L / giga * ((1 + u) * (1 + u)) <= Y * (1 + 4 * u) * ((1 + u) * (1 + u))) by (apply Qmult_le_compat_r; [done|nra]).
        assert (B6 : (1 + 4 * u) * ((1 + u) * (1 + u)) <= 2). { assert ((1 + 4 * u) * ((1 + u) * (1 + u)) <= (1 + 4 * u) * (1 + 3 * u)) by (rewrite !(Qmult_comm (1 + 4 * u)); apply Qmult_le_compat_r; lra). nra. }
        assert (Y * (1 + 4 * u) * ((1 + u) * (1 + u)) <= Y * 2); [|lra]. assert (Y * (1 + 4 * u) * ((1 + u) * (1 + u)) == (1 + 4 * u) * ((1 + u) * (1 + u)) * Y) as -> by ring. rewrite (Qmult_comm Y 2). by apply Qmult_le_compat_r. }
      set (X := el * L / giga) in *. assert (HX : 0 <= X). { apply Qle_shift_div_l; [done|]. assert (0 <= el * L) by (apply Qmult_le_0_compat; lra). lra. }
      assert (Hdl : 0 <= dl ∧ dl <= X * (1 + 4 * u) ∧ dl <= 2 * Y).
      { destruct (py_min_spec e0 a3) as [[Em Hm]|[Em Hm]].
        - assert (dl == rnd (rnd (e0 * L) / giga)) as ->. { unfold dl. apply rnd_proper. assert (rnd (py_min e0 a3 * L) == rnd (e0 * L)) as -> by (apply rnd_proper; by rewrite Em). done. }
          destruct (Hv e0 E1) as [V1 V2]. split_and!; [done|lra|]. apply Qle_trans with (1 := V2). apply Qle_trans with (2 := X2). apply Qmult_le_compat_r; [|nra].
          apply Qmult_le_compat_r; [|by apply Qlt_le_weak, Qinv_lt_0_compat]. apply Qmult_le_compat_r; lra.
        - assert (dl == rnd (rnd (a3 * L) / giga)) as ->. { unfold dl. apply rnd_proper. assert (rnd (py_min e0 a3 * L) == rnd (a3 * L)) as -> by (apply rnd_proper; by rewrite Em). done. }
          destruct (Hv a3 A6) as [V1 V2]. split_and!; [done| |lra]. apply Qle_trans with (1 := V2). apply Qle_trans with (2 := X1). apply Qmult_le_compat_r; [|nra].
          apply Qmult_le_compat_r; [|by apply Qlt_le_weak, Qinv_lt_0_compat]. apply Qmult_le_compat_r; lra. }
      destruct Hdl as (D1 & D2 & D3). split_and!; [done| |done].
      destruct (Qlt_le_dec (2 * Y) X) as [Hc1|Hc1]; [assert (0 <= u * Y) by (by apply Qmult_le_0_compat); lra|].
      assert (u * X <= u * (2 * Y)) by (rewrite !(Qmult_comm u); by apply Qmult_le_compat_r). lra.
    Qed.

    Lemma token_step t last now : - D <= t → t <= B → last <= now →
      let t' := rnd (radvance rnd (Bucket L B t last) now - 1) in
      t' <= t + (now - last) * L / giga - 1 + eps ∧ t' <= B - 1 + u * B ∧ t' <= B.
    Proof.
      intros Ht1 Ht2 Hn t'. unfold radvance in t'. simpl in t'. pose proof u_nonneg as Hu0.
      assert (El : rnd (now - py_min last now) == rnd (now - last)). { apply rnd_proper. destruct (py_min_spec last now) as [[-> _]|[-> ?]]; lra. }
      destruct (delta_bound (B - t) (now - last)) as (D1 & D2 & D3); [lra|lra|].
      set (a3 := rnd (rnd (giga * rnd (B - t)) / L)) in *. set (dl := rnd (rnd (py_min (rnd (now - last)) a3 * L) / giga)) in *.
      assert (Edl : rnd (rnd (py_min (rnd (now - py_min last now)) a3 * L) / giga) == dl).
      { unfold dl. apply rnd_proper. assert (rnd (py_min (rnd (now - py_min last now)) a3 * L) == rnd (py_min (rnd (now - last)) a3 * L)) as ->; [|done]. apply rnd_proper.
        assert (py_min (rnd (now - py_min last now)) a3 == py_min (rnd (now - last)) a3) as ->; [|done].
        destruct (py_min_spec (rnd (now - py_min last now)) a3) as [[-> ?]|[-> ?]], (py_min_spec (rnd (now - last)) a3) as [[-> ?]|[-> ?]]; lra. }
      set (dl' := rnd (rnd (py_min (rnd (now - py_min last now)) a3 * L) / giga)) in *.
      assert (Es : rnd (t + dl') == rnd (t + dl)) by (apply rnd_proper; lra).
      destruct (rnd_abs (t + dl) (2 * B + D)) as [S1 S2]; [lra|lra|]. set (s := rnd (t + dl)) in *. set (s' := rnd (t + dl')) in *.
      assert (Hsm : u * (2 * B + D) <= B + D). { assert (u * (2 * B + D) <= (1 # 1024) * (2 * B + D)) by (apply Qmult_le_compat_r; lra). lra. }
      set (m := py_min s' B) in *. assert (Hm : m <= s ∧ m <= B ∧ - (B + 2 * D) <= m). { unfold m. destruct (py_min_spec s' B) as [[-> ?]|[-> ?]]; split_and!; lra. }
      destruct Hm as (M1 & M2 & M3). destruct (rnd_abs (m - 1) (B + 2 * D + 1)) as [_ V2]; [lra|lra|]. fold t' in V2. unfold eps. split_and!.
      - assert (12 * u * (B + D + 1) == 12 * (u * B) + 12 * (u * D) + 12 * u) as -> by ring.
        assert (8 * u * (B - t) <= 8 * (u * B) + 8 * (u * D)). { assert (u * (B - t) <= u * (B + D)) by (rewrite !(Qmult_comm u); apply Qmult_le_compat_r; lra). lra. }
        assert (0 <= u * B) by (apply Qmult_le_0_compat; lra). assert (0 <= u * D) by (apply Qmult_le_0_compat; lra). lra.
      - destruct (rnd_pos (B - 1)) as (_ & _ & W); [lra|]. assert (t' <= rnd (B - 1)) by (apply (rnd_mono _ _ HR); lra). lra.
      - assert (t' <= rnd B) by (apply (rnd_mono _ _ HR); lra). lra.
    Qed.

    Lemma low_step k x y : 0 <= k → 0 <= x → x * (1 - k * u) <= y → 0 <= y → x * (1 - (k + 1) * u) <= rnd y.
    Proof.
      intros Hk Hx Hy Hy0. pose proof u_nonneg. destruct (rnd_pos y Hy0) as (_ & H1 & _).
      assert (x * (1 - k * u) * (1 - u) <= y * (1 - u)) by (apply Qmult_le_compat_r; lra).
      assert (0 <= x * (k * (u * u))). { apply Qmult_le_0_compat; [done|]. apply Qmult_le_0_compat; [done|]. by apply Qmult_le_0_compat. } lra.
    Qed.
    Lemma delta_low Y el : 0 <= Y → 0 <= el →
      let a3 := rnd (rnd (giga * rnd Y) / L) in let dl := rnd (rnd (py_min (rnd el) a3 * L) / giga) in
      el * L / giga * (1 - 5 * u) <= dl ∨ Y * (1 - 5 * u) <= dl.
    Proof.
      intros HY Hel a3 dl. pose proof u_nonneg as Hu0. assert (HG : 0 < giga) by done.
      destruct (rnd_pos Y HY) as (A1 & _ & _). destruct (rnd_pos (giga * rnd Y)) as (A3 & _ & _); [by apply Qmult_le_0_compat|].
      assert (A5 : 0 <= rnd (giga * rnd Y) / L) by (apply Qle_shift_div_l; lra). destruct (rnd_pos _ A5) as (A6 & _ & _). fold a3 in A6.
      destruct (rnd_pos el Hel) as (E1 & _ & _).
      assert (Hv : ∀ e x k, 0 <= k → 0 <= x → 0 <= e → x * (1 - k * u) <= e → x * L / giga * (1 - (k + 1 + 1) * u) <= rnd (rnd (e * L) / giga)).
      { intros e x k Hk Hx He Hxe. assert (0 <= e * L) by (apply Qmult_le_0_compat; lra). assert (0 <= x * L) by (apply Qmult_le_0_compat; lra). destruct (rnd_pos (e * L) H) as (P1 & _ & _). apply low_step.
        - lra.
        - apply Qle_shift_div_l; lra.
        - assert (x * L * (1 - (k + 1) * u) <= rnd (e * L)) as Hp. { apply low_step; try done. assert (x * (1 - k * u) * L <= e * L) by (apply Qmult_le_compat_r; lra). lra. }
          apply Qle_shift_div_l; [done|]. assert (x * L / giga * (1 - (k + 1) * u) * giga == x * L * (1 - (k + 1) * u)) as -> by (field; lra). done.
        - apply Qle_shift_div_l; lra. }
      destruct (py_min_spec (rnd el) a3) as [[Em Hm]|[Em Hm]].
      - left. assert (dl == rnd (rnd (rnd el * L) / giga)) as ->. { unfold dl. apply rnd_proper. assert (rnd (py_min (rnd el) a3 * L) == rnd (rnd el * L)) as -> by (apply rnd_proper; by rewrite Em). done. }
        pose proof (Hv (rnd el) el 1 ltac:(lra) Hel E1) as H. assert (Hx : 0 <= el * L / giga). { assert (0 <= el * L) by (apply Qmult_le_0_compat; lra). apply Qle_shift_div_l; lra. }
        assert (0 <= el * L / giga * u) by (by apply Qmult_le_0_compat). assert (el * (1 - 1 * u) <= rnd el) as Hl. { destruct (rnd_pos el Hel) as (_ & ? & _). lra. } specialize (H Hl). lra.
      - right. assert (dl == rnd (rnd (a3 * L) / giga)) as ->. { unfold dl. apply rnd_proper. assert (rnd (py_min (rnd el) a3 * L) == rnd (a3 * L)) as -> by (apply rnd_proper; by rewrite Em). done. }
        assert (Hg : 0 <= giga * Y) by (by apply Qmult_le_0_compat).
        assert (B1 : Y * (1 - (0 + 1) * u) <= rnd Y) by (apply low_step; lra).
        assert (B2 : giga * Y * (1 - (1 + 1) * u) <= rnd (giga * rnd Y)). { apply low_step; [lra|done| |by apply Qmult_le_0_compat]. assert (giga * (Y * (1 - (0 + 1) * u)) <= giga * rnd Y) by (rewrite !(Qmult_comm giga); by apply Qmult_le_compat_r). lra. }
        assert (Hgl : 0 <= giga * Y / L) by (apply Qle_shift_div_l; lra).
        assert (B3 : giga * Y / L * (1 - (2 + 1) * u) <= a3). { apply low_step; [lra|done| |done]. apply Qle_shift_div_l; [done|]. assert (giga * Y / L * (1 - 2 * u) * L == giga * Y * (1 - 2 * u)) as -> by (field; lra). lra. }
        pose proof (Hv a3 (giga * Y / L) 3 ltac:(lra) Hgl A6 ltac:(lra)) as H. assert (giga * Y / L * L / giga == Y) as EE by (field; lra). rewrite EE in H. lra.
    Qed.
    Lemma token_near t last now : - D <= t → t <= B → last <= now →
      Qabs (rnd (radvance rnd (Bucket L B t last) now - 1) - (bucket_advance (Bucket L B t last) now - 1)) <= eps.
    Proof.
      intros Ht1 Ht2 Hn. destruct (token_step t last now Ht1 Ht2 Hn) as (T1 & T2 & _). pose proof u_nonneg as Hu0. assert (HG : 0 < giga) by done.
      set (X := (now - last) * L / giga) in *. assert (HX : 0 <= X). { assert (0 <= (now - last) * L) by (apply Qmult_le_0_compat; lra). apply Qle_shift_div_l; lra. }
      assert (EA : (bucket_advance (Bucket L B t last) now == t + X ∧ t + X <= B) ∨ (bucket_advance (Bucket L B t last) now == B ∧ B <= t + X)).
      { unfold bucket_advance. simpl. set (me := giga * (B - t) / L). assert (Eme : me * L / giga == B - t) by (unfold me; field; lra).
        assert (El : now - py_min last now == now - last) by (destruct (py_min_spec last now) as [[-> _]|[-> ?]]; lra).
        set (e := py_min (now - py_min last now) me).
        assert (He : (e * L / giga == X ∧ X <= B - t) ∨ (e * L / giga == B - t ∧ B - t <= X)).
        { assert (Hinv : 0 <= / giga) by done. destruct (py_min_spec (now - py_min last now) me) as [[E1 E2]|[E1 E2]]; fold e in E1; [left|right].
          - split; [by rewrite E1, El|]. rewrite <-Eme. rewrite El in E2. apply Qmult_le_compat_r; [|done]. apply Qmult_le_compat_r; lra.
          - split; [by rewrite E1|]. rewrite <-Eme. rewrite El in E2. apply Qmult_le_compat_r; [|done]. apply Qmult_le_compat_r; lra. }
        destruct (py_min_spec (t + e * L / giga) B) as [[-> ?]|[-> ?]], He as [[Ee ?]|[Ee ?]]; rewrite ?Ee in *; [left|right|left|right]; split; lra. }
      set (ex := bucket_advance (Bucket L B t last) now) in *.
      assert (HuB : 0 <= u * B) by (apply Qmult_le_0_compat; lra). assert (HuD : 0 <= u * D) by (apply Qmult_le_0_compat; lra).
      assert (Ee : eps == 12 * (u * B) + 12 * (u * D) + 12 * u) by (unfold eps; ring).
      apply Qabs_Qle_condition. split; [|destruct EA as [[-> ?]|[-> ?]]; lra].
      (* from below *)
      unfold radvance. simpl.
      assert (El : rnd (now - py_min last now) == rnd (now - last)). { apply rnd_proper. destruct (py_min_spec last now) as [[-> _]|[-> ?]]; lra. }
      destruct (delta_bound (B - t) (now - last)) as (D1 & _ & D3); [lra|lra|]. destruct (delta_low (B - t) (now - last)) as [DL|DL]; [lra|lra| |];
      set (a3 := rnd (rnd (giga * rnd (B - t)) / L)) in *; set (dl := rnd (rnd (py_min (rnd (now - last)) a3 * L) / giga)) in *.
      all: assert (Edl : rnd (rnd (py_min (rnd (now - py_min last now)) a3 * L) / giga) == dl) by
        (unfold dl; apply rnd_proper; assert (rnd (py_min (rnd (now - py_min last now)) a3 * L) == rnd (py_min (rnd (now - last)) a3 * L)) as ->; [|done]; apply rnd_proper;
         assert (py_min (rnd (now - py_min last now)) a3 == py_min (rnd (now - last)) a3) as ->; [|done];
         destruct (py_min_spec (rnd (now - py_min last now)) a3) as [[-> ?]|[-> ?]], (py_min_spec (rnd (now - last)) a3) as [[-> ?]|[-> ?]]; lra).
      all: set (dl' := rnd (rnd (py_min (rnd (now - py_min last now)) a3 * L) / giga)) in *.
      all: assert (Es : rnd (t + dl') == rnd (t + dl)) by (apply rnd_proper; lra).
      all: destruct (rnd_abs (t + dl) (2 * B + D)) as [S1 S2]; [lra|lra|]; set (s := rnd (t + dl)) in *; set (s' := rnd (t + dl')) in *.
      all: assert (Hsm : u * (2 * B + D) <= B + D) by (assert (u * (2 * B + D) <= (1 # 1024) * (2 * B + D)) by (apply Qmult_le_compat_r; lra); lra).
      all: set (m := py_min s' B) in *; assert (Hm : (m == s ∨ m == B) ∧ m <= B ∧ - (B + 2 * D) <= m) by (unfold m; destruct (py_min_spec s' B) as [[-> ?]|[-> ?]]; (split; [first [left; lra|right; lra]|split; lra])).
      all: destruct Hm as (M1 & M2 & M3); destruct (rnd_abs (m - 1) (B + 2 * D + 1)) as [V1 _]; [lra|lra|].
      all: fold X in DL.
      - assert (HuX : X <= B - t → u * X <= u * (B + D)) by (intros; rewrite !(Qmult_comm u); apply Qmult_le_compat_r; lra).
        destruct EA as [[Ex ?]|[Ex ?]].
        + specialize (HuX ltac:(lra)). destruct M1 as [M1|M1]; lra.
        + assert ((B - t) * (1 - 5 * u) <= X * (1 - 5 * u)) by (apply Qmult_le_compat_r; lra). assert (u * (B - t) <= u * (B + D)) by (rewrite !(Qmult_comm u); apply Qmult_le_compat_r; lra). destruct M1 as [M1|M1]; lra.
      - assert (u * (B - t) <= u * (B + D)) by (rewrite !(Qmult_comm u); apply Qmult_le_compat_r; lra). destruct EA as [[Ex ?]|[Ex ?]], M1 as [M1|M1]; lra.
    Qed.

    Context (S : Q) (HS : 0 <= S).
    Definition level (b : bucket) : Q := b_last b * L / giga - b_tokens b.
    Definition slack : Q := u * (L * S + D).
    Lemma call_facts t last sec prev : - D <= t → t <= B → last == rnd (prev * giga) → 0 <= prev → prev <= sec → sec <= S →
      let b := Bucket L B t last in let b' := (rwhen rnd b sec).1 in let w := (rwhen rnd b sec).2 in
      w * L * 2 <= D →
      b_limit b' = L ∧ b_burst b' = B ∧ b_last b' = rnd (sec * giga) ∧ - D <= b_tokens b' ∧ b_tokens b' <= B ∧
      level b + 1 - eps <= level b' ∧ level b' <= L * (sec + w) + slack ∧ L * (sec + w) <= level b' + (B - 1) + u * B + slack.
    Proof.
      intros Ht1 Ht2 El Hp Hps HsS b b' w Hw. pose proof u_nonneg as Hu0. assert (HG : 0 < giga) by done.
      set (now := rnd (sec * giga)). assert (Hn : last <= now). { rewrite El. apply (rnd_mono _ _ HR). apply Qmult_le_compat_r; [done|lra]. }
      destruct (token_step t last now Ht1 Ht2 Hn) as (T1 & T2 & T3). subst w b' b. unfold rwhen in Hw |- *. simpl in Hw |- *. fold now in Hw |- *. set (t' := rnd (radvance rnd (Bucket L B t last) now - 1)) in *.
      destruct (rnd_pos (sec * giga)) as (N0 & N1 & N2); [apply Qmult_le_0_compat; lra|]. fold now in N0, N1, N2.
      assert (Hnow : sec - u * sec <= now / giga ∧ now / giga <= sec + u * sec). { split; [apply Qle_shift_div_l|apply Qle_shift_div_r]; try done; lra. }
      assert (HuS : u * sec <= u * S) by (rewrite !(Qmult_comm u); by apply Qmult_le_compat_r).
      assert (Enow : now * L / giga == L * (now / giga)) by (field; lra).
      assert (HLn : L * (now / giga) <= L * sec + u * (L * S)). { assert (L * (now / giga) <= L * (sec + u * S)) by (rewrite !(Qmult_comm L); apply Qmult_le_compat_r; lra). lra. }
      assert (HLn' : L * sec <= L * (now / giga) + u * (L * S)). { assert (L * sec <= L * (now / giga + u * S)) by (rewrite !(Qmult_comm L); apply Qmult_le_compat_r; lra). lra. }
      assert (HuD : 0 <= u * D) by (by apply Qmult_le_0_compat). assert (HuB : 0 <= u * B) by (apply Qmult_le_0_compat; lra). assert (HuLS : 0 <= u * (L * S)). { apply Qmult_le_0_compat; [done|]. apply Qmult_le_0_compat; lra. }
      assert (Hlow : - D <= t' ∧ (if qlt t' 0 then - t' - u * D <= L * rnd (- t' / L) ∧ L * rnd (- t' / L) <= - t' + u * D ∧ t' < 0 else 0 <= t')).
      { destruct (qlt t' 0) eqn:E; [apply qlt_true in E|apply qlt_false in E; lra].
        assert (Hd : 0 <= - t' / L) by (apply Qle_shift_div_l; lra). destruct (rnd_pos _ Hd) as (R0 & R1 & R2). set (d := rnd (- t' / L)) in *.
        assert (Edd : - t' / L * L == - t') by (field; lra). assert (R3 : (- t' / L - u * (- t' / L)) * L <= d * L) by (apply Qmult_le_compat_r; lra). assert (R4 : d * L <= (- t' / L + u * (- t' / L)) * L) by (apply Qmult_le_compat_r; lra).
        set (x := - t' / L) in *. assert (E3 : (x - u * x) * L == x * L - u * (x * L)) by ring. assert (E4 : (x + u * x) * L == x * L + u * (x * L)) by ring. rewrite Edd in E3, E4. rewrite E3 in R3. rewrite E4 in R4.
        assert (u * - t' <= (1 # 1024) * - t') by (apply Qmult_le_compat_r; lra). assert (HD' : - D <= t') by lra.
        assert (u * - t' <= u * D) by (rewrite !(Qmult_comm u); apply Qmult_le_compat_r; lra). rewrite (Qmult_comm L d). split_and!; lra. }
      unfold level, slack. simpl. rewrite Enow.
      assert (E5 : u * (L * S + D) == u * (L * S) + u * D) by ring. rewrite E5.
      assert (E6 : (now - last) * L / giga == L * (now / giga) - last * L / giga) by (field; lra). rewrite E6 in T1.
      destruct Hlow as [H0 Hlow]. split_and!; try done; [lra| |]; destruct (qlt t' 0); lra.
    Qed.

    Section window.
      Context (a z : Q) (Haz : a <= z) (Heps : eps <= 1).
      Definition tame (prev : Q) (b : bucket) : Prop :=
        b_limit b = L ∧ b_burst b = B ∧ b_last b == rnd (prev * giga) ∧ - D <= b_tokens b ∧ b_tokens b <= B.
      Notation cnt cs := (inject_Z (Z.of_nat (countb (in_window a z) cs))).
      Lemma cnt_cons c cs : cnt (c :: cs) == (if in_window a z c then 1 else 0) + cnt cs.
      Proof. rewrite countb_cons, Nat2Z.inj_add, inject_Z_plus. by destruct (in_window a z c). Qed.
      Lemma cnt_pos cs : 0 <= cnt cs.
      Proof. change 0 with (inject_Z 0). rewrite <-Zle_Qle. lia. Qed.
      Lemma tame_step prev b sec : tame prev b → 0 <= prev → prev <= sec → sec <= S → (rwhen rnd b sec).2 * L * 2 <= D →
        tame sec (rwhen rnd b sec).1 ∧ level b + 1 - eps <= level (rwhen rnd b sec).1 ∧
        level (rwhen rnd b sec).1 <= L * (sec + (rwhen rnd b sec).2) + slack ∧ L * (sec + (rwhen rnd b sec).2) <= level (rwhen rnd b sec).1 + (B - 1) + u * B + slack.
      Proof.
        destruct b as [l' B' t last]. intros (E1 & E2 & E3 & E4 & E5) Hp Hps HsS Hw. simpl in *. subst l' B'.
        destruct (call_facts t last sec prev E4 E5 E3 Hp Hps HsS Hw) as (F1 & F2 & F3 & F4 & F5 & F6 & F7 & F8). split_and!; try done. 
      Qed.
      Lemma later ts prev b : tame prev b → 0 <= prev → nondecreasing prev ts → (∀ t, t ∈ ts → t <= S) →
        (∀ c, c ∈ rbucket_run rnd b ts → c.2 * L * 2 <= D) → 1 <= cnt (rbucket_run rnd b ts) →
        level b + cnt (rbucket_run rnd b ts) * (1 - eps) <= L * z + slack.
      Proof.
        revert prev b. induction ts as [|sec ts IH]; intros prev b Hb Hp Hnd HsS Hw Hc; [exfalso; vm_compute in Hc; by apply Hc|].
        simpl in Hnd. destruct Hnd as [Hps Hnd]. cbn [rbucket_run] in Hc, Hw |- *.
        destruct (tame_step prev b sec Hb Hp Hps) as (T1 & T2 & T3 & _); [apply HsS; set_solver|apply (Hw (sec, _)); set_solver|].
        rewrite cnt_cons in Hc |- *. set (cs := rbucket_run rnd (rwhen rnd b sec).1 ts) in *. pose proof (cnt_pos cs) as Hpos.
        destruct (decide (countb (in_window a z) cs = 0%nat)) as [Hz|Hz].
        - rewrite Hz in Hc |- *. change (inject_Z (Z.of_nat 0)) with 0 in *. destruct (in_window a z (sec, (rwhen rnd b sec).2)) eqn:E; [|exfalso; lra].
          unfold in_window in E. apply andb_true_iff in E as [_ E]. apply Qle_bool_iff in E. change (sec + (rwhen rnd b sec).2 <= z) in E.
          assert (L * (sec + (rwhen rnd b sec).2) <= L * z) by (rewrite !(Qmult_comm L); apply Qmult_le_compat_r; lra). lra.
        - assert (H1 : 1 <= cnt cs). { change 1 with (inject_Z 1). rewrite <-Zle_Qle. lia. }
          assert (Hsec : 0 <= sec) by lra.
          specialize (IH sec (rwhen rnd b sec).1 T1 Hsec Hnd ltac:(set_solver) ltac:(set_solver) H1). fold cs in IH.
          destruct (in_window a z (sec, (rwhen rnd b sec).2)); lra.
      Qed.
      Lemma windowed ts prev b : tame prev b → 0 <= prev → nondecreasing prev ts → (∀ t, t ∈ ts → t <= S) →
        (∀ c, c ∈ rbucket_run rnd b ts → c.2 * L * 2 <= D) →
        cnt (rbucket_run rnd b ts) * (1 - eps) <= B + L * (z - a) + u * B + 2 * slack.
      Proof.
        assert (Hz : 0 <= L * (z - a)) by (apply Qmult_le_0_compat; lra). pose proof u_nonneg as Hu0.
        assert (HuB : 0 <= u * B) by (apply Qmult_le_0_compat; lra).
        assert (Hsl : 0 <= slack). { unfold slack. apply Qmult_le_0_compat; [done|]. assert (0 <= L * S) by (apply Qmult_le_0_compat; lra). lra. }
        assert (He0 : 0 <= eps). { unfold eps. apply Qmult_le_0_compat; lra. }
        revert prev b. induction ts as [|sec ts IH]; intros prev b Hb Hp Hnd HsS Hw; [simpl; change (inject_Z (Z.of_nat (countb (in_window a z) []))) with 0; lra|].
        simpl in Hnd. destruct Hnd as [Hps Hnd]. cbn [rbucket_run] in Hw |- *.
        destruct (tame_step prev b sec Hb Hp Hps) as (T1 & _ & _ & T4); [apply HsS; set_solver|apply (Hw (sec, _)); set_solver|].
        assert (Hsec : 0 <= sec) by lra.
        rewrite cnt_cons. set (cs := rbucket_run rnd (rwhen rnd b sec).1 ts) in *.
        destruct (in_window a z (sec, (rwhen rnd b sec).2)) eqn:E; [|specialize (IH sec (rwhen rnd b sec).1 T1 Hsec Hnd ltac:(set_solver) ltac:(set_solver)); fold cs in IH; lra].
        unfold in_window in E. apply andb_true_iff in E as [E _]. apply Qle_bool_iff in E. change (a <= sec + (rwhen rnd b sec).2) in E.
        assert (L * a <= L * (sec + (rwhen rnd b sec).2)) by (rewrite !(Qmult_comm L); apply Qmult_le_compat_r; lra).
        destruct (decide (countb (in_window a z) cs = 0%nat)) as [Hc|Hc]; [rewrite Hc; change (inject_Z (Z.of_nat 0)) with 0; lra|].
        assert (H1 : 1 <= cnt cs). { change 1 with (inject_Z 1). rewrite <-Zle_Qle. lia. }
        pose proof (later ts sec (rwhen rnd b sec).1 T1 Hsec Hnd ltac:(set_solver) ltac:(set_solver) H1) as Hl. fold cs in Hl. lra.
      Qed.
    End window.
  End bucket.

  Lemma bucket_conforms L B W S ts a z : u <= 1 # 1024 → 0 < L → 1 <= B → rnd B == B → 0 <= W → 0 <= S → a <= z →
    nondecreasing 0 ts → (∀ t, t ∈ ts → t <= S) → (∀ c, c ∈ rbucket_run rnd (Bucket L B 0 0) ts → c.2 <= W) →
    inject_Z (Z.of_nat (countb (in_window a z) (rbucket_run rnd (Bucket L B 0 0) ts))) * (1 - 12 * u * (B + 2 * (L * W) + 1)) <=
      B + L * (z - a) + u * (B + 2 * (L * S) + 4 * (L * W)).
  Proof.
    intros Hu HL HB EB HW HS Haz Hnd HsS Hw. set (D := 2 * (L * W)). assert (HLW : 0 <= L * W) by (apply Qmult_le_0_compat; lra). assert (HD : 0 <= D) by (unfold D; lra). pose proof u_nonneg as Hu0.
    assert (HLS : 0 <= L * S) by (apply Qmult_le_0_compat; lra). set (n := inject_Z _). assert (Hn : 0 <= n) by apply cnt_pos.
    assert (Hrhs : 0 <= u * (B + 2 * (L * S) + 4 * (L * W))) by (apply Qmult_le_0_compat; lra). assert (Hz : 0 <= L * (z - a)) by (apply Qmult_le_0_compat; lra).
    destruct (Qlt_le_dec 1 (eps B D)) as [He|He].
    - fold (eps B D). assert (0 <= n * (eps B D - 1)) by (apply Qmult_le_0_compat; lra). lra.
    - assert (Hbw := windowed L B D HL HB HD EB Hu S HS a z Haz He ts 0 (Bucket L B 0 0)).
      assert (E : u * B + 2 * slack L D S == u * (B + 2 * (L * S) + 4 * (L * W))) by (unfold slack, D; ring). fold (eps B D). fold n in Hbw. rewrite <-E. apply Qle_trans with (B + L * (z - a) + u * B + 2 * slack L D S); [apply Hbw|lra].
      + unfold tame. simpl. split_and!; try done; try lra. destruct (rnd_abs (0 * giga) 0); lra.
      + lra.
      + done.
      + done.
      + intros c Hc. specialize (Hw c Hc). unfold D. assert (c.2 * L <= W * L) by (apply Qmult_le_compat_r; lra). lra.
  Qed.
End rounded.

(** ** In doubles *)
Definition tenth : Q := 3602879701896397 # 36028797018963968.   (* the double written 0.1 *)
Definition almost_1 : Q := 9007199254740991 # 9007199254740992.  (* the largest value of random.random() *)
Lemma jitter_over : double 1 == 1 ∧ double tenth == tenth ∧ double almost_1 == almost_1 ∧ 0 <= almost_1 ∧ almost_1 < 1 ∧ 1 * (1 + tenth) < rjitter double 1 tenth almost_1.
Proof. split_and!; by vm_compute. Qed.
Lemma bucket_over : let cs := rbucket_run double (Bucket 3 1 0 0) [1; 1] in let a := 1 in let z := 1 + double (1 # 3) in
  cs = [(1, 0); (1, double (1 # 3))] ∧ ¬ inject_Z (Z.of_nat (countb (in_window a z) cs)) <= 1 + 3 * (z - a).
Proof. split; vm_compute; [|by auto]. done. Qed.

Lemma idle_late : ∃ d, rbucket_run double (Bucket 13 15 0 0) (replicate 15 1000000) = replicate 14 (1000000, 0) ++ [(1000000, d)] ∧ 0 < d.
Proof. eexists. split; [vm_compute; reflexivity|by vm_compute]. Qed.
