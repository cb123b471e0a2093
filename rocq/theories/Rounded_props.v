(** Property of the float computations, in floats: C97. *)
From Verif Require Import Base RateLimit_model RateLimit_spec Wait_model Rounded_model Rounded_spec Rounded_double Rounded_proofs.
From Coq Require Import ZArith QArith Qabs.
Open Scope Q_scope.

(** [double] is a rounding with relative error 2^-53 *)
Theorem C97_double : rounding double (1 # 2 ^ 53).
Proof. exact double_rounding. Qed.

Section props.
  Context (rnd : Q → Q) (u : Q) (HR : rounding rnd u).
  (** C97: in a window from a to z the token bucket releases at most burst + limit * (z - a) calls, up to an error of 12u times
      the size of the burst and the backlog (delays up to W) per call, and that of the clock (readings up to S) *)
  Theorem C97_conformance L B W S ts a z : u <= 1 # 1024 → 0 < L → 1 <= B → rnd B == B → 0 <= W → 0 <= S → a <= z →
    nondecreasing 0 ts → (∀ t, t ∈ ts → t <= S) → (∀ c, c ∈ rbucket_run rnd (Bucket L B 0 0) ts → c.2 <= W) →
    inject_Z (Z.of_nat (countb (in_window a z) (rbucket_run rnd (Bucket L B 0 0) ts))) * (1 - 12 * u * (B + 2 * (L * W) + 1)) <=
      B + L * (z - a) + u * (B + 2 * (L * S) + 4 * (L * W)).
  Proof. exact (bucket_conforms rnd u HR L B W S ts a z). Qed.
  (** each call leaves the tokens it would leave in exact arithmetic, up to that error *)
  Theorem C97_tokens L B D t last now : u <= 1 # 1024 → 0 < L → 1 <= B → 0 <= D → rnd B == B → - D <= t → t <= B → last <= now →
    Qabs (rnd (radvance rnd (Bucket L B t last) now - 1) - (bucket_advance (Bucket L B t last) now - 1)) <= 12 * u * (B + D + 1).
  Proof. exact (λ Hu HL HB HD EB, token_near rnd u HR L B D HL HB HD EB Hu t last now). Qed.
  (** jitter lies between d and d * (1 + f), up to two roundings above *)
  Theorem C97_jitter_low d f r : 0 <= d → rnd d == d → 0 <= r → d <= rjitter rnd d f r.
  Proof. exact (jitter_low rnd u HR d f r). Qed.
  Theorem C97_jitter_high d f r : 0 <= d → 0 <= r → r < 1 → let g := if Qle_bool f 0 then 1 else f in rnd g == g →
    rjitter rnd d f r <= d * (1 + g) * ((1 + u) * (1 + u)).
  Proof. exact (jitter_high rnd u HR d f r). Qed.
  (** the k-th step of a backoff is d * f^k up to k roundings, and never above the cap *)
  Theorem C97_backoff b rs k x : u <= 1 → bo_jitter b == 0 → bo_cap b == 0 → 0 < bo_factor b → 0 <= bo_duration b → (Z.of_nat (length rs) <= bo_steps b)%Z →
    rsteps rnd b rs !! k = Some x → bo_duration b * qpow (bo_factor b * (1 - u)) k <= x ∧ x <= bo_duration b * qpow (bo_factor b * (1 + u)) k.
  Proof. exact (rsteps_near rnd u HR b rs k x). Qed.
  Theorem C97_backoff_capped b rs x : bo_jitter b == 0 → ¬ bo_cap b == 0 → bo_duration b <= bo_cap b → x ∈ rsteps rnd b rs → x <= bo_cap b.
  Proof. exact (rsteps_capped rnd b rs x). Qed.
  (** the resync period of an informer is at most a fifth of the configured one *)
  Theorem C97_resync p c r : u <= 1 # 1024 → 0 <= p → 0 <= c → c <= 91 # 100 → 0 <= r → r < 1 → 0 <= rresync rnd p c r ∧ rresync rnd p c r <= p * (1 # 5).
  Proof. exact (resync_high rnd u HR p c r). Qed.
End props.

(** REFUTED in doubles: that jitter never exceeds d * (1 + f) (jitter(1, 0.1)), *)
Theorem C97_jitter_refuted : double 1 == 1 ∧ double tenth == tenth ∧ double almost_1 == almost_1 ∧ 0 <= almost_1 ∧ almost_1 < 1 ∧ 1 * (1 + tenth) < rjitter double 1 tenth almost_1.
Proof. exact jitter_over. Qed.
(** REFUTED: exact conformance (two calls at once of a bucket of 3 per second: the second is released a little less than a third of a second later), *)
Theorem C97_exact_refuted : let cs := rbucket_run double (Bucket 3 1 0 0) [1; 1] in let a := 1 in let z := 1 + double (1 # 3) in
  cs = [(1, 0); (1, double (1 # 3))] ∧ ¬ inject_Z (Z.of_nat (countb (in_window a z) cs)) <= 1 + 3 * (z - a).
Proof. exact bucket_over. Qed.
(** REFUTED: that a bucket idle for long grants its whole burst at once (13 per second with burst 15: the fifteenth waits) *)
Theorem C97_idle_refuted : ∃ d, rbucket_run double (Bucket 13 15 0 0) (replicate 15 1000000) = replicate 14 (1000000, 0) ++ [(1000000, d)] ∧ 0 < d.
Proof. exact idle_late. Qed.
(** a case: the error for the default limiter (10 per second, burst 100) is less than 10^-8 tokens per call while no delay exceeds a day *)
Theorem C97_case : 12 * (1 # 2 ^ 53) * (100 + 2 * (10 * 86400) + 1) < 1 # 100000000 ∧ double 100 == 100.
Proof. by vm_compute. Qed.

Print Assumptions C97_double.
Print Assumptions C97_conformance.
Print Assumptions C97_tokens.
Print Assumptions C97_jitter_low.
Print Assumptions C97_jitter_high.
Print Assumptions C97_backoff.
Print Assumptions C97_backoff_capped.
Print Assumptions C97_resync.
Print Assumptions C97_jitter_refuted.
Print Assumptions C97_exact_refuted.
Print Assumptions C97_idle_refuted.
