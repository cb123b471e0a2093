(** Model of the functions that compute with floats, in floats: BucketRateLimiter.when and _advance
    (aiok8s/workqueue/default_rate_limiters.py:37-57), jitter and Backoff.step (aiok8s/util/wait.py:68-102) and
    _resync_period (aiok8s/controller/_informers_map.py:103-104).  As RateLimit_model.v, Wait_model.v and
    InformersMap_model.v, but the result of each operation is rounded by [rnd].

    - All numbers are floats.  (Ints among them are computed exactly by Python; for ints below 2^53 that is the same.)
    - [double] below is the rounding of IEEE 754 binary64, to nearest with ties to even, without its
      limits on exponents: overflow, subnormal numbers and nans are not modelled. *)
From Verif Require Import Base RateLimit_model Wait_model.
From Coq Require Import ZArith QArith Qpower Qround.
Open Scope Q_scope.

(** nearest integer, ties to even *)
Definition nearest (x : Q) : Z :=
  let f := Qfloor x in
  match Qcompare (x - inject_Z f) (1 # 2) with
  | Lt => f
  | Gt => (f + 1)%Z
  | Eq => if Z.even f then f else (f + 1)%Z
  end.
(** the e with 2^e <= q < 2^(e+1), for positive q *)
Definition exponent (q : Q) : Z :=
  let e := (Z.log2 (Qnum q) - Z.log2 (Zpos (Qden q)))%Z in
  if Qle_bool (2 ^ e) q then e else (e - 1)%Z.
Definition round_pos (q : Q) : Q := let ulp := 2 ^ (exponent q - 52) in inject_Z (nearest (q / ulp)) * ulp.
Definition double (q : Q) : Q :=
  match Qnum q with
  | Z0 => 0
  | Zpos _ => round_pos q
  | Zneg _ => - round_pos (- q)
  end.

Section rounded.
  Context (rnd : Q → Q).

  (** wait.py:68-72; [r] is what random.random() returned *)
  Definition rjitter (duration max_factor r : Q) : Q :=
    let max_factor := if Qle_bool max_factor 0 then 1 else max_factor in
    rnd (duration + rnd (rnd (r * max_factor) * duration)).

  (** wait.py:87-102 *)
  Definition rstep (b : backoff) (r : Q) : backoff * Q :=
    if (bo_steps b <? 1)%Z then
      (b, if negb (is_zero (bo_jitter b)) then rjitter (bo_duration b) (bo_jitter b) r else bo_duration b)
    else
      let steps := (bo_steps b - 1)%Z in
      let duration := bo_duration b in
      let '(next, steps) :=
        if negb (is_zero (bo_factor b)) then
          let next := rnd (bo_duration b * bo_factor b) in
          if negb (is_zero (bo_cap b)) && qlt (bo_cap b) next then (bo_cap b, 0%Z) else (next, steps)
        else (bo_duration b, steps) in
      (Backoff next (bo_factor b) (bo_jitter b) steps (bo_cap b),
       if negb (is_zero (bo_jitter b)) then rjitter duration (bo_jitter b) r else duration).

  (** _informers_map.py:104; [c] is the float written 0.9 *)
  Definition rresync (resync c r : Q) : Q := rnd (resync * rnd (rnd (r / 5) * c)).

  (** default_rate_limiters.py:51-57 *)
  Definition radvance (b : bucket) (now : Q) : Q :=
    let last := py_min (b_last b) now in
    let max_elapsed := rnd (rnd (giga * rnd (b_burst b - b_tokens b)) / b_limit b) in
    let elapsed := py_min (rnd (now - last)) max_elapsed in
    let delta := rnd (rnd (elapsed * b_limit b) / giga) in
    py_min (rnd (b_tokens b + delta)) (b_burst b).

  (** 37-43 *)
  Definition rwhen (b : bucket) (seconds : Q) : bucket * Q :=
    let now := rnd (seconds * giga) in
    let tokens := rnd (radvance b now - 1) in
    let wait_duration := if qlt tokens 0 then rnd (- tokens / b_limit b) else 0 in
    (Bucket (b_limit b) (b_burst b) tokens now, wait_duration).
End rounded.
