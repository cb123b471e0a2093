(** Specification of C97. *)
From Verif Require Import Base RateLimit_model RateLimit_spec Wait_model Rounded_model.
From Coq Require Import ZArith QArith Qabs.
Open Scope Q_scope.
(** [rnd] is a rounding with relative error [u]; rnd x == x says that x is one of its numbers *)
Record rounding (rnd : Q → Q) (u : Q) : Prop := Rounding {
  rnd_mono x y : x <= y → rnd x <= rnd y;
  rnd_idem x : rnd (rnd x) == rnd x;
  rnd_error x : Qabs (rnd x - x) <= u * Qabs x
}.
(** the calls of when at the given times, each with its answer *)
Fixpoint rbucket_run (rnd : Q → Q) (b : bucket) (ts : list Q) : list (Q * Q) :=
  match ts with
  | [] => []
  | t :: ts => (t, (rwhen rnd b t).2) :: rbucket_run rnd (rwhen rnd b t).1 ts
  end.
(** the first n steps of a backoff; the random numbers are given *)
Fixpoint rsteps (rnd : Q → Q) (b : backoff) (rs : list Q) : list Q :=
  match rs with [] => [] | r :: rs => (rstep rnd b r).2 :: rsteps rnd (rstep rnd b r).1 rs end.
Fixpoint qpow (x : Q) (n : nat) : Q := match n with O => 1 | S n => x * qpow x n end.
