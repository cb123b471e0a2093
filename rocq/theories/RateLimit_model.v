(** Model of aiok8s/workqueue/default_rate_limiters.py.

    Numbers are exact rationals.  For the exponential limiter this is exact:
    multiplying a double by a power of two does not round, it can only overflow
    to an infinity, which is modelled, and converting the int [2**exp] to a
    double raises OverflowError from exponent 1024 on, which is modelled too.
    For the token bucket it is a simplification: rounding of the double
    operations in lines 38-56 is left to Rounded_model.v. *)
From Verif Require Import Base.
From Coq Require Import ZArith QArith Lqa Lia.
Open Scope Q_scope.

(** Python comparison and [min]/[max] of two arguments *)
Definition qlt (a b : Q) : bool := negb (Qle_bool b a).
Definition py_min (a b : Q) : Q := if qlt b a then b else a.

(** a Python number, possibly infinite *)
Inductive number := NInf | Fin (q : Q) | PInf.
Definition num_lt (a b : number) : bool :=
  match a, b with
  | NInf, NInf => false | NInf, _ => true
  | Fin _, NInf => false | Fin p, Fin q => qlt p q | Fin _, PInf => true
  | PInf, _ => false
  end.
Definition num_min (a b : number) : number := if num_lt b a then b else a.
Definition num_max (a b : number) : number := if num_lt a b then b else a.

(** ** [BucketRateLimiter] (lines 26-57) *)
Record bucket := Bucket { b_limit : Q; b_burst : Q; b_tokens : Q; b_last : Q }.

Definition giga : Q := 1000000000.

(** lines 27-35; [None] = ValueError *)
Definition bucket_new (limit burst : Q) : option bucket :=
  if Qle_bool limit 0 then None
  else if qlt burst 1 then None
  else Some (Bucket limit burst 0 0).

(** lines 51-57 *)
Definition bucket_advance (b : bucket) (now : Q) : Q :=
  let last := py_min (b_last b) now in
  let max_elapsed := giga * (b_burst b - b_tokens b) / b_limit b in
  let elapsed := py_min (now - last) max_elapsed in
  let delta := elapsed * b_limit b / giga in
  py_min (b_tokens b + delta) (b_burst b).

(** lines 37-43; [seconds] is what [time.time()] answers *)
Definition bucket_when (b : bucket) (seconds : Q) : bucket * Q :=
  let now := seconds * giga in
  let tokens := bucket_advance b now - 1 in
  let wait_duration := if qlt tokens 0 then - tokens / b_limit b else 0 in
  (Bucket (b_limit b) (b_burst b) tokens now, wait_duration).

(** ** [ItemExponentialFailureRateLimiter] (lines 60-78) *)
Section explim.
  Context {A : Type} `{EqDecision A}.

  (** an int, or a finite double given by its value *)
  Inductive pynum := PyInt (z : Z) | PyFloat (q : Q).

  Record explim := ExpLim {
    e_base : pynum;
    e_max : number;
    e_failures : dict A nat      (* collections.Counter: missing keys count 0 *)
  }.

  Definition counter_get (x : A) (d : dict A nat) : nat := default 0%nat (dget x d).

  (** [n < 2**1024] fails as a double *)
  Definition double_limit : Q := inject_Z (2 ^ 1024).

  (** line 70: [self._base_delay * 2 ** exp]; [None] = OverflowError *)
  Definition scale (base : pynum) (exp : nat) : option number :=
    match base with
    | PyInt z => Some (Fin (inject_Z (z * 2 ^ Z.of_nat exp)))
    | PyFloat q =>
        if (1024 <=? exp)%nat then None   (* int too large to convert to float *)
        else
          let p := q * inject_Z (2 ^ Z.of_nat exp) in
          Some (if Qle_bool double_limit p then PInf
                else if Qle_bool p (- double_limit) then NInf else Fin p)
    end.

  (** lines 66-72; the counter is bumped before the product is computed *)
  Definition exp_when (l : explim) (x : A) : explim * option number :=
    let exp := counter_get x (e_failures l) in
    let l' := ExpLim (e_base l) (e_max l) (dset x (S exp) (e_failures l)) in
    (l', (λ backoff, num_min backoff (e_max l)) <$> scale (e_base l) exp).

  (** lines 74-75; [Counter.__delitem__] ignores a missing key *)
  Definition exp_forget (l : explim) (x : A) : explim :=
    ExpLim (e_base l) (e_max l) (ddel x (e_failures l)).

  (** lines 77-78 *)
  Definition exp_num_requeues (l : explim) (x : A) : nat := counter_get x (e_failures l).

  (** ** limiters as machines.  [When] carries the reading of the wall clock. *)
  Inductive lop := When (x : A) (seconds : Q) | Forget (x : A) | NumRequeues (x : A).
  Inductive lres := LDelay (d : number) | LNone | LCount (n : nat) | LOverflow | LValueError.

  Definition explim_step (l : explim) (o : lop) : explim * lres :=
    match o with
    | When x _ => let '(l', r) := exp_when l x in
                  (l', match r with Some d => LDelay d | None => LOverflow end)
    | Forget x => (exp_forget l x, LNone)
    | NumRequeues x => (l, LCount (exp_num_requeues l x))
    end.

  (** lines 37-49 *)
  Definition bucket_step (b : bucket) (o : lop) : bucket * lres :=
    match o with
    | When _ t => let '(b', w) := bucket_when b t in (b', LDelay (Fin w))
    | Forget _ => (b, LNone)
    | NumRequeues _ => (b, LCount 0)
    end.

  (** ** [_MaxOfRateLimiters] (lines 81-93), for members of any kind *)
  Section maxof.
    Context {L : Type} (step : L → lop → L * lres).

    (** lines 85-86: [map] is lazy and [max] consumes it, so members are called
        from left to right until one raises *)
    Fixpoint call_when (ms : list L) (o : lop) : list L * (list number + lres) :=
      match ms with
      | [] => ([], inl [])
      | m :: ms =>
          match step m o with
          | (m', LDelay d) =>
              let '(ms', r) := call_when ms o in
              (m' :: ms', match r with inl ds => inl (d :: ds) | inr e => inr e end)
          | (m', e) => (m' :: ms, inr e)
          end
      end.
    (** [max(iterable)]: the first of the largest; ValueError if empty *)
    Definition max_num (ds : list number) : lres :=
      match ds with [] => LValueError | d :: ds => LDelay (foldl num_max d ds) end.

    (** lines 88-90 *)
    Definition call_forget (ms : list L) (o : lop) : list L := (λ m, (step m o).1) <$> ms.
    (** lines 92-93 *)
    Definition call_count (ms : list L) (o : lop) : list nat :=
      (λ m, match (step m o).2 with LCount n => n | _ => 0%nat end) <$> ms.
    Definition max_count (ns : list nat) : lres :=
      match ns with [] => LValueError | n :: ns => LCount (foldl Nat.max n ns) end.

    Definition maxof_step (ms : list L) (o : lop) : list L * lres :=
      match o with
      | When _ _ => let '(ms', r) := call_when ms o in
                    (ms', match r with inl ds => max_num ds | inr e => e end)
      | Forget _ => (call_forget ms o, LNone)
      | NumRequeues _ => (ms, max_count (call_count ms o))
      end.
  End maxof.

  (** lines 20-23 *)
  Definition lim := (explim + bucket)%type.
  Definition lim_step (l : lim) (o : lop) : lim * lres :=
    match l with
    | inl e => let '(e', r) := explim_step e o in (inl e', r)
    | inr b => let '(b', r) := bucket_step b o in (inr b', r)
    end.
  (** 0.005 as a double *)
  Definition five_milli : Q := 5764607523034235 # (2 ^ 60).
  Definition default_limiter : list lim :=
    [inl (ExpLim (PyFloat five_milli) (Fin 1000) []); inr (Bucket 10 100 0 0)].
End explim.
Arguments explim : clear implicits.
Arguments lop : clear implicits.
Arguments lres : clear implicits.
Arguments lim : clear implicits.
