(** Specifications for the waiting functions. *)
From Verif Require Import Base Wait_model.
From Coq Require Import ZArith QArith Lqa Lia.
Open Scope Q_scope.

(** the values of successive steps *)
Fixpoint steps_of (b : backoff) (rnds : list Q) : list Q :=
  match rnds with [] => [] | r :: rs => (backoff_step b r).2 :: steps_of (backoff_step b r).1 rs end.
(** the backoff after some steps *)
Fixpoint after (b : backoff) (rnds : list Q) : backoff :=
  match rnds with [] => b | r :: rs => after (backoff_step b r).1 rs end.

Fixpoint qpow (q : Q) (k : nat) : Q := match k with O => 1 | S k => q * qpow q k end.
(** the [k]-th power of the factor times the duration *)
Definition grown (b : backoff) (k : nat) : Q := bo_duration b * qpow (bo_factor b) k.
(** the growth passed the cap within the first [k] steps *)
Definition passed (b : backoff) (k : nat) : Prop := ¬ bo_cap b == 0 ∧ ∃ j, (1 <= j <= k)%nat ∧ bo_cap b < grown b j.
(** [q] is the value of step [k] (the first is 0) without jitter *)
Definition step_value (b : backoff) (k : nat) (q : Q) : Prop :=
  let k := Nat.min k (Z.to_nat (bo_steps b)) in
  if is_zero (bo_factor b) then q == bo_duration b else (passed b k ∧ q == bo_cap b) ∨ (¬ passed b k ∧ q == grown b k).

(** how often the condition was called, and how often a sleep followed *)
Definition calls_of (ev : list wevent) : nat := countb (λ e, match e with WCall => true | _ => false end) ev.
Definition sleeps_of (ev : list wevent) : list Q := omap (λ e, match e with WSleep d => Some d | WCall => None end) ev.

(** what the answers were, given the number of calls and the outcome *)
Definition outcome_ok (ins : list (answer * Q)) (n : nat) (out : woutcome) : Prop :=
  match out with
  | WReturned => ∃ m, n = S m ∧ (take m ins).*1 = replicate m CFalse ∧ ins.*1 !! m = Some CTrue
  | WRaised => ∃ m, n = S m ∧ (take m ins).*1 = replicate m CFalse ∧ (ins.*1 !! m = Some CRaise ∨ ins.*1 !! m = Some CTimeout)
  | WWaitTimeoutError => (take n ins).*1 = replicate n CFalse
  | WRunning => ins.*1 = replicate n CFalse
  end.
(** the calls of a polling function started at [t]: each starts at least an interval after the end of the one before *)
Fixpoint poll_calls (interval t : Q) (calls : list pcall) : Prop :=
  match calls with [] => True | c :: calls => t + interval <= pc_start c ∧ pc_start c <= pc_end c ∧ poll_calls interval (pc_end c) calls end.
(** their answers, given the outcome of poll_infinite *)
Definition poll_answers (calls : list pcall) (out : woutcome) : Prop :=
  match out with
  | WRunning => ∀ c, c ∈ calls → pc_answer c = Some CFalse
  | WReturned => ∃ cs c, calls = cs ++ [c] ∧ pc_answer c = Some CTrue ∧ ∀ c', c' ∈ cs → pc_answer c' = Some CFalse
  | WRaised => ∃ cs c, calls = cs ++ [c] ∧ (pc_answer c = Some CRaise ∨ pc_answer c = Some CTimeout) ∧ ∀ c', c' ∈ cs → pc_answer c' = Some CFalse
  | WWaitTimeoutError => False
  end.

(** the times at which f is called and returns, in a run of [jitter_until] *)
Inductive uevent := UBegins (t : Q) | UReturns (t : Q).
Definition utrans (g : ucfg) (s : ust) (l : ulabel * option uevent) (s' : ust) : Prop :=
  ustep g s l.1 s' ∧
  l.2 = match l.1, u_pc s' with
        | (UStart _ | UWake _), UCalling _ _ => Some (UBegins (u_now s'))
        | UCallEnds true, _ => Some (UReturns (u_now s'))
        | _, _ => None
        end.
Definition uevents (ls : list (ulabel * option uevent)) : list uevent := omap snd ls.
(** calls alternate with returns, and each starts a period after the end ([sliding]) or start of the one before *)
Definition spaced (sliding : bool) (p : Q) (evs : list uevent) : Prop :=
  (∀ e, head evs = Some e → ∃ t, e = UBegins t) ∧
  (∀ e1 a b e2, evs = e1 ++ a :: b :: e2 →
     match a, b with UBegins t, UReturns t' => t <= t' | UReturns t', UBegins t => t' <= t ∧ (sliding = true → t' + p <= t) | _, _ => False end) ∧
  (∀ e1 t t1 t2 e2, evs = e1 ++ UBegins t :: UReturns t1 :: UBegins t2 :: e2 → t + p <= t2).
(** the numbers drawn are not negative, nor is the period *)
Definition randoms_ok (g : ucfg) (ls : list (ulabel * option uevent)) : Prop :=
  0 <= u_period g ∧ ∀ l, l ∈ ls → match l.1 with UStart r | UWake r => 0 <= r | _ => True end.
