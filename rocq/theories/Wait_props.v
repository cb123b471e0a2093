(** Properties of the waiting functions: C51-C53, C72, C73. *)
From Verif Require Import Base Wait_model Wait_spec Wait_proofs.
From Coq Require Import ZArith QArith.
Open Scope Q_scope.

(** C51: the value of each step, *)
Theorem C51_step_values b rs k r q : rs !! k = Some r → steps_of b rs !! k = Some q →
  ∃ v, step_value b k v ∧ q == if is_zero (bo_jitter b) then v else jitter v (bo_jitter b) r.
Proof. exact (step_values b rs k r q). Qed.
(** at most the cap from the second on, *)
Theorem C51_capped b k v : (1 <= k)%nat → (1 <= bo_steps b)%Z → ¬ bo_cap b == 0 → ¬ bo_factor b == 0 → step_value b k v → v <= bo_cap b.
Proof. exact (value_le_cap b k v). Qed.
(** constant once the cap was passed or the steps used up *)
Theorem C51_constant b k k' v v' : (k <= k')%nat → (bo_steps b <= Z.of_nat k)%Z ∨ passed b (Nat.min k (Z.to_nat (bo_steps b))) →
  step_value b k v → step_value b k' v' → v == v'.
Proof. exact (value_constant b k k' v v'). Qed.
Theorem C51_steps_not_negative b rs : (0 <= bo_steps b)%Z → (0 <= bo_steps (after b rs) <= bo_steps b)%Z.
Proof. exact (steps_nonneg b rs). Qed.

(** C52: calls, outcome and termination of exponential_backoff, *)
Theorem C52_outcome bs c b ins bs' ev out : bs !! c = Some b → (0 <= bo_steps b)%Z → exponential_backoff bs c ins = (bs', ev, out) →
  (Z.of_nat (calls_of ev) <= bo_steps b)%Z ∧ outcome_ok ins (calls_of ev) out ∧ (bo_steps b <= Z.of_nat (length ins) → out ≠ WRunning)%Z.
Proof. exact (backoff_outcome bs c b ins bs' ev out). Qed.
(** its sleeps, *)
Theorem C52_sleeps bs c b ins bs' ev out : bs !! c = Some b → (0 <= bo_steps b)%Z → exponential_backoff bs c ins = (bs', ev, out) →
  sleeps_of ev = take (length (sleeps_of ev)) (steps_of b ins.*2) ∧ (length (sleeps_of ev) <= calls_of ev)%nat ∧
  (out = WReturned ∨ out = WRaised → calls_of ev = S (length (sleeps_of ev))) ∧
  (bo_cap b == 0 ∨ bo_factor b == 0 → out = WWaitTimeoutError → (Z.of_nat (calls_of ev) = bo_steps b)%Z ∧ length (sleeps_of ev) = (calls_of ev - 1)%nat).
Proof. exact (backoff_sleeps bs c b ins bs' ev out). Qed.
(** and the Backoff objects, which it does not change *)
Theorem C52_backoff_unchanged bs c ins j b : bs !! j = Some b → (exponential_backoff bs c ins).1.1 !! j = Some b.
Proof. exact (backoff_unchanged bs c ins j b). Qed.
(** with a cap it may give up after one of five steps, and sleep before giving up *)
Theorem C52_useless_sleep_refuted : ∃ bs ins bs' ev, exponential_backoff bs 0 ins = (bs', ev, WWaitTimeoutError) ∧ bo_steps <$> head bs = Some 5%Z ∧ ev = [WCall; WSleep 1].
Proof. exact useless_sleep. Qed.
(** with a negative number of steps it does not end *)
Theorem C52_termination_refuted : ∃ b, (bo_steps b < 0)%Z ∧ ∀ ins, (∀ i, i ∈ ins → i.1 = CFalse) → (exponential_backoff [b] 0 ins).2 = WRunning.
Proof. exact negative_steps. Qed.

(** C53 *)
Theorem C53_jitter_bounds d f r : 0 <= d → 0 <= r → r < 1 →
  let f' := if Qle_bool f 0 then 1 else f in d <= jitter d f r ∧ jitter d f r <= d * (1 + f') ∧ (0 < d → jitter d f r < d * (1 + f')).
Proof. exact (jitter_bounds d f r). Qed.
(** for d = 0 the half-open interval is empty *)
Theorem C53_zero_refuted : ∃ f r, 0 < f ∧ 0 <= r ∧ r < 1 ∧ ¬ jitter 0 f r < 0 * (1 + f).
Proof. exact jitter_zero. Qed.

(** C72: when poll calls the condition, and its outcome *)
Theorem C72_poll interval timeout t0 calls out t' : 0 <= interval → poll interval timeout t0 calls out t' →
  poll_calls interval t0 calls ∧ (t' <= t0 + timeout ∨ calls = [] ∧ t' = t0) ∧
  match out with
  | WRunning => False
  | WReturned => poll_answers calls WReturned
  | WRaised => poll_answers calls WRaised
  | WWaitTimeoutError =>
      (timeout <= 0 ∧ calls = []) ∨ (t' == t0 + timeout ∧ ∀ c, c ∈ calls → pc_answer c = Some CFalse ∨ pc_answer c = None) ∨
      (∃ cs c, calls = cs ++ [c] ∧ pc_answer c = Some CTimeout ∧ ∀ c', c' ∈ cs → pc_answer c' = Some CFalse)
  end.
Proof. exact (poll_spec interval timeout t0 calls out t'). Qed.
Theorem C72_number_of_calls interval t0 calls : poll_calls interval t0 calls → ∀ c, last calls = Some c → t0 + interval * inject_Z (Z.of_nat (length calls)) <= pc_start c.
Proof. exact (poll_count interval t0 calls). Qed.
Theorem C72_poll_immediate interval timeout t0 calls out t' : 0 <= interval → poll_immediate interval timeout t0 calls out t' →
  ∃ c cs, calls = c :: cs ∧ pc_start c = t0 ∧ t0 <= pc_end c ∧
    ((cs = [] ∧ t' = pc_end c ∧ poll_answers calls out ∧ out ≠ WRunning) ∨ (pc_answer c = Some CFalse ∧ poll interval timeout (pc_end c) cs out t')).
Proof. exact (poll_immediate_spec interval timeout t0 calls out t'). Qed.
(** whatever the condition answers and however long it takes, poll has an outcome *)
Theorem C72_total interval timeout t0 (late dur : nat → Q) (ans : nat → answer) : 0 < interval → (∀ i, 0 <= late i) → (∀ i, 0 <= dur i) →
  ∃ calls out t', poll interval timeout t0 calls out t' ∧ ∀ k c, calls !! k = Some c → pc_answer c = Some (ans k) ∨ pc_answer c = None.
Proof. exact (poll_total interval timeout t0 late dur ans). Qed.
(** WaitTimeoutError does not imply that the time was used up *)
Theorem C72_early_timeout_refuted : ∃ calls t', poll 1 10 0 calls WWaitTimeoutError t' ∧ t' == 1 ∧ length calls = 1%nat.
Proof. exact poll_early_timeout. Qed.

(** C73: calls made by jitter_until are a period apart, *)
Theorem C73_spaced g t0 stop ls s : randoms_ok g ls → reach (utrans g) (USt t0 stop UInit) ls s → spaced (u_sliding g) (u_period g) (uevents ls).
Proof. exact (until_spaced g t0 stop ls s). Qed.
(** none begins after the stop event was set, and it then ends without waiting for the timer, *)
Theorem C73_stops g s ls s' : u_stop s = true → reach (utrans g) s ls s' →
  (∀ t, UBegins t ∉ uevents ls) ∧ ∀ timer rnd, u_pc s' = UWaiting timer → utrans g s' (UWake rnd, None) (USt (u_now s') true UEnded).
Proof. exact (until_stops g s ls s'). Qed.
(** and before that the next call can begin as soon as the timer fires *)
Theorem C73_goes_on g s timer rnd : u_pc s = UWaiting timer → timer <= u_now s → u_stop s = false → ∃ s', utrans g s (UWake rnd, Some (UBegins (u_now s))) s'.
Proof. exact (until_goes_on g s timer rnd). Qed.

(** cases *)
Example C51_case : steps_of bo_case [0; 0; 0; 0; 0; 0] = [1; 1 * 2; 1 * 2 * 2; 6; 6; 6] ∧ (∀ k q, steps_of bo_case [0; 0; 0; 0; 0; 0] !! k = Some q → (3 <= k)%nat → q == 6).
Proof. exact bo_case_values. Qed.
Example C52_case : calls_of expo_case.1.2 = 3%nat ∧ length (sleeps_of expo_case.1.2) = 2%nat ∧ expo_case.2 = WReturned ∧ bo_steps <$> expo_case.1.1 = [5; 3]%Z.
Proof. exact expo_case_runs. Qed.
Example C72_case : ∃ calls t', poll 1 10 0 calls WReturned t' ∧ length calls = 2%nat.
Proof. exact poll_case_runs. Qed.
Example C72_cancelled_case : ∃ calls, poll 1 3 0 calls WWaitTimeoutError (0 + 3) ∧ pc_answer <$> calls = [Some CFalse; None].
Proof. exact poll_cancelled_runs. Qed.
Example C73_case : ∃ ls s, reach (utrans until_cfg) (USt 0 false UInit) ls s ∧ randoms_ok until_cfg ls ∧ u_pc s = UEnded ∧
  uevents ls = [UBegins 0; UReturns (0 + 3); UBegins (0 + 3 + 10); UReturns (0 + 3 + 10)].
Proof. exact until_case_runs. Qed.

Print Assumptions C51_step_values.
Print Assumptions C51_capped.
Print Assumptions C51_constant.
Print Assumptions C51_steps_not_negative.
Print Assumptions C52_outcome.
Print Assumptions C52_sleeps.
Print Assumptions C52_backoff_unchanged.
Print Assumptions C52_useless_sleep_refuted.
Print Assumptions C52_termination_refuted.
Print Assumptions C53_jitter_bounds.
Print Assumptions C53_zero_refuted.
Print Assumptions C72_poll.
Print Assumptions C72_number_of_calls.
Print Assumptions C72_poll_immediate.
Print Assumptions C72_total.
Print Assumptions C72_early_timeout_refuted.
Print Assumptions C73_spaced.
Print Assumptions C73_stops.
Print Assumptions C73_goes_on.
