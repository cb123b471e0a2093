(** Properties C13-C17: aiok8s/workqueue/default_rate_limiters.py. *)
From Verif Require Import Base RateLimit_model RateLimit_spec RateLimit_proofs.
From Coq Require Import ZArith QArith Lqa Lia.
Open Scope Q_scope.

Section props.
  Context {A : Type} `{EqDecision A}.

  (** C13: the delay is base * 2^n capped at max, n counting the calls for this
      item only since its last forget *)
  Theorem C13_exponential_delay base mx (h : list (lop A * lres)) l x t :
    exec explim_step (ExpLim base (Fin mx) []) h l →
    0 <= pyval base → 0 <= mx → mx < double_limit →
    let n := failures x (reverse h.*1) in
    match base with PyInt _ => True | PyFloat _ => (n < 1024)%nat end →
    ∃ r, (explim_step l (When x t)).2 = LDelay (Fin r) ∧
      (pyval base * inject_Z (2 ^ Z.of_nat n) <= mx → r == pyval base * inject_Z (2 ^ Z.of_nat n)) ∧
      (mx <= pyval base * inject_Z (2 ^ Z.of_nat n) → r == mx).
  Proof. exact (exp_when_value base mx h l x t). Qed.
  Theorem C13_num_requeues base mx (h : list (lop A * lres)) l x :
    exec explim_step (ExpLim base mx []) h l →
    (explim_step l (NumRequeues x)).2 = LCount (failures x (reverse h.*1)).
  Proof. intros Hex. exact (proj2 (exp_answers base mx h l x 0 Hex)). Qed.

  (** C14: exactly when the limiter raises *)
  Theorem C14_overflow_exactly_when base mx (h : list (lop A * lres)) l x t :
    exec explim_step (ExpLim base mx []) h l →
    (explim_step l (When x t)).2 = LOverflow ↔
      (∃ q, base = PyFloat q) ∧ (1024 ≤ failures x (reverse h.*1))%nat.
  Proof. exact (exp_overflow_iff base mx h l x t). Qed.
  (** and the default controller limiter with it *)
  Theorem C14_default_limiter_raises (h : list (lop A * lres)) ms x t :
    exec (maxof_step lim_step) default_limiter h ms → maxof_fine h →
    (1024 ≤ failures x (reverse h.*1))%nat →
    (maxof_step lim_step ms (When x t)).2 = LOverflow.
  Proof. exact (default_overflow h ms x t). Qed.

  (** C17: one call ... *)
  Theorem C17_delay_is_worst {L} (step : L → lop A → L * lres) ms x t ms' d :
    maxof_step step ms (When x t) = (ms', LDelay d) →
    (∃ ds, (λ m, (step m (When x t)).2) <$> ms = LDelay <$> ds ∧
       d ∈ ds ∧ ∀ d', d' ∈ ds → num_lt d d' = false) ∧
    ms' = (λ m, (step m (When x t)).1) <$> ms.
  Proof. exact (maxof_when_is_max step ms x t ms' d). Qed.
  (** ... every history: each member went through the same calls *)
  Theorem C17_members_fed {L} (step : L → lop A → L * lres) ms h ms' :
    (∀ m x, (step m (NumRequeues x)).1 = m) →
    exec (maxof_step step) ms h ms' → maxof_fine h →
    Forall2 (λ m m', ∃ hm, exec step m hm m' ∧ hm.*1 = h.*1) ms ms'.
  Proof. exact (maxof_members step ms h ms'). Qed.
  Theorem C17_num_requeues_is_max {L} (step : L → lop A → L * lres) ms x :
    ms ≠ [] → (∀ m, m ∈ ms → ∃ n, (step m (NumRequeues x)).2 = LCount n) →
    ∃ n, (maxof_step step ms (NumRequeues x)).2 = LCount n ∧
      (∃ m, m ∈ ms ∧ (step m (NumRequeues x)).2 = LCount n) ∧
      ∀ m n', m ∈ ms → (step m (NumRequeues x)).2 = LCount n' → (n' ≤ n)%nat.
  Proof. exact (maxof_count step ms x). Qed.
  (** a raising member stops the call: the members behind it are not fed *)
  Theorem C17_raising_member {L} (step : L → lop A → L * lres) ms o ms' e :
    call_when step ms o = (ms', inr e) →
    ∃ pre m post, ms = pre ++ m :: post ∧ (step m o).2 = e ∧ (∀ d, e ≠ LDelay d) ∧
      (∀ m', m' ∈ pre → ∃ d, (step m' o).2 = LDelay d) ∧
      ms' = ((λ m, (step m o).1) <$> pre) ++ (step m o).1 :: post.
  Proof. exact (call_when_raises step ms o ms' e). Qed.
End props.

(** C15 *)
Theorem C15_conformance b ts a z :
  0 < b_limit b ∧ 1 <= b_burst b ∧ b_tokens b <= b_burst b →
  nondecreasing (b_last b / giga) ts → a <= z →
  inject_Z (Z.of_nat (countb (in_window a z) (bucket_run b ts))) <= b_burst b + b_limit b * (z - a).
Proof. exact (bucket_conformance b ts a z). Qed.
(** the constructor establishes the hypotheses *)
Theorem C15_constructor limit burst b : bucket_new limit burst = Some b →
  b_limit b = limit ∧ b_burst b = burst ∧ b_last b = 0 ∧
  (0 < b_limit b ∧ 1 <= b_burst b ∧ b_tokens b <= b_burst b).
Proof. exact (bucket_new_ok limit burst b). Qed.
(** with a clock that steps back, two calls of a bucket with burst 1 are
    released at the same instant *)
Theorem C15_clock_steps_back_refuted :
  ∃ b ts a, bucket_new 1 1 = Some b ∧
    ¬ inject_Z (Z.of_nat (countb (in_window a a) (bucket_run b ts))) <= b_burst b + b_limit b * (a - a).
Proof. exists (Bucket 1 1 0 0), [100; 0; 100], 100. split; [done|]. vm_compute. auto. Qed.

(** C16: every call is released at the earliest time the burst and the limit
    allow, given all call times so far *)
Theorem C16_earliest_release l B ts t : 0 < l → 1 <= B → nondecreasing 0 (ts ++ [t]) →
  let w := (bucket_when (bucket_after (Bucket l B 0 0) ts) t).2 in
  0 <= w ∧ lawful l B (t :: reverse ts) (t + w) ∧
  ∀ r, t <= r → lawful l B (t :: reverse ts) r → t + w <= r.
Proof. exact (bucket_earliest l B ts t). Qed.
Theorem C16_tokens_never_exceed_burst l B ts : 0 < l → 1 <= B → nondecreasing 0 ts →
  b_tokens (bucket_after (Bucket l B 0 0) ts) <= B.
Proof. exact (bucket_tokens_le l B ts). Qed.
(** a call waits iff less than one token is available, and then until exactly
    one would have accumulated *)
Theorem C16_wait_is_exact b t : 0 < b_limit b →
  let available := bucket_advance b (t * giga) in
  let w := (bucket_when b t).2 in
  (1 <= available → w == 0) ∧ (available < 1 → 0 < w ∧ available + b_limit b * w == 1).
Proof. exact (bucket_wait_exact b t). Qed.
Theorem C16_idle_then_immediate l B ts t ts2 : 0 < l → 1 <= B → nondecreasing 0 (ts ++ [t] ++ ts2) →
  let c := (t, (bucket_when (bucket_after (Bucket l B 0 0) ts) t).2) in
  (∀ t' ts', ts2 = t' :: ts' → release c + B / l <= t') →
  inject_Z (Z.of_nat (length ts2)) <= B →
  ∃ cs, bucket_run (Bucket l B 0 0) (ts ++ [t] ++ ts2) = bucket_run (Bucket l B 0 0) ts ++ [c] ++ cs ∧
    length cs = length ts2 ∧ Forall (λ c : Q * Q, c.2 == 0) cs.
Proof. exact (idle_then_immediate l B ts t ts2). Qed.

(** ** concrete cases *)
Definition exp_demo : list (lop nat) :=
  [When 1%nat 0; When 1%nat 0; When 2%nat 0; NumRequeues 1%nat; Forget 2%nat; When 1%nat 0; When 1%nat 0; Forget 1%nat; When 1%nat 0].
Example C13_case : (run explim_step (ExpLim (PyInt 3) (Fin 20) []) exp_demo).2.*2 =
  [LDelay (Fin 3); LDelay (Fin 6); LDelay (Fin 3); LCount 2; LNone; LDelay (Fin 12); LDelay (Fin 20); LNone; LDelay (Fin 3)].
Proof. vm_compute. reflexivity. Qed.
(** C14: with the default limiter the 1025th consecutive failure raises *)
Theorem C14_default_limiter_refuted :
  ∃ (h : list (lop nat * lres)) ms, exec (maxof_step lim_step) default_limiter h ms ∧ maxof_fine h ∧
    h.*1 = replicate 1024 (When 1%nat 0) ∧
    (maxof_step lim_step ms (When 1%nat 0)).2 = LOverflow.
Proof.
  exists (run (maxof_step lim_step) default_limiter (replicate 1024 (When 1%nat 0))).2,
    (run (maxof_step lim_step) default_limiter (replicate 1024 (When 1%nat 0))).1.
  pose proof (run_exec (maxof_step lim_step) default_limiter (replicate 1024 (When 1%nat 0))) as Hr.
  assert (maxof_fine (run (maxof_step lim_step) default_limiter (replicate 1024 (When 1%nat 0))).2) as Hf.
  { apply fine_check. vm_cast_no_check (eq_refl true). }
  assert ((run (maxof_step lim_step) default_limiter (replicate 1024 (When 1%nat 0))).2.*1 = replicate 1024 (When 1%nat 0)) as Hl.
  { apply run_calls. }
  split; [done|]. split; [done|]. split; [done|].
  eapply default_overflow; [exact Hr|exact Hf|]. rewrite Hl. vm_compute. lia.
Qed.
Definition bucket_demo := bucket_run (Bucket 2 3 0 0) [10; 10; 10; 10; 10; 10; 20].
(** bucket: 3 immediate, then one every half second *)
Example C15_case : nondecreasing 0 [10; 10; 10; 10; 10; 10; 20] ∧
  map (λ c, Qred c.2) bucket_demo = [0; 0; 0; 1#2; 1; 3#2; 0] ∧
  countb (in_window 10 11) bucket_demo = 5%nat.
Proof. split; [simpl; repeat split; lra|]. vm_compute. done. Qed.
Example C16_case : nondecreasing 0 ([1] ++ [2] ++ [10; 10; 11]) ∧
  release (2, (bucket_when (bucket_after (Bucket 2 3 0 0) [1]) 2).2) + 3 / 2 <= 10.
Proof. split; [simpl; repeat split; lra|]. vm_compute. discriminate. Qed.
Example C17_case : ∃ h ms, exec (maxof_step lim_step) default_limiter h ms ∧ maxof_fine h ∧
  h.*1 = [When 1%nat 0; When 1%nat 1; Forget 1%nat; When 2%nat 1].
Proof.
  eexists _, _. split; [apply (run_exec (maxof_step lim_step) default_limiter
    [When 1%nat 0; When 1%nat 1; Forget 1%nat; When 2%nat 1])|]. split; [|apply run_calls].
  apply fine_check. vm_compute. reflexivity.
Qed.

Print Assumptions C13_exponential_delay.
Print Assumptions C13_num_requeues.
Print Assumptions C14_overflow_exactly_when.
Print Assumptions C14_default_limiter_raises.
Print Assumptions C14_default_limiter_refuted.
Print Assumptions C15_conformance.
Print Assumptions C15_constructor.
Print Assumptions C15_clock_steps_back_refuted.
Print Assumptions C16_earliest_release.
Print Assumptions C16_tokens_never_exceed_burst.
Print Assumptions C16_wait_is_exact.
Print Assumptions C16_idle_then_immediate.
Print Assumptions C17_delay_is_worst.
Print Assumptions C17_members_fed.
Print Assumptions C17_num_requeues_is_max.
Print Assumptions C17_raising_member.
