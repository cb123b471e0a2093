(** Property C77: the timer and the ticker behind the real clock.  [tr] is any run of a
    timer or ticker with period d, begun at any time t0. *)
From Verif Require Import Base RealTime_model RealTime_spec RealTime_proofs.
From Coq Require Import ZArith.
Local Open Scope Z_scope.

(** a timer fires at most once, its put never waits, and what it put is read once *)
Theorem C77_timer_once res d t0 tr s : reach (tstep res KTimer d) (rt_init t0) tr s → (length (wakes tr) ≤ 1)%nat ∧ ∀ w, t_phase s ≠ TpPut w.
Proof. exact (timer_once res KTimer d t0 tr s eq_refl). Qed.
Theorem C77_timer_read res d t0 tr s : reach (tstep res KTimer d) (rt_init t0) tr s → takes tr ++ option_list (t_cell s) = (wakes tr).*2.
Proof. exact (timer_takes res KTimer d t0 tr s eq_refl). Qed.
(** timer and first tick come no earlier than d after the task began, up to the clock's resolution, *)
Theorem C77_not_early res k d t0 l1 t w l2 s : reach (tstep res k d) (rt_init t0) (l1 ++ RWake t w :: l2) s → wakes l1 = [] →
  ∃ b, RBegin b ∈ l1 ∧ b + Z.max 0 d < t + res.
Proof. exact (first_wake res k d t0 l1 t w l2 s). Qed.
(** and ticks no closer than d to one another, *)
Theorem C77_apart res k d t0 tr s x y : reach (tstep res k d) (rt_init t0) tr s → adjacent x y (wakes tr) → x.1 + Z.max 0 d < y.1 + res.
Proof. exact (ticks_apart res k d t0 tr s x y). Qed.
Theorem C77_number res k d t0 tr s : res <= Z.max 0 d → reach (tstep res k d) (rt_init t0) tr s →
  Z.of_nat (length (wakes tr)) * (Z.max 0 d - res) <= clock_after t0 tr - t0.
Proof. exact (ticks_bounded res k d t0 tr s). Qed.
(** but they are due as soon as that time has come *)
Theorem C77_begins res k d t0 tr s : reach (tstep res k d) (rt_init t0) tr s → began tr = [] → RStop ∉ tr → ∃ s', tstep res k d s (RBegin (t_now s)) s'.
Proof. exact (λ Hr Hb Hn, ex_intro _ _ (can_begin res k d t0 tr s Hr Hb Hn)). Qed.
Theorem C77_due res k d t0 tr s b w : reach (tstep res k d) (rt_init t0) tr s → last_start tr = Some b → RStop ∉ tr → (k = KTimer → wakes tr = []) →
  b + Z.max 0 d < t_now s + res → ∃ s', tstep res k d s (RWake (t_now s) w) s'.
Proof. exact (λ Hr Hb Hn Hk Ht, ex_intro _ _ (can_wake res k d t0 tr s b w Hr Hb Hn Hk Ht)). Qed.
(** the queue holds the oldest tick since the last one read; ticks while it is full are dropped *)
Theorem C77_queue res k d t0 tr s : reach (tstep res k d) (rt_init t0) tr s → t_cell s = unread tr.
Proof. exact (queue_exact res k d t0 tr s). Qed.
Theorem C77_read res k d t0 l1 w l2 s : reach (tstep res k d) (rt_init t0) (l1 ++ RTake w :: l2) s → unread l1 = Some w.
Proof. exact (take_exact res k d t0 l1 w l2 s). Qed.
(** after stop nothing fires; what is in the queue by then stays there *)
Theorem C77_stopped res k d t0 l1 l2 s : reach (tstep res k d) (rt_init t0) (l1 ++ RStop :: l2) s → wakes l2 = [].
Proof. exact (stopped_quiet res k d t0 l1 l2 s). Qed.
Theorem C77_stopped_rest res k d t0 l1 l2 s : reach (tstep res k d) (rt_init t0) (l1 ++ RStop :: l2) s → (length (takes l2) ≤ 1)%nat.
Proof. exact (stopped_rest res k d t0 l1 l2 s). Qed.
(** a ticker that once was late is late for ever: begun at 0 with period 10 it does not tick at 20 *)
Theorem C77_grid_refuted : reach (tstep 1 KTicker 10) (rt_init 0) tick_trace tick_state ∧ RBegin 0 ∈ tick_trace ∧ t_now tick_state = 20 ∧ unread tick_trace = None ∧
  ∀ w s', ¬ tstep 1 KTicker 10 tick_state (RWake 20 w) s'.
Proof. exact grid_refuted. Qed.

(** cases *)
Example C77_ticker_case : ∃ s, reach (tstep 1 KTicker 10) (rt_init 0) drop_trace s ∧ wakes drop_trace = [(10, 110); (20, 120)] ∧ takes drop_trace = [110] ∧ t_cell s = None.
Proof. exact drop_runs. Qed.
Example C77_timer_case : ∃ s, reach (tstep 1 KTimer 10) (rt_init 0) timer_trace s.
Proof. exact timer_runs. Qed.

Print Assumptions C77_timer_once.
Print Assumptions C77_timer_read.
Print Assumptions C77_not_early.
Print Assumptions C77_apart.
Print Assumptions C77_number.
Print Assumptions C77_begins.
Print Assumptions C77_due.
Print Assumptions C77_queue.
Print Assumptions C77_read.
Print Assumptions C77_stopped.
Print Assumptions C77_stopped_rest.
Print Assumptions C77_grid_refuted.
