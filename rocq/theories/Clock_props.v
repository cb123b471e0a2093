(** Properties of the fake clock: C54, C55. *)
From Verif Require Import Base Clock_model Clock_spec Clock_proofs Clock_proofs2.
Local Open Scope Z_scope.

(** C54: a timer goes through the life described by [timer_of], and what it
    delivers and what stop and reset return are determined by it *)
Theorem C54_timer_life t0 h s i d : no_negative_ticker h → exec cstep (clock_init t0) h s → timer_of i t0 h ≠ TNew →
  (cstep s (CStop i)).2 = CBool (is_pending (timer_of i t0 h)) ∧ (cstep s (CReset i d)).2 = CBool (is_pending (timer_of i t0 h)) ∧
  ∃ item, (cstep s (CGet i)).2 = CItem item ∧ got i h ++ option_list item = match timer_of i t0 h with TFired t => [t] | _ => [] end.
Proof. exact (timer_life t0 h s i d). Qed.
Theorem C54_time t0 h s : no_negative_ticker h → exec cstep (clock_init t0) h s → (cstep s CNow).2 = CTime (time_after t0 h).
Proof. exact (clock_time t0 h s). Qed.

(** has_waiters: true while a timer is pending or a ticker ticks, and false if there is neither *)
Theorem C54_has_waiters t0 h s : no_negative_ticker h → exec cstep (clock_init t0) h s → ∃ b, (cstep s CHasWaiters).2 = CBool b ∧
  (∀ i, is_pending (timer_of i t0 h) = true → b = true) ∧
  (not_misused h → ∀ i st p l u, ticker_of i t0 h = KTicker st p l u → 0 < p → b = true) ∧
  (b = true → ∃ i, is_pending (timer_of i t0 h) = true ∨ ticker_of i t0 h ≠ KNone).
Proof. exact (has_waiters t0 h s). Qed.

(** C55: the unread tick and the next tick of a ticker, *)
Theorem C55_ticker t0 h s i st p l u : no_negative_ticker h → not_misused h → exec cstep (clock_init t0) h s → ticker_of i t0 h = KTicker st p l u → 0 < p →
  (cstep s (CGet i)).2 = CItem u ∧ ∃ w k, filter (λ w, w_queue w = i) (c_waiters s) = [w] ∧ w_target w = st + k * p ∧ c_time s < w_target w ∧ l < w_target w <= l + p.
Proof. exact (ticker_life t0 h s i st p l u). Qed.
(** and no operation blocks when no period is negative *)
Theorem C55_never_blocks t0 h s c : no_negative_ticker h → exec cstep (clock_init t0) h s → (∀ d, c = CNewTicker d → 0 <= d) → (cstep s c).2 ≠ CHang.
Proof. exact (never_blocks t0 h s c). Qed.
(** with a negative period the step does not end, whatever number of rounds the loop is given *)
Theorem C55_negative_period_refuted : ∃ h s, exec cstep (clock_init 0) h s ∧ h.*2 = [CQueue 0; CHang] ∧ h.*1 = [CNewTicker (-1); CStep 0] ∧ (∀ fuel, advance fuel (-1) (-1) 0 = None).
Proof. exact negative_hangs. Qed.
(** with period zero there is one tick only *)
Theorem C55_zero_period_refuted : ∃ h s, exec cstep (clock_init 0) h s ∧
  h = [(CNewTicker 0, CQueue 0); (CStep 1, CNone); (CGet 0, CItem (Some 1)); (CStep 1, CNone); (CGet 0, CItem None)] ∧ c_waiters s = [].
Proof. exact zero_ticks_once. Qed.
(** a stopped ticker goes on ticking *)
Theorem C55_stop_refuted : ∃ h s, exec cstep (clock_init 0) h s ∧ h = [(CNewTicker 10, CQueue 0); (CTickerStop 0, CNone); (CStep 10, CNone); (CGet 0, CItem (Some 10))].
Proof. exact stopped_ticks. Qed.

(** cases *)
Example C54_case : ∃ h s, exec cstep (clock_init 0) h s ∧ h.*1 = timer_ops ∧ no_negative_ticker h ∧ timer_of 0 0 h = TFired 18 ∧ timer_of 1 0 h = TStopped ∧ got 0 h = [18] ∧ got 1 h = [].
Proof. exact timer_case. Qed.
Example C55_case : ∃ h s, exec cstep (clock_init 0) h s ∧ h.*1 = ticker_ops ∧ no_negative_ticker h ∧ not_misused h ∧ ticker_of 0 0 h = KTicker 3 10 47 (Some 47) ∧ got 0 h = [28].
Proof. exact ticker_case. Qed.

Print Assumptions C54_timer_life.
Print Assumptions C54_time.
Print Assumptions C54_has_waiters.
Print Assumptions C55_ticker.
Print Assumptions C55_never_blocks.
Print Assumptions C55_negative_period_refuted.
Print Assumptions C55_zero_period_refuted.
Print Assumptions C55_stop_refuted.
