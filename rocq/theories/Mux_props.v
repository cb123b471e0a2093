(** Properties of the broadcaster: C56-C58. *)
From Verif Require Import Base Mux_model Mux_spec Mux_proofs Mux_proofs2 Mux_proofs3 Mux_proofs4.
From Coq Require Import ZArith.

(** C56: in waiting mode a watcher receives what is expected, in order, and all of it once everything was handled and read *)
Theorem C56_in_order {E} len (mode : behavior) i tr (s : mux E) w : mode = WaitIfFull → reach (mstep len mode) mux_init tr s → m_ws s !! i = Some w → not_stopped i tr → no_cancel i tr →
  ∃ rest, expected i (accepted tr) = Some (received i tr ++ rest) ∧ (quiet s → rest = mw_buf w).
Proof. exact (wait_receives len mode i tr s w). Qed.
(** with cancelled calls, at most one event is missing for each call that was abandoned *)
Theorem C56_missing_bounded {E} len (mode : behavior) i tr (s : mux E) w : mode = WaitIfFull → reach (mstep len mode) mux_init tr s → m_ws s !! i = Some w → not_stopped i tr →
  ∃ rest, expected i (accepted tr) = Some (taken i tr ++ rest) ∧ received i tr `sublist_of` taken i tr ∧ length (taken i tr) ≤ length (received i tr) + leaves i tr ∧ (quiet s → rest = mw_buf w).
Proof. exact (wait_lost len mode i tr s w). Qed.
(** every event that is returned, and every call that is abandoned, answers a call *)
Theorem C56_answers_calls {E} len mode i tr (s : mux E) : reach (mstep len mode) mux_init tr s → length (received i tr) + leaves i tr ≤ calls i tr.
Proof. exact (answers_calls len mode i tr s). Qed.
(** in both modes, and for stopped watchers too, nothing is invented, doubled or reordered *)
Theorem C56_sublist {E} len mode i tr (s : mux E) : reach (mstep len mode) mux_init tr s → received i tr ≠ [] → ∃ x, expected i (accepted tr) = Some x ∧ received i tr `sublist_of` x.
Proof. exact (receives_sublist len mode i tr s). Qed.
(** the loop goes on unless it waits for a watcher, and reading that watcher lets it go on *)
Theorem C56_goes_on {E} len mode tr (s : mux E) : reach (mstep len mode) mux_init tr s → ¬ quiet s → can_go len mode s ∨ ∃ i, blocked i s.
Proof. exact (goes_or_blocked len mode tr s). Qed.
Theorem C56_reader_unblocks {E} len mode i tr (s : mux E) : reach (mstep len mode) mux_init tr s → blocked i s → no_cancel i tr → not_stopped i tr →
  ∃ ls s', reach (mstep len mode) s ls s' ∧ (∀ l, l ∈ ls → l = MNext i ∨ ∃ e, l = MReturn i e) ∧ can_go len mode s'.
Proof. exact (reader_unblocks len mode i tr s). Qed.
(** a cancelled call of __anext__ loses an event of a watcher that is not stopped *)
Theorem C56_cancel_loses_refuted : ∃ s w, reach (mstep 10 WaitIfFull) mux_init lose_trace s ∧ quiet s ∧ m_ws s !! 0 = Some w ∧ mw_buf w = [] ∧
  expected 0 (accepted lose_trace) = Some [1; 2] ∧ received 0 lose_trace = [2].
Proof. exact cancel_loses. Qed.
(** and with queue length 0 it stops all watchers until that watcher is stopped *)
Theorem C56_cancel_blocks_refuted : reach (mstep 0 WaitIfFull) mux_init stuck_trace stuck_state ∧
  ∀ ls s', reach (mstep 0 WaitIfFull) stuck_state ls s' → MStop 0 ∉ ls → m_phase s' = MDist 1 [0; 1] true ∧ ∀ i, i < 2 → received i ls = [].
Proof. exact cancel_blocks. Qed.

(** C57: in dropping mode the loop never waits, *)
Theorem C57_never_waits {E} len (mode : behavior) tr (s : mux E) : mode = DropIfFull → reach (mstep len mode) mux_init tr s → ¬ quiet s → can_go len mode s.
Proof. exact (drop_not_blocked len mode tr s). Qed.
(** a watcher is delivered every event it did not miss, in order, *)
Theorem C57_delivered {E} len (mode : behavior) i tr (s : mux E) w : mode = DropIfFull → reach (mstep len mode) mux_init tr s → m_ws s !! i = Some w → not_stopped i tr →
  due i (handled tr) = Some (taken i tr ++ mw_buf w).
Proof. exact (drop_delivered len mode i tr s w). Qed.
(** and misses one exactly when as many delivered events as its buffer holds were not yet taken *)
Theorem C57_missed_iff_full {E} len (mode : behavior) i tr1 (e : E) ms tr2 s x : mode = DropIfFull → reach (mstep len mode) mux_init (tr1 ++ MTake (REvent e) ms :: tr2) s →
  due i (handled tr1) = Some x → not_stopped i tr1 →
  let c := capacity len i (accepted tr1) in i ∈ ms ↔ (0 < c ∧ c <= Z.of_nat (length x) - Z.of_nat (length (taken i tr1)))%Z.
Proof. exact (drop_missed len mode i tr1 e ms tr2 s x). Qed.

(** C58: when the loop ended, everything before the shutdown was handled and all watchers are stopped, *)
Theorem C58_all_handled {E} len mode tr (s : mux E) : reach (mstep len mode) mux_init tr s → m_phase s = MEnded →
  ∃ rs, accepted tr = rs ++ RShutdown :: m_incoming s ∧ RShutdown ∉ rs ∧ (∀ i w, m_ws s !! i = Some w → mw_stopped w = true ∧
    (mode = WaitIfFull → not_stopped i tr → expected i (accepted tr) = Some (taken i tr ++ mw_buf w))).
Proof. exact (ended_all len mode tr s). Qed.
(** nothing is added to a buffer any more, *)
Theorem C58_only_drains {E} len mode (s : mux E) ls s' : m_phase s = MEnded → reach (mstep len mode) s ls s' →
  m_phase s' = MEnded ∧ m_incoming s `prefix_of` m_incoming s' ∧ length (m_ws s') = length (m_ws s) ∧
  (∀ i w, m_ws s !! i = Some w → ∃ w', m_ws s' !! i = Some w' ∧ mw_buf w = taken i ls ++ mw_buf w').
Proof. exact (ended_reach len mode s ls s'). Qed.
(** and each call of __anext__ can return the next item of the buffer, or end when there is none *)
Theorem C58_terminates {E} len mode tr (s : mux E) i w : reach (mstep len mode) mux_init tr s → m_phase s = MEnded → m_ws s !! i = Some w → 0 < mw_live w →
  match mw_buf w with e :: _ => ∃ s', mstep len mode s (MReturn i e) s' | [] => ∃ s', mstep len mode s (MEnd i) s' end.
Proof. exact (ended_drains len mode tr s i w). Qed.
(** watch() after the shutdown never gets a watcher *)
Theorem C58_watch_refuted len mode : ∃ (s : mux nat), reach (mstep len mode) mux_init [MSubmit RShutdown; MTake RShutdown []; MSubmit (RWatch None)] s ∧
  ∀ ls s', reach (mstep len mode) s ls s' → m_ws s' = [] ∧ ∀ r ms, MTake r ms ∉ ls.
Proof. exact (watch_after_shutdown len mode). Qed.
(** action() after it is accepted without effect, until it waits forever *)
Theorem C58_action_refuted len mode : ∃ tr (s : mux nat), reach (mstep len mode) mux_init tr s ∧ (MTake RShutdown [] ∈ tr) ∧
  ∀ ls s', reach (mstep len mode) s ls s' → ∀ r s'', ¬ mstep len mode s' (MSubmit r) s''.
Proof. exact (action_after_shutdown len mode). Qed.

(** cases *)
Example C56_case : ∃ s s', reach (mstep 1 WaitIfFull) mux_init wait_trace s ∧ blocked 0 s ∧ reach (mstep 1 WaitIfFull) s wait_trace' s' ∧ quiet s' ∧
  received 0 (wait_trace ++ wait_trace') = [1; 2] ∧ received 1 (wait_trace ++ wait_trace') = [7; 2].
Proof. exact wait_case. Qed.
Example C57_case : ∃ s, reach (mstep 1 DropIfFull) mux_init drop_trace s ∧ received 0 drop_trace = [1; 3] ∧ due 0 (handled drop_trace) = Some [1; 3] ∧ expected 0 (accepted drop_trace) = Some [1; 2; 3].
Proof. exact drop_case. Qed.
Example C58_case : ∃ s w, reach (mstep 1 WaitIfFull) mux_init end_trace s ∧ m_phase s = MEnded ∧ m_ws s !! 0 = Some w ∧ 0 < mw_live w ∧ mw_buf w = [1].
Proof. exact end_case. Qed.

Print Assumptions C56_in_order.
Print Assumptions C56_missing_bounded.
Print Assumptions C56_answers_calls.
Print Assumptions C56_sublist.
Print Assumptions C56_goes_on.
Print Assumptions C56_reader_unblocks.
Print Assumptions C56_cancel_loses_refuted.
Print Assumptions C56_cancel_blocks_refuted.
Print Assumptions C57_never_waits.
Print Assumptions C57_delivered.
Print Assumptions C57_missed_iff_full.
Print Assumptions C58_all_handled.
Print Assumptions C58_only_drains.
Print Assumptions C58_terminates.
Print Assumptions C58_watch_refuted.
Print Assumptions C58_action_refuted.
