(** Properties of the fake watcher: C76. *)
From Verif Require Import Base Watch_model Watch_spec Watch_proofs.

(** C76: without reset and cancelled readers no event is invented or returned twice, and no call fails, *)
Theorem C76_each_once {E} tr (s : fwatcher E) : reach fwstep fw_init tr s → no_reset tr → no_reader_cancelled tr →
  (∃ rest, sent tr ≡ₚ returned tr ++ rest) ∧ ∀ i e, FWValueError i e ∉ tr.
Proof. exact (each_once tr s). Qed.
(** one consumer is returned the events in the order they were sent, *)
Theorem C76_in_order {E} tr (s : fwatcher E) : reach fwstep fw_init tr s → no_reset tr → no_reader_cancelled tr → one_consumer tr → returned tr `prefix_of` sent tr.
Proof. exact (in_order tr s). Qed.
(** a call of action returns only when everything sent was returned, *)
Theorem C76_action_waits {E} tr (s : fwatcher E) : reach fwstep fw_init (tr ++ [FWJoined]) s → no_reset tr → no_reader_cancelled tr →
  sent tr ≡ₚ returned tr ∧ (one_consumer tr → sent tr = returned tr).
Proof. exact (action_waits tr s). Qed.
(** and the iteration ends only after a stop, when all that was sent before the stop was returned *)
Theorem C76_ends {E} tr i (s : fwatcher E) : reach fwstep fw_init (tr ++ [FWEnd i]) s → no_reset tr → no_reader_cancelled tr → one_consumer tr →
  FWStop ∈ tr ∧ sent_before_stop tr `prefix_of` returned tr.
Proof. exact (ends tr i s). Qed.
(** while a call of __anext__ is under way it, or another one, can return a pending event, or end if there is none and the watcher was stopped; *)
Theorem C76_goes_on {E} tr (s : fwatcher E) : reach fwstep fw_init tr s → no_reset tr → no_reader_cancelled tr → finished tr < begun tr →
  (length (returned tr) < length (sent tr) → ∃ ls i e s', reach fwstep s (ls ++ [FWReturn i e]) s' ∧ ∀ l, l ∈ ls → consumer_label l) ∧
  (length (returned tr) = length (sent tr) → FWStop ∈ tr → ∃ ls i s', reach fwstep s (ls ++ [FWEnd i]) s' ∧ ∀ l, l ∈ ls → consumer_label l).
Proof. exact (goes_on tr s). Qed.
(** and action can return when all events were returned *)
Theorem C76_action_returns {E} tr (s : fwatcher E) : reach fwstep fw_init tr s → no_reset tr → no_reader_cancelled tr → busy s → length (returned tr) = length (sent tr) → ∃ s', fwstep s FWJoined s'.
Proof. exact (action_returns tr s). Qed.
(** reset during an iteration: the consumer waits for the old queue, action for the consumer *)
Theorem C76_reset_hangs_refuted : ∃ s : fwatcher nat, reach fwstep fw_init [FWRead 0; FWStart 0; FWReset; FWPut 7] s ∧
  ∀ ls s', reach fwstep s ls s' → FWStop ∉ ls → (∀ i, FWRead i ∉ ls) → (∀ i e, FWReturn i e ∉ ls) ∧ (∀ i, FWEnd i ∉ ls) ∧ FWJoined ∉ ls.
Proof. exact reset_hangs. Qed.
(** stop and then reset: the iteration does not end, and never returns anything *)
Theorem C76_restart_hangs_refuted : ∃ s : fwatcher nat, reach fwstep fw_init [FWRead 0; FWStart 0; FWStop; FWReset] s ∧
  ∀ ls s', reach fwstep s ls s' → FWStop ∉ ls → FWEnd 0 ∉ ls ∧ ∀ e, FWReturn 0 e ∉ ls.
Proof. exact restart_hangs. Qed.
(** a cancelled reader takes an event with it, and action, reset and the next action wait forever *)
Theorem C76_cancel_hangs_refuted : ∃ s : fwatcher nat, reach fwstep fw_init [FWRead 0; FWCancel 0; FWPut 7; FWTake 0 7] s ∧
  ∀ ls s', reach fwstep s ls s' → FWAbort ∉ ls → FWJoined ∉ ls ∧ FWReset ∉ ls ∧ (∀ e, FWPut e ∉ ls) ∧ ∀ i e, FWReturn i e ∉ ls.
Proof. exact cancelled_reader_hangs. Qed.
(** action on a stopped watcher that nobody reads waits forever, and so does everyone after it *)
Theorem C76_stopped_action_refuted : ∃ s : fwatcher nat, reach fwstep fw_init [FWStop; FWPut 7] s ∧
  ∀ ls s', reach fwstep s ls s' → (∀ i, FWRead i ∉ ls) → FWAbort ∉ ls → FWJoined ∉ ls ∧ FWReset ∉ ls ∧ ∀ e, FWPut e ∉ ls.
Proof. exact stopped_action_hangs. Qed.
(** a reset after a cancelled action makes the reader fail with the event in hand *)
Theorem C76_value_error_refuted : ∃ s : fwatcher nat, reach fwstep fw_init [FWRead 0; FWPut 7; FWTake 0 7; FWAbort; FWReset; FWValueError 0 7] s.
Proof. exact value_error. Qed.

(** a case: one event returned, one sent after the stop *)
Example C76_case : ∃ s, reach fwstep fw_init watch_trace s ∧ one_consumer watch_trace ∧ no_reset watch_trace ∧ no_reader_cancelled watch_trace ∧ finished watch_trace < begun watch_trace ∧ busy s ∧
  sent watch_trace = [7; 8] ∧ sent_before_stop watch_trace = [7] ∧ returned watch_trace = [7] ∧ ∃ s', fwstep s (FWEnd 1) s'.
Proof. exact watch_case. Qed.

Print Assumptions C76_each_once.
Print Assumptions C76_in_order.
Print Assumptions C76_action_waits.
Print Assumptions C76_ends.
Print Assumptions C76_goes_on.
Print Assumptions C76_action_returns.
Print Assumptions C76_reset_hangs_refuted.
Print Assumptions C76_restart_hangs_refuted.
Print Assumptions C76_cancel_hangs_refuted.
Print Assumptions C76_stopped_action_refuted.
Print Assumptions C76_value_error_refuted.
