(** C104: the asyncio queues between the parts of the code, with get and put tasks that are made and cancelled at will. *)
From Verif Require Import Base AsyncQueue_model AsyncQueue_spec AsyncQueue_proofs.

(** what is taken is what was put, in order, nothing twice, and the rest is in the queue *)
Theorem C104_fifo {A} max ls (s : aqueue A) : reach (qstep max) aq_init ls s → (q_in s).*2 = (q_out s).*2 ++ q_items s.
Proof. exact (fifo max ls s). Qed.
Print Assumptions C104_fifo.

(** a task has its effect once if it returns and none if it is cancelled *)
Theorem C104_effects {A} max ls (s : aqueue A) : reach (qstep max) aq_init ls s →
  (∀ t a, (t, a) ∈ q_in s ↔ is_at s t (OPut a) SDone) ∧ (∀ t, t ∈ (q_out s).*1 ↔ is_at s t OGet SDone) ∧ NoDup (q_in s).*1 ∧ NoDup (q_out s).*1.
Proof. exact (effects max ls s). Qed.
Print Assumptions C104_effects.

(** the tasks are those that were made *)
Theorem C104_tasks {A} max ls (s : aqueue A) : reach (qstep max) aq_init ls s → t_op <$> q_tasks s = made ls.
Proof. exact (tasks_made max ls s). Qed.
Print Assumptions C104_tasks.

(** the queue holds no more than it has room for *)
Theorem C104_bound {A} max ls (s : aqueue A) : reach (qstep max) aq_init ls s → 0 < max → length (q_items s) ≤ max.
Proof. exact (bound max ls s). Qed.
Print Assumptions C104_bound.

(** no wakeup is lost: when the event loop has nothing to run, a get waits only at an empty queue, a put only at a full one, a join only while task_done is owed *)
Theorem C104_at_rest {A} max ls (s : aqueue A) : reach (qstep max) aq_init ls s → quiet max s →
  (∀ t, pending s t OGet → q_items s = []) ∧ (∀ t a, pending s t (OPut a) → 0 < max ∧ length (q_items s) = max) ∧ (∀ t, pending s t OJoin → q_done s < length (q_in s)) ∧
  (∀ t k, q_tasks s !! t = Some k → t_st k ∈ [SWait FPending; SDone; SCancelled]).
Proof. exact (at_rest max ls s). Qed.
Print Assumptions C104_at_rest.

(** and that comes: tasks do not wake each other for ever *)
Theorem C104_settles {A} max (s : aqueue A) ls s' : reach (qstep max) s ls s' → Forall is_run ls → length ls ≤ length (q_tasks s) * (length (q_tasks s) + 2).
Proof. exact (settles max s ls s'). Qed.
Print Assumptions C104_settles.
Theorem C104_rests {A} max (s : aqueue A) : ∃ ls s', Forall is_run ls ∧ reach (qstep max) s ls s' ∧ quiet max s'.
Proof. exact (comes_to_rest max s). Qed.
Print Assumptions C104_rests.

(** what returned earlier stays earlier *)
Theorem C104_earlier {A} max (s : aqueue A) ls s' : reach (qstep max) s ls s' → q_in s `prefix_of` q_in s' ∧ q_out s `prefix_of` q_out s'.
Proof. exact (grow max s ls s'). Qed.
Print Assumptions C104_earlier.

(** a join that returns: all that was put before it began has been taken, and task_done called for it *)
Theorem C104_join {A} max l1 (s1 : aqueue A) l2 s2 t : reach (qstep max) aq_init l1 s1 → is_at s1 t OJoin (SNew false) ∨ pending s1 t OJoin →
  reach (qstep max) s1 l2 s2 → is_at s2 t OJoin SDone → length (q_in s1) ≤ q_done s2 ≤ length (q_out s2).
Proof. exact (joined max l1 s1 l2 s2 t). Qed.
Print Assumptions C104_join.

(** false: when a join returns, the queue is empty *)
Theorem C104_join_empty_refuted : ∃ s, reach (qstep 0) aq_init join_trace s ∧ is_at s 1 OJoin SDone ∧ q_items s = [6].
Proof. exact join_case. Qed.
Print Assumptions C104_join_empty_refuted.

(** false: puts enter in the order in which they were called. Calls of Broadcaster.action: the 26th waits for room, a later one gets it *)
Theorem C104_put_order_refuted : ∃ s, reach (qstep 25) aq_init overtake_trace s ∧ made overtake_trace !! 25 = Some (OPut 25) ∧ made overtake_trace !! 27 = Some (OPut 99) ∧ 
  is_at s 27 (OPut 99) SDone ∧ pending s 25 (OPut 25) ∧ (q_in s).*2 = seq 0 25 ++ [99].
Proof. exact overtake_case. Qed.
Print Assumptions C104_put_order_refuted.

(** false: gets are served in the order in which they were called. A third get takes the item, and the first one waits again, behind the second *)
Theorem C104_get_order_refuted : ∃ s, reach (qstep 1) aq_init barge_trace s ∧ q_out s = [(3, 5)] ∧ pending s 0 OGet ∧ pending s 1 OGet ∧ q_getters s = [1; 0].
Proof. exact barge_case. Qed.
Print Assumptions C104_get_order_refuted.

(** a case: the get that was woken is cancelled, the next one gets the item, and the join returns *)
Theorem C104_case : ∃ s, reach (qstep 1) aq_init pass_trace s ∧ q_in s = [(2, 5)] ∧ q_out s = [(1, 5)] ∧ is_at s 0 OGet SCancelled ∧ is_at s 3 OJoin SDone.
Proof. exact pass_case. Qed.
Print Assumptions C104_case.
