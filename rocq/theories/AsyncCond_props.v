(** C106: the queues that wait on an [asyncio.Condition] - the work queue, FIFO and DeltaFIFO - called by many tasks any of which may be cancelled. *)
From Verif Require Import Base WorkQueue_model WorkQueueSched_model Fifo_model FifoSched_model DeltaFifo_model DeltaFifoSched_model
  AsyncCond_model AsyncCond_spec AsyncCond_proofs AsyncCond_proofs2 AsyncCond_proofs3 AsyncCond_proofs4.

(** with the lock and the condition of asyncio, the calls behave as on the ideal machine, with the same results in the same order;
    only a task that was cancelled leaves it; and if no section awaits anything else, no call has to queue *)
Theorem C106_refines {St Op R L E} (enter : St → Op → St * part R L * notif) (resume : St → L → E → St * part R L * notif) direct s0 ls s :
  reach (cstep enter resume direct) (cond_init s0) ls s →
  ∃ als a, reach (atrans enter resume direct) (ideal_init s0) als a ∧ agrees s a ∧ results als = c_log s ∧ entered direct als = c_ran s ∧
    begun als = imap pair (calls ls) ∧ (∀ t, ACancel t ∈ als → KCancel t ∈ ls) ∧ (no_await enter resume → Forall (λ l, ¬ queues l) als).
Proof. exact (refines enter resume direct s0 ls s). Qed.
Print Assumptions C106_refines.

(** every call is in one place: it ended, is inside, waits for the lock or on the condition, or gave up *)
Theorem C106_once {St Op R L E} (enter : St → Op → St * part R L * notif) (resume : St → L → E → St * part R L * notif) direct s0 ls s :
  reach (cstep enter resume direct) (cond_init s0) ls s →
  (c_log s).*1 ++ inside s ++ at_lock s ++ at_cond s ++ c_gone s ≡ₚ seq 0 (length (calls ls)).
Proof. exact (each_once enter resume direct s0 ls s). Qed.
Print Assumptions C106_once.

(** between two runs of tasks the lock is taken exactly if a section awaits something *)
Theorem C106_mutex {St Op R L E} (enter : St → Op → St * part R L * notif) (resume : St → L → E → St * part R L * notif) direct s0 ls s :
  reach (cstep enter resume direct) (cond_init s0) ls s → c_locked s = true ↔ c_held s ≠ None.
Proof. exact (mutex enter resume direct s0 ls s). Qed.
Print Assumptions C106_mutex.

(** so it is always free, and nobody waits for it, if sections await only the condition *)
Theorem C106_atomic {St Op R L E} (enter : St → Op → St * part R L * notif) (resume : St → L → E → St * part R L * notif) direct s0 ls s :
  no_await enter resume → reach (cstep enter resume direct) (cond_init s0) ls s → c_lockq s = [] ∧ c_locked s = false ∧ c_held s = None.
Proof. exact (atomic enter resume direct s0 ls s). Qed.
Print Assumptions C106_atomic.

(** no wakeup of the lock is lost: when it is free, the first in line that was not cancelled enters its section once those before it and then itself have run *)
Theorem C106_turn {St Op R L E} (enter : St → Op → St * part R L * notif) (resume : St → L → E → St * part R L * notif) direct s0 ls s ds w ws :
  reach (cstep enter resume direct) (cond_init s0) ls s →
  c_locked s = false → c_lockq s = ds ++ w :: ws → Forall (λ d, lw_live d = false) ds → lw_live w = true →
  ∃ s', reach (cstep enter resume direct) s ((λ t, KRun t) <$> (lw_task <$> ds) ++ [lw_task w]) s' ∧ c_ran s' = c_ran s ++ [lw_task w].
Proof. exact (λ H, turn_lock enter resume direct ds s w ws (reach_inv_c enter resume direct s0 ls s H)). Qed.
Print Assumptions C106_turn.

(** when no task can run and nobody is inside, nobody waits for the lock, and those who wait on the condition were neither notified nor cancelled *)
Theorem C106_rest {St Op R L E} (enter : St → Op → St * part R L * notif) (resume : St → L → E → St * part R L * notif) direct s0 ls s :
  reach (cstep enter resume direct) (cond_init s0) ls s → at_rest enter resume direct s → c_held s = None →
  c_lockq s = [] ∧ c_locked s = false ∧ Forall (λ w, cw_fut w = FPending) (c_condq s).
Proof. exact (rest enter resume direct s0 ls s). Qed.
Print Assumptions C106_rest.

(** a call that is cancelled while it waits, for the lock or on the condition, does not enter its section any more, and returns nothing *)
Theorem C106_too_late {St Op R L E} (enter : St → Op → St * part R L * notif) (resume : St → L → E → St * part R L * notif) direct s0 ls s t s1 ls' s2 :
  reach (cstep enter resume direct) (cond_init s0) ls s → cstep enter resume direct s (KCancel t) s1 → reach (cstep enter resume direct) s1 ls' s2 →
  (∃ k, c_ran s2 = c_ran s ++ k ∧ t ∉ k) ∧ ∃ k, c_log s2 = c_log s ++ k ∧ t ∉ k.*1.
Proof. exact (too_late enter resume direct s0 ls s t s1 ls' s2). Qed.
Print Assumptions C106_too_late.

(** and only such a call gives up *)
Theorem C106_gone {St Op R L E} (enter : St → Op → St * part R L * notif) (resume : St → L → E → St * part R L * notif) direct s0 ls s t :
  reach (cstep enter resume direct) (cond_init s0) ls s → t ∈ c_gone s → KCancel t ∈ ls.
Proof. exact (gave_up enter resume direct s0 ls s t). Qed.
Print Assumptions C106_gone.

(** but one that is back from its wait does not end while somebody else is inside, however often it is cancelled *)
Theorem C106_stays {St Op R L E} (enter : St → Op → St * part R L * notif) (resume : St → L → E → St * part R L * notif) direct s0 ls s t o b f ls' s' :
  reach (cstep enter resume direct) (cond_init s0) ls s → c_locked s = true → LW t o (MAgain b) f ∈ c_lockq s →
  reach (cstep enter resume direct) s ls' s' → Forall (λ l, ∀ e, l ≠ KResume e) ls' →
  c_locked s' = true ∧ ∃ b' f', LW t o (MAgain b') f' ∈ c_lockq s'.
Proof. exact (λ H, stays enter resume direct s t o b f ls' s' (reach_inv_c enter resume direct s0 ls s H)). Qed.
Print Assumptions C106_stays.

(** ** The work queue: every execution is one of WorkQueueSched (C04, C05 and others) *)
Theorem C106_workqueue {A} `{EqDecision A} ls s :
  reach (cstep (wq_enter (A := A)) no_resume locks_all) (cond_init wq_init) ls s →
  ∃ sls ss, reach strans sched_init sls ss ∧ s_q ss = c_obj s ∧ s_waiting ss = (to_notify s).*1 ∧ s_notified ss ≡ₚ (notified s).*1 ∧
    wreturned sls = (c_log s).*2 ∧ ((∀ t, KCancel t ∉ ls) → Forall (λ l, is_cancel_notified l = false) sls).
Proof. exact (wq_link ls s). Qed.
Print Assumptions C106_workqueue.
Theorem C106_workqueue_rest {A} `{EqDecision A} ls s :
  reach (cstep (wq_enter (A := A)) no_resume locks_all) (cond_init wq_init) ls s → (∀ t, KCancel t ∉ ls) → at_rest wq_enter no_resume locks_all s →
  at_lock s = [] ∧ (at_cond s ≠ [] → wq_len (c_obj s) = 0 ∧ wq_down (c_obj s) = false).
Proof. exact (wq_rest ls s). Qed.
Print Assumptions C106_workqueue_rest.
(** false with cancellation: two getters wait, an item is added, the getter that was notified is cancelled; the other waits on although there is an item *)
Theorem C106_lost_refuted : ∃ ls s, reach (cstep (wq_enter (A := nat)) no_resume locks_all) (cond_init wq_init) ls s ∧
  calls ls = [Get; Get; Add 5] ∧ at_rest wq_enter no_resume locks_all s ∧ at_cond s = [1] ∧ wq_len (c_obj s) = 1 ∧ c_gone s = [0].
Proof. exact lost_witness. Qed.
Print Assumptions C106_lost_refuted.

(** ** FIFO: every execution is one of FifoSched (C23); whoever is cancelled, nobody waits while there are items, or after close *)
Theorem C106_fifo {K O} `{EqDecision K} (keyf : O → option K) ls s :
  reach (cstep (fifo_enter keyf) no_resume locks_all) (cond_init fifo_init) ls s →
  ∃ yls y, reach (ytrans keyf) fsys_init yls y ∧ y_fifo y = c_obj s ∧ (y_waiting y).*1 = (to_notify s).*1 ∧ (y_woken y).*1 ≡ₚ (notified s).*1 ∧ freturned yls = c_log s.
Proof. exact (fifo_link keyf ls s). Qed.
Print Assumptions C106_fifo.
Theorem C106_fifo_rest {K O} `{EqDecision K} (keyf : O → option K) ls s :
  reach (cstep (fifo_enter keyf) no_resume locks_all) (cond_init fifo_init) ls s → at_rest (fifo_enter keyf) no_resume locks_all s →
  at_lock s = [] ∧ (at_cond s ≠ [] → (fstep keyf (c_obj s) FListKeys).2 = FKeys [] ∧ (fstep keyf (c_obj s) FIsClosed).2 = FBool false).
Proof. exact (fifo_rest keyf ls s). Qed.
Print Assumptions C106_fifo_rest.

(** ** DeltaFIFO, whose callback runs under the lock: every execution is one of DeltaFifoSched *)
Theorem C106_delta {K O} `{EqDecision K} (keyf : O → option K) ls s :
  reach (cstep (delta_enter keyf) (delta_resume keyf) delta_direct) (cond_init dfifo_init) ls s → Forall (λ c, starts c = true) (calls ls) →
  ∃ zls z, reach (ztrans keyf) zsys_init zls z ∧ z_q z = c_obj s ∧ z_waiting z = (to_notify s).*1 ∧ z_ready z ≡ₚ notified s ++ asking s ∧
    z_holder z = (λ x, x.1.1) <$> c_held s ∧ zreturned zls = c_log s.
Proof. exact (delta_link keyf ls s). Qed.
Print Assumptions C106_delta.
Theorem C106_delta_rest {K O} `{EqDecision K} (keyf : O → option K) ls s :
  reach (cstep (delta_enter keyf) (delta_resume keyf) delta_direct) (cond_init dfifo_init) ls s → Forall (λ c, starts c = true) (calls ls) →
  at_rest (delta_enter keyf) (delta_resume keyf) delta_direct s →
  (c_held s = None → at_lock s = []) ∧ (at_cond s ≠ [] → (dstep keyf (c_obj s) DListKeys).2 = DKeys [] ∧ (dstep keyf (c_obj s) DIsClosed).2 = DBool false).
Proof. exact (delta_rest keyf ls s). Qed.
Print Assumptions C106_delta_rest.
(** a pop that is cancelled need not end: not before the callback of another pop does *)
Theorem C106_prompt_refuted : ∃ ls s, reach (cstep (delta_enter okey) (delta_resume okey) delta_direct) (cond_init dfifo_init) ls s ∧ KCancel 0 ∈ ls ∧
  ∀ ls' s', reach (cstep (delta_enter okey) (delta_resume okey) delta_direct) s ls' s' → Forall (λ l, ∀ e, l ≠ KResume e) ls' → suspended s' 0.
Proof. exact prompt_witness. Qed.
Print Assumptions C106_prompt_refuted.

(** a pop waits and is notified, a second pop takes the item, an add queues behind its callback, the first pop is cancelled twice; keys can be listed meanwhile *)
Theorem C106_case : ∃ s, reach (cstep (delta_enter okey) (delta_resume okey) delta_direct) (cond_init dfifo_init)
    [KCall DPop; KCall (DAdd (dnew 5 50)); KCall DPop; KCall (DAdd (dnew 6 60)); KCall DListKeys; KCancel 0; KRun 0; KCancel 0; KRun 0; KResume DOk; KRun 3; KRun 0] s ∧
  c_log s = [(1, DNone); (4, DKeys []); (2, DItem [(DtAdded, dnew 5 50)]); (3, DNone)] ∧ c_ran s = [0; 1; 2; 3] ∧ c_gone s = [0] ∧ c_locked s = false ∧
  (dstep okey (c_obj s) DListKeys).2 = DKeys [6].
Proof. exact case_witness. Qed.
Print Assumptions C106_case.
