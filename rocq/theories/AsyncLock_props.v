(** C103: objects under an [asyncio.Lock]: the thread-safe store and the fake source, called by many tasks. *)
From Coq Require Import Sorted.
From Verif Require Import Base Store_model FakeSource_model AsyncLock_model AsyncLock_spec AsyncLock_proofs.

(** the calls take effect one at a time, each as on its own, in the order in which they got the lock *)
Theorem C103_one {St Op R L} (enter : St → Op → St * part R L) resume keeps s0 ls s :
  reach (lstep enter resume keeps) (lock_init s0) ls s →
  ∃ s1, serial enter resume s0 (l_log s) s1 ∧ (l_held s = None → l_obj s = s1) ∧
    ∀ t o l, l_held s = Some (t, o, l) → parts enter resume s1 o (l_obj s) (PAwait l).
Proof. exact (one_at_a_time enter resume keeps s0 ls s). Qed.
Print Assumptions C103_one.

(** which is the order in which they were made *)
Theorem C103_order {St Op R L} (enter : St → Op → St * part R L) resume keeps s0 ls s :
  reach (lstep enter resume keeps) (lock_init s0) ls s → StronglySorted lt (ended s ++ inside s ++ live s).
Proof. exact (in_order enter resume keeps s0 ls s). Qed.
Print Assumptions C103_order.

(** every call is in one place: it ended, is under way, waits, or gave up *)
Theorem C103_once {St Op R L} (enter : St → Op → St * part R L) resume keeps s0 ls s :
  reach (lstep enter resume keeps) (lock_init s0) ls s → ended s ++ inside s ++ waiting s ++ l_gone s ≡ₚ seq 0 (length (calls ls)).
Proof. exact (each_once enter resume keeps s0 ls s). Qed.
Print Assumptions C103_once.

(** what ended under its number is what was called *)
Theorem C103_own {St Op R L} (enter : St → Op → St * part R L) resume keeps s0 ls s t o x :
  reach (lstep enter resume keeps) (lock_init s0) ls s → (t, o, x) ∈ l_log s → calls ls !! t = Some o.
Proof. exact (own_op enter resume keeps s0 ls s t o x). Qed.
Print Assumptions C103_own.

(** only a call that was cancelled gives up *)
Theorem C103_gone {St Op R L} (enter : St → Op → St * part R L) resume keeps s0 ls s t :
  reach (lstep enter resume keeps) (lock_init s0) ls s → t ∈ l_gone s → LCancel t ∈ ls.
Proof. exact (gave_up enter resume keeps s0 ls s t). Qed.
Print Assumptions C103_gone.

(** and a call that is cancelled while it waits does not get the lock any more, even if the lock was already given to it *)
Theorem C103_too_late {St Op R L} (enter : St → Op → St * part R L) resume keeps s0 l1 s1 t s2 l2 s3 :
  reach (lstep enter resume keeps) (lock_init s0) l1 s1 → lstep enter resume keeps s1 (LCancel t) s2 → reach (lstep enter resume keeps) s2 l2 s3 → ¬ got_lock s3 t.
Proof. exact (too_late enter resume keeps s0 l1 s1 t s2 l2 s3). Qed.
Print Assumptions C103_too_late.

(** no wakeup is lost: whenever the lock is free, the first waiter that was not cancelled gets it once those before it and then itself have run *)
Theorem C103_turn {St Op R L} (enter : St → Op → St * part R L) resume keeps s0 ls s ds w ws :
  reach (lstep enter resume keeps) (lock_init s0) ls s →
  l_locked s = false → l_waiters s = ds ++ w :: ws → Forall (λ d, ¬ wants d) ds → wants w →
  ∃ s', reach (lstep enter resume keeps) s ((λ d, LRun (w_call d)) <$> ds ++ [w]) s' ∧ got_lock s' (w_call w).
Proof. exact (turn enter resume keeps s0 ls s ds w ws). Qed.
Print Assumptions C103_turn.

(** and the lock is free unless a section is under way or a method kept it *)
Theorem C103_free {St Op R L} (enter : St → Op → St * part R L) resume keeps s0 ls s :
  reach (lstep enter resume keeps) (lock_init s0) ls s → l_locked s = true → inside s ≠ [] ∨ ∃ t, kept keeps s t.
Proof. exact (who_holds enter resume keeps s0 ls s). Qed.
Print Assumptions C103_free.

(** once a method that keeps the lock got it, no other call ever does *)
Theorem C103_last {St Op R L} (enter : St → Op → St * part R L) resume keeps s0 ls s t ls' s' :
  reach (lstep enter resume keeps) (lock_init s0) ls s → kept keeps s t →
  reach (lstep enter resume keeps) s ls' s' → ∀ t', got_lock s' t' → got_lock s t'.
Proof. exact (last_one enter resume keeps s0 ls s t ls' s'). Qed.
Print Assumptions C103_last.

(** sections without an await: no call waits or can be cancelled, and the calls are steps *)
Theorem C103_atomic {St Op R L} (enter : St → Op → St * part R L) resume keeps step s0 ls s :
  no_await enter keeps step → reach (lstep enter resume keeps) (lock_init s0) ls s →
  l_locked s = false ∧ l_waiters s = [] ∧ l_held s = None ∧ l_gone s = [] ∧ ended s = seq 0 (length (calls ls)) ∧
  ∃ h, exec step s0 h (l_obj s) ∧ h.*1 = calls ls ∧ (snd <$> l_log s) = (OReturned <$> h.*2).
Proof. exact (never_waits enter resume keeps step s0 ls s). Qed.
Print Assumptions C103_atomic.

(** such is the store *)
Theorem C103_store {K O V N} `{EqDecision K} `{EqDecision V} `{EqDecision N} (keyf : O → option K) (fs : dict N (O → option (list V))) ls s :
  reach (lstep (L := Empty_set) (λ s o, ((sstep keyf s o).1, PReturn (sstep keyf s o).2)) (λ s l, match l with end) (λ _, false)) (lock_init (store_init fs)) ls s →
  l_waiters s = [] ∧ ∃ h, exec (sstep keyf) (store_init fs) h (l_obj s) ∧ h.*1 = calls ls ∧ (snd <$> l_log s) = (OReturned <$> h.*2).
Proof. exact (store_history keyf fs ls s). Qed.
Print Assumptions C103_store.

(** the fake source: what calls do, however they overlap and whichever are cancelled, is what some calls do one after another *)
Theorem C103_source {K V} `{EqDecision K} (keyof : nat → K) ls s :
  reach (lstep (s_enter keyof) (s_resume keyof) s_keeps) (lock_init (f_init : fsrc K V)) ls s →
  ∃ hs s1, Forall2 seen (l_log s) hs ∧ exec (fstep keyof) f_init (concat hs) s1 ∧ (l_held s = None → l_obj s = s1).
Proof. exact (source_history keyof ls s). Qed.
Print Assumptions C103_source.

(** FALSE: watchers see a change that lists show unless it is made with watch probability below 1.  A change is cancelled while it awaits room in the queue *)
Theorem C103_unseen_refuted : ∃ s, reach (lstep (s_enter own) (s_resume own) s_keeps) (lock_init (f_init : fsrc nat nat)) cut_trace s ∧
  (2, SOp FList, OReturned (SRes (FListed [Copy 3 (10, 1)] 1))) ∈ l_log s ∧ f_watchers (l_obj s) !! 0 = Some [].
Proof. exact cut_case. Qed.
Print Assumptions C103_unseen_refuted.

(** FALSE: every watcher of the source is somebody's.  A watch is cancelled while it awaits its watcher *)
Theorem C103_orphan_refuted : ∃ s w, reach (lstep (s_enter own) (s_resume own) s_keeps) (lock_init (f_init : fsrc nat nat)) cut_trace s ∧
  is_Some (f_watchers (l_obj s) !! w) ∧ ∀ t o, (t, o, OReturned (SRes (FWatching w))) ∉ l_log s.
Proof. exact orphan_case. Qed.
Print Assumptions C103_orphan_refuted.

(** calls of the source overlap; one gives up *)
Theorem C103_case : ∃ s, reach (lstep (s_enter own) (s_resume own) s_keeps) (lock_init (f_init : fsrc nat nat)) busy_trace s ∧
  l_log s = [(0, SOp (FWatch 0), OReturned (SRes (FWatching 0))); (1, add3, OReturned (SRes FDone));
             (2, SOp FList, OReturned (SRes (FListed [Copy 3 (10, 1)] 1))); (4, SOp FList, OReturned (SRes (FListed [Copy 3 (10, 1)] 1)))] ∧
  l_gone s = [3] ∧ l_waiters s = [] ∧ f_watchers (l_obj s) = [[WRef EAdded 3]].
Proof. exact busy_case. Qed.
Print Assumptions C103_case.

(** a source that was shut down: a list waits for the lock, which by C103_last it does not get *)
Theorem C103_shutdown : ∃ s, reach (lstep (s_enter own) (s_resume own) s_keeps) (lock_init (f_init : fsrc nat nat)) shut_trace s ∧
  l_log s = [(0, add3, OReturned (SRes FDone)); (1, SShutdown, OReturned SShut)] ∧ kept s_keeps s 1 ∧ waiting s = [2].
Proof. exact shut_case. Qed.
Print Assumptions C103_shutdown.
