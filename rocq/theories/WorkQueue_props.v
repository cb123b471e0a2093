(** Properties C01-C07: the work queue (aiok8s/workqueue/queue.py). *)
From Verif Require Import Base WorkQueue_model WorkQueue_spec WorkQueue_proofs
  WorkQueueSched_model WorkQueueSched_proofs.

Section props.
  Context {A : Type} `{EqDecision A}.

  (** Every schedule of getters, adders, finishers, shutdowns and cancellations
      is one sequential history of calls, so that the theorems below, stated on
      histories, cover every schedule. *)
  Theorem C01_schedules_are_histories (ls : list (slabel A)) s :
    reach strans sched_init ls s → exec wstep wq_init (ls ≫= call_of) (s_q s).
  Proof. exact (sched_refines ls s). Qed.

  (** C01: between two deliveries of the same item there is a successful done. *)
  Theorem C01_no_concurrent_processing h1 h2 h3 (x : A) q :
    exec wstep wq_init (h1 ++ (Get, RItem x) :: h2 ++ (Get, RItem x) :: h3) q →
    (Done x, RNone) ∈ h2.
  Proof. exact (no_concurrent_processing h1 h2 h3 x q). Qed.

  Theorem C01_in_every_schedule (ls : list (slabel A)) s h1 h2 h3 x :
    reach strans sched_init ls s →
    ls ≫= call_of = h1 ++ (Get, RItem x) :: h2 ++ (Get, RItem x) :: h3 →
    (Done x, RNone) ∈ h2.
  Proof. intros Hr%sched_refines Heq. rewrite Heq in Hr. by eapply no_concurrent_processing. Qed.

  (** C02: an item added before shutdown and not delivered since is delivered by
      the next [len q] gets, if nobody holds it ... *)
  Theorem C02_owed_is_delivered h q (x : A) :
    exec wstep wq_init h q → owed x h → ¬ in_hand x h →
    ∃ items q', length items = wq_len q ∧
      exec wstep q ((λ y, (Get, RItem y)) <$> items) q' ∧ x ∈ items.
  Proof. exact (owed_delivered_soon h q x). Qed.
  (** ... and becomes so by [done] if somebody does. *)
  Theorem C02_owed_after_done h q (x : A) :
    exec wstep wq_init h q → owed x h → in_hand x h →
    ∃ q', wstep q (Done x) = (q', RNone) ∧
      owed x (h ++ [(Done x, RNone)]) ∧ ¬ in_hand x (h ++ [(Done x, RNone)]).
  Proof. exact (owed_in_hand_after_done h q x). Qed.

  (** C03 *)
  Theorem C03_redelivery_needs_new_add h1 h2 h3 (x : A) q :
    exec wstep wq_init (h1 ++ (Get, RItem x) :: h2 ++ (Get, RItem x) :: h3) q →
    (Add x, RNone) ∈ h2.
  Proof. exact (redelivery_needs_add h1 h2 h3 x q). Qed.
  Theorem C03_delivery_needs_add h1 h2 (x : A) q :
    exec wstep wq_init (h1 ++ (Get, RItem x) :: h2) q →
    ∃ a b, h1 = a ++ (Add x, RNone) :: b ∧ ¬ shut a ∧ (Get, RItem x) ∉ b.
  Proof. exact (delivery_needs_add h1 h2 x q). Qed.

  (** C04 *)
  Theorem C04_fifo_order h1 h2 h3 h4 (x y : A) q :
    exec wstep wq_init
      (h1 ++ (Add x, RNone) :: h2 ++ (Add y, RNone) :: h3 ++ (Get, RItem y) :: h4) q →
    ¬ shut h1 → ¬ in_hand x h1 → ¬ owed y (h1 ++ (Add x, RNone) :: h2) →
    (Get, RItem x) ∈ h2 ++ h3.
  Proof. exact (fifo_order h1 h2 h3 h4 x y q). Qed.

  (** C05 *)
  Theorem C05_after_shutdown h (q : wq A) : exec wstep wq_init h q → shut h →
    (wstep q Get).2 ≠ RBlocked ∧ (∀ x, wstep q (Add x) = (q, RNone)) ∧
    ((wstep q Get).2 = RShutdown ↔ wq_len q = 0).
  Proof. exact (shutdown_no_block h q). Qed.
  (** every delivery after the shutdown stems from an add before it that was not
      served yet, and each item is delivered at most once more *)
  Theorem C05_drains_only_old_items_once h1 h2 (x : A) q :
    exec wstep wq_init (h1 ++ (ShutDown, RNone) :: h2) q → delivered x h2 →
    ∃ a b c d, h1 = a ++ (Add x, RNone) :: b ∧ ¬ shut a ∧ ¬ delivered x b ∧
         h2 = c ++ (Get, RItem x) :: d ∧ ¬ delivered x c ∧ ¬ delivered x d.
  Proof. exact (shutdown_only_old h1 h2 x q). Qed.

  (** C06 *)
  Theorem C06_no_lost_wakeup (ls : list (slabel A)) s :
    reach strans sched_init ls s → Forall (λ l, is_cancel_notified l = false) ls →
    s_notified s = [] → s_waiting s ≠ [] → wq_len (s_q s) = 0 ∧ wq_down (s_q s) = false.
  Proof. exact (no_lost_wakeup ls s). Qed.
  (** the situation "every runnable getter ran" is always reached by letting the
      notified tasks run, once each *)
  Theorem C06_quiescence (s : sched A) :
    ∃ ls s', reach strans s ls s' ∧ s_notified s' = [] ∧
      Forall (λ l, ∃ t r, l = LRun t r) ls ∧ length ls = length (s_notified s).
  Proof. exact (run_all_notified s). Qed.

  (** C07 *)
  Theorem C07_len_counts_gets h (q : wq A) : exec wstep wq_init h q →
    ∃ items q', NoDup items ∧ length items = wq_len q ∧
      exec wstep q ((λ y, (Get, RItem y)) <$> items) q' ∧
      (wstep q' Get).2 = (if wq_down q then RShutdown else RBlocked).
  Proof. exact (len_counts_gets h q). Qed.
  Theorem C07_done_misuse h q (x : A) : exec wstep wq_init h q →
    (in_hand x h → (wstep q (Done x)).2 = RNone) ∧
    (¬ in_hand x h → wstep q (Done x) = (q, RKeyError)).
  Proof. exact (done_misuse h q x). Qed.
End props.

(** With a cancellation between notification and resumption the wake-up is lost:
    an item is ready, a consumer sleeps, nobody is going to wake it. *)
Theorem C06_cancelled_getter_loses_wakeup_refuted :
  ∃ (ls : list (slabel nat)) s, reach strans sched_init ls s ∧
    s_notified s = [] ∧ s_waiting s = [2] ∧ wq_queue (s_q s) = [7] ∧ wq_down (s_q s) = false.
Proof.
  exists ([] ++ [LGet 1 RBlocked] ++ [LGet 2 RBlocked] ++ [LCall (Add 7) RNone] ++ [LCancelNotified 1]).
  eexists. split.
  { rewrite !app_assoc. eapply reach_snoc; [eapply reach_snoc; [eapply reach_snoc; [eapply reach_snoc|]|]|].
    - apply reach_nil.
    - apply (st_get _ 1); [set_solver..|]. vm_compute. reflexivity.
    - apply (st_get _ 2); [set_solver..|]. vm_compute. reflexivity.
    - apply (st_add _ 7).
    - apply (st_cancel_notified _ 1 [] []). vm_compute. reflexivity. }
  vm_compute. done.
Qed.

(** ** The hypotheses are met by real histories *)
Definition demo : list (wop nat * wres nat) :=
  [(Add 1, RNone); (Add 2, RNone); (Get, RItem 1); (Add 1, RNone); (Add 1, RNone);
   (Get, RItem 2); (Get, RBlocked); (Done 1, RNone); (Get, RItem 1); (Done 2, RNone);
   (Done 2, RKeyError); (Add 3, RNone); (ShutDown, RNone); (Add 4, RNone); (Get, RItem 3);
   (Get, RShutdown); (Done 1, RNone)].
Example demo_exec : ∃ q, exec wstep wq_init demo q.
Proof. eexists. apply exec_check. vm_compute. reflexivity. Qed.
(** C01/C03: item 1 delivered twice *)
Example C01_case : ∃ h1 h2 h3, demo = h1 ++ (Get, RItem 1) :: h2 ++ (Get, RItem 1) :: h3.
Proof. by exists (take 2 demo), (take 5 (drop 3 demo)), (drop 9 demo). Qed.
(** C02: item 1 owed but in hand, then owed and free *)
Example C02_case : owed 1 (take 7 demo) ∧ in_hand 1 (take 7 demo) ∧
  owed 1 (take 8 demo) ∧ ¬ in_hand 1 (take 8 demo).
Proof.
  split_and!.
  - exists (take 3 demo), (drop 4 (take 7 demo)). vm_compute. unfold shut. set_solver.
  - exists (take 2 demo), (drop 3 (take 7 demo)). vm_compute. set_solver.
  - exists (take 3 demo), (drop 4 (take 8 demo)). vm_compute. unfold shut. set_solver.
  - assert (∃ q, exec wstep wq_init (take 8 demo) q ∧ 1 ∉ wq_proc q) as (q & Hq & Hn).
    { eexists. split; [apply exec_check; vm_compute; reflexivity|]. vm_compute. set_solver. }
    rewrite <-(inv_proc _ _ (wq_inv_exec _ _ Hq)). done.
Qed.
(** C04: 1 then 2 *)
Example C04_case : ∃ h3 h4, demo = [] ++ (Add 1, RNone) :: [] ++ (Add 2, RNone) :: h3 ++ (Get, RItem 2) :: h4 ∧
  ¬ shut (A:=nat) [] ∧ ¬ in_hand 1 [] ∧ ¬ owed 2 ([] ++ (Add 1, RNone) :: []).
Proof.
  exists (take 3 (drop 2 demo)), (drop 6 demo). split; [done|]. split; [apply shut_nil|].
  split; [apply in_hand_nil|]. rewrite owed_snoc. intros [[? _]|[?%owed_nil _]]; done.
Qed.
(** C05: 3 is delivered after the shutdown *)
Example C05_case : ∃ h1 h2, demo = h1 ++ (ShutDown, RNone) :: h2 ∧ delivered 3 h2.
Proof. exists (take 12 demo), (drop 13 demo). split; [done|]. vm_compute. set_solver. Qed.
(** C06: a waiting consumer, no cancellation *)
Example C06_case : ∃ (ls : list (slabel nat)) s, reach strans sched_init ls s ∧
  Forall (λ l, is_cancel_notified l = false) ls ∧ s_notified s = [] ∧ s_waiting s ≠ [].
Proof.
  exists ([] ++ [LGet 1 RBlocked] ++ [LGet 2 RBlocked] ++ [LCall (Add 7) RNone] ++ [LRun 1 (RItem 7)]).
  eexists. split.
  { rewrite !app_assoc. eapply reach_snoc; [eapply reach_snoc; [eapply reach_snoc; [eapply reach_snoc|]|]|].
    - apply reach_nil.
    - apply (st_get _ 1); [set_solver..|]. vm_compute. reflexivity.
    - apply (st_get _ 2); [set_solver..|]. vm_compute. reflexivity.
    - apply (st_add _ 7).
    - apply (st_run _ 1 [] []); vm_compute; reflexivity. }
  split; [repeat constructor|]. vm_compute. done.
Qed.
(** C07 *)
Example C07_case : ∃ q, exec wstep wq_init (take 8 demo) q ∧ wq_len q = 1.
Proof. eexists. split; [apply exec_check; vm_compute; reflexivity|]. vm_compute. reflexivity. Qed.

Print Assumptions C01_schedules_are_histories.
Print Assumptions C01_no_concurrent_processing.
Print Assumptions C01_in_every_schedule.
Print Assumptions C02_owed_is_delivered.
Print Assumptions C02_owed_after_done.
Print Assumptions C03_redelivery_needs_new_add.
Print Assumptions C03_delivery_needs_add.
Print Assumptions C04_fifo_order.
Print Assumptions C05_after_shutdown.
Print Assumptions C05_drains_only_old_items_once.
Print Assumptions C06_no_lost_wakeup.
Print Assumptions C06_quiescence.
Print Assumptions C06_cancelled_getter_loses_wakeup_refuted.
Print Assumptions C07_len_counts_gets.
Print Assumptions C07_done_misuse.
