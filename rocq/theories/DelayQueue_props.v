(** Properties C09-C12: the delaying queue
    (aiok8s/workqueue/delaying_queue.py, class _DelayingType). *)
From Verif Require Import Base WorkQueue_model WorkQueue_spec WaitPQ_model DelayQueue_model
  DelayQueue_spec DelayQueue_proofs.
From Coq Require Import ZArith.
Open Scope Z_scope.

Section props.
  Context {A : Type} `{EqDecision A}.
  Implicit Types (ls : list (dlabel A)) (s : dq A) (x : A).

  (** C09 *)
  Theorem C09_never_early t ls s l1 l2 x T :
    reach dtrans (dq_init t) ls s → ls = l1 ++ DGet (RItem x) T :: l2 → authorised l1 x T.
  Proof. exact (never_early t ls s l1 l2 x T). Qed.
  (** no more deliveries than requests *)
  Theorem C09_deliveries_bounded t ls s x :
    reach dtrans (dq_init t) ls s → (deliveries x ls ≤ requests_for x ls)%nat.
  Proof. exact (deliveries_le t ls s x). Qed.

  (** C10: nothing is forgotten ... *)
  Theorem C10_not_forgotten t ls s l1 l2 x d t0 :
    reach dtrans (dq_init t) ls s → dq_stop s = false → ls = l1 ++ DAddAfter x d t0 :: l2 →
    (∃ T, DGet (RItem x) T ∈ l2) ∨ ready_owed x s ∨ ∃ r, (x, r) ∈ dq_tracked s ∧ r ≤ t0 + d.
  Proof. exact (not_lost t ls s l1 l2 x d t0). Qed.
  (** ... a sleeping loop has a timer armed for the earliest waiting deadline ... *)
  Theorem C10_sleeps_until_earliest t ls s tm :
    reach dtrans (dq_init t) ls s → dq_pc s = LWait tm →
    match tm with
    | None => live (dq_pq s) = []
    | Some r => (∃ x, (x, r) ∈ live (dq_pq s)) ∧ ∀ e, e ∈ live (dq_pq s) → r ≤ e.2
    end.
  Proof. exact (sleeping_timer t ls s tm). Qed.
  (** ... the machinery, left alone, settles in a bounded number of steps with
      nothing in transit and only future deadlines tracked ... *)
  Theorem C10_settles t ls s : reach dtrans (dq_init t) ls s → dq_stop s = false →
    ∃ ls' s', reach dtrans s ls' s' ∧ Forall internal ls' ∧
      (length ls' ≤ 4 * (length (dq_puts s) + length (dq_incoming s)) + 4)%nat ∧
      dq_now s' = dq_now s ∧ dq_stop s' = false ∧
      dq_puts s' = [] ∧ dq_incoming s' = [] ∧ ∀ e, e ∈ dq_tracked s' → dq_now s' < e.2.
  Proof. exact (settle t ls s). Qed.
  (** ... so that what is due becomes available. *)
  Theorem C10_due_becomes_ready t ls s l1 l2 x d t0 :
    reach dtrans (dq_init t) ls s → dq_stop s = false →
    ls = l1 ++ DAddAfter x d t0 :: l2 → t0 + d ≤ dq_now s →
    ∃ ls' s', reach dtrans s ls' s' ∧ Forall internal ls' ∧
      (length ls' ≤ 4 * (length (dq_puts s) + length (dq_incoming s)) + 4)%nat ∧
      dq_now s' = dq_now s ∧ ((∃ T, DGet (RItem x) T ∈ l2) ∨ ready_owed x s').
  Proof. exact (due_becomes_ready t ls s l1 l2 x d t0). Qed.

  (** C11: what shut_down really does.  Whatever was called, the queue keeps
      accepting adds and never answers a get with the shutdown signal ... *)
  Theorem C11_never_shuts_down t ls s : reach dtrans (dq_init t) ls s →
    wq_down (dq_base s) = false ∧ (wstep (dq_base s) Get).2 ≠ RShutdown ∧
    (∀ x s', dtrans s (DAdd x) s' → ready_owed x s').
  Proof. exact (never_down t ls s). Qed.
  (** ... and once the background loop has returned, what is still delayed stays
      so for ever. *)
  Theorem C11_delayed_items_stranded t ls s ls' s' x :
    reach dtrans (dq_init t) ls s → dq_pc s = LEnd → x ∉ wq_dirty (dq_base s) →
    reach dtrans s ls' s' → DAdd x ∉ ls' → (∀ d T, DAddAfter x d T ∈ ls' → 0 < d) →
    (∀ T, DGet (RItem x) T ∉ ls') ∧ dq_pq s' = dq_pq s.
  Proof. exact (stranded t ls s ls' s' x). Qed.

  (** C12 (see also WaitPQ_props.v) *)
  Theorem C12_one_deadline_per_item t ls s :
    reach dtrans (dq_init t) ls s → NoDup (live (dq_pq s)).*1.
  Proof. exact (one_entry_per_item t ls s). Qed.
End props.


(** one item delayed by 10 and by 5, one by 7; released at 5 and 8 *)
Definition dq_demo : list (dlabel nat) :=
  [DAddAfter 1%nat 10 0; DAddAfter 2%nat 7 0; DLoopTop; DPut; DTake; DResume; DLoopTop; DPut; DTake; DResume;
   DAddAfter 1%nat 5 0; DLoopTop; DPut; DTake; DResume; DLoopTop; DTick 5; DGet RBlocked 5; DWakeTimer; DLoopTop;
   DGet (RItem 1%nat) 5; DDone 1%nat RNone; DTick 8; DGet RBlocked 8; DWakeTimer; DLoopTop; DGet (RItem 2%nat) 8].
Lemma dq_demo_reach n : ∃ s, reach dtrans (dq_init 0) (take n dq_demo) s.
Proof.
  assert (∃ s, reach dtrans (dq_init 0) dq_demo s) as [s Hs].
  { eexists. unfold dq_demo.
    do_step (apply dt_add_after).
    do_step (apply dt_add_after).
    do_step (apply dt_top; vm_compute; reflexivity).
    do_step (eapply (dt_put _ _ []); [vm_compute; reflexivity|vm_compute; lia]).
    do_step (eapply dt_take; vm_compute; reflexivity).
    do_step (eapply dt_resume; vm_compute; reflexivity).
    do_step (apply dt_top; vm_compute; reflexivity).
    do_step (eapply (dt_put _ _ []); [vm_compute; reflexivity|vm_compute; lia]).
    do_step (eapply dt_take; vm_compute; reflexivity).
    do_step (eapply dt_resume; vm_compute; reflexivity).
    do_step (apply dt_add_after).
    do_step (apply dt_top; vm_compute; reflexivity).
    do_step (eapply (dt_put _ _ []); [vm_compute; reflexivity|vm_compute; lia]).
    do_step (eapply dt_take; vm_compute; reflexivity).
    do_step (eapply dt_resume; vm_compute; reflexivity).
    do_step (apply dt_top; vm_compute; reflexivity).
    do_step (apply dt_tick; vm_compute; discriminate).
    do_step (match goal with |- dtrans ?s _ _ => eapply (dt_get s) end; vm_compute; reflexivity).
    do_step (eapply dt_wake_timer; [vm_compute; reflexivity|vm_compute; discriminate]).
    do_step (apply dt_top; vm_compute; reflexivity).
    do_step (match goal with |- dtrans ?s _ _ => eapply (dt_get s) end; vm_compute; reflexivity).
    do_step (eapply dt_done; vm_compute; reflexivity).
    do_step (apply dt_tick; vm_compute; discriminate).
    do_step (match goal with |- dtrans ?s _ _ => eapply (dt_get s) end; vm_compute; reflexivity).
    do_step (eapply dt_wake_timer; [vm_compute; reflexivity|vm_compute; discriminate]).
    do_step (apply dt_top; vm_compute; reflexivity).
    do_step (match goal with |- dtrans ?s _ _ => eapply (dt_get s) end; vm_compute; reflexivity).
    apply reach_nil. }
  rewrite <-(take_drop n dq_demo) in Hs. apply reach_app_inv in Hs as (s1 & ? & _). eauto.
Qed.
Example C09_case : ∃ s, reach dtrans (dq_init 0) dq_demo s ∧
  dq_demo = take 20 dq_demo ++ DGet (RItem 1%nat) 5 :: drop 21 dq_demo.
Proof. destruct (dq_demo_reach 27) as [s Hs]. by exists s. Qed.
Example C10_case : ∃ s l1 l2, reach dtrans (dq_init 0) (take 18 dq_demo) s ∧
  take 18 dq_demo = l1 ++ DAddAfter 1%nat 5 0 :: l2 ∧ (∀ T, DGet (RItem 1%nat) T ∉ l2).
Proof.
  destruct (dq_demo_reach 18) as [s Hs]. exists s, (take 10 dq_demo), (take 7 (drop 11 dq_demo)).
  split; [done|]. split; [done|]. intros T. cbn. rewrite !elem_of_cons, elem_of_nil. intuition discriminate.
Qed.

(** C11 as stated is false: after shut_down a getter still blocks, and an item
    due later is never handed out. *)
Theorem C11_shut_down_refuted :
  ∃ (ls : list (dlabel nat)) s, reach dtrans (dq_init 0) ls s ∧ DShutDown ∈ ls ∧
    wq_down (dq_base s) = false ∧ (wstep (dq_base s) Get).2 = RBlocked ∧
    dq_pc s = LEnd ∧ 10 < dq_now s ∧ (1%nat, 10) ∈ dq_tracked s.
Proof.
  exists [DAddAfter 1%nat 10 0; DLoopTop; DPut; DTake; DResume; DLoopTop; DShutDown; DWakeStop; DTick 11].
  eexists. split.
  { do_step (apply dt_add_after).
    do_step (apply dt_top; vm_compute; reflexivity).
    do_step (eapply (dt_put _ _ []); [vm_compute; reflexivity|vm_compute; lia]).
    do_step (eapply dt_take; vm_compute; reflexivity).
    do_step (eapply dt_resume; vm_compute; reflexivity).
    do_step (apply dt_top; vm_compute; reflexivity).
    do_step (apply dt_shut).
    do_step (eapply dt_wake_stop; vm_compute; reflexivity).
    do_step (apply dt_tick; vm_compute; discriminate).
    apply reach_nil. }
  split; [set_solver|]. vm_compute. repeat split; try done. set_solver.
Qed.

Print Assumptions C09_never_early.
Print Assumptions C09_deliveries_bounded.
Print Assumptions C10_not_forgotten.
Print Assumptions C10_sleeps_until_earliest.
Print Assumptions C10_settles.
Print Assumptions C10_due_becomes_ready.
Print Assumptions C11_never_shuts_down.
Print Assumptions C11_delayed_items_stranded.
Print Assumptions C11_shut_down_refuted.
Print Assumptions C12_one_deadline_per_item.
