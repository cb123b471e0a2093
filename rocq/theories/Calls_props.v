(** C87: no call is forgotten.  Every call of [get] on a work queue, of any
    method on a FIFO or a DeltaFIFO, and every [put] that [add_after] starts, is
    answered, cancelled, or still under way, once each; and once the queue is
    shut down or closed, every call under way can end by itself. *)
From Verif Require Import Base WorkQueue_model WorkQueueSched_model Fifo_model FifoSched_model FifoSched_proofs
  WaitPQ_model DelayQueue_model DeltaFifo_model DeltaFifoSched_model Calls_spec Calls_proofs.
Open Scope nat_scope.

Section wq.
  Context {A : Type} `{EqDecision A}.
  Theorem C87_gets_accounted (ls : list (slabel A)) s : reach strans sched_init ls s →
    ls ≫= get_begun ≡ₚ (ls ≫= get_ended) ++ in_get s.
  Proof. exact (gets_accounted ls s). Qed.
  (** after [shut_down], letting each notified caller run once ends every [get] *)
  Theorem C87_gets_end_after_shut_down (ls : list (slabel A)) s : reach strans sched_init ls s → LCall ShutDown RNone ∈ ls →
    ∃ ls' s', reach strans s ls' s' ∧ Forall (λ l, ∃ t r, l = LRun t r ∧ r ≠ RBlocked) ls' ∧
      length ls' = length (in_get s) ∧ in_get s' = [].
  Proof. exact (gets_all_end ls s). Qed.
  Theorem C87_puts_accounted t ls (s : dq A) : reach dtrans (dq_init t) ls s →
    sum_list (puts_begun <$> ls) = sum_list (puts_ended <$> ls) + length (dq_puts s).
  Proof. exact (puts_accounted t ls s). Qed.
End wq.

Section fifo.
  Context {K O T : Type} `{EqDecision K} `{EqDecision T} (keyf : O → option K).
  Theorem C87_fifo_calls_accounted ls (y : fsys K O T) : reach (ytrans keyf) fsys_init ls y →
    ls ≫= call_begun ≡ₚ (ls ≫= call_ended) ++ in_call y.
  Proof. exact (calls_accounted keyf ls y). Qed.
  Theorem C87_fifo_calls_end_after_close ls (y : fsys K O T) : reach (ytrans keyf) fsys_init ls y → Exists closes ls →
    ∃ ls' y', reach (ytrans keyf) y ls' y' ∧ Forall (λ l, ∃ t r, l = YResume t r ∧ r ≠ FBlocked) ls' ∧
      length ls' = length (in_call y) ∧ in_call y' = [].
  Proof. exact (calls_all_end keyf ls y). Qed.
  Theorem C87_delta_calls_accounted ls (z : zsys K O T) : reach (ztrans keyf) zsys_init ls z →
    ls ≫= dcall_begun ≡ₚ (ls ≫= dcall_ended) ++ in_dcall z.
  Proof. exact (dcalls_accounted keyf ls z). Qed.
  (** here the callback under way has to return, as do those of the pops that
      still find something *)
  Theorem C87_delta_calls_end_after_close ls (z : zsys K O T) : reach (ztrans keyf) zsys_init ls z → Exists zcloses ls →
    ∃ ls' z', reach (ztrans keyf) z ls' z' ∧
      Forall (λ l, (∃ t c r, l = ZGo t c r ∧ r ≠ DBlocked ∧ r ≠ DLockWait) ∨ ∃ t ds, l = ZFinish t DOk (DItem ds)) ls' ∧
      in_dcall z' = [].
  Proof. exact (dcalls_all_end keyf ls z). Qed.
End fifo.

(** *** Cases: calls under way when the queue ends *)
Example C87_get_case : ∃ ls (s : sched nat), reach strans sched_init ls s ∧ LCall ShutDown RNone ∈ ls ∧ in_get s = [1; 3] ∧
  ls = [LGet 1 RBlocked; LGet 2 RBlocked; LCall (Add 7) RNone; LGet 3 (RItem 7); LCancelWaiting 2; LRun 1 RBlocked; LGet 3 RBlocked;
        LCall ShutDown RNone].
Proof.
  eexists _, _. split; [|split; [|split; [|reflexivity]]].
  - do_step (apply (st_get sched_init 1); [set_solver..|reflexivity]).
    do_step (apply (st_get _ 2); [set_solver..|reflexivity]).
    do_step (apply (st_add _ 7)).
    do_step (apply (st_get _ 3); [set_solver..|reflexivity]).
    do_step (apply (st_cancel_waiting _ 2 [] []); reflexivity).
    do_step (apply (st_run _ 1 [] []); reflexivity).
    do_step (apply (st_get _ 3); [set_solver..|reflexivity]).
    do_step (apply st_shut).
    apply reach_nil.
  - set_solver.
  - reflexivity.
Qed.
Definition ckey (o : nat * nat) : option nat := Some o.1.
Example C87_fifo_case : ∃ ls (y : fsys nat (nat * nat) nat), reach (ytrans ckey) fsys_init ls y ∧ Exists closes ls ∧ in_call y = [1; 2] ∧
  ls = [YCall 1 (FPop (λ _, POk)) FBlocked; YCall 2 (FPop (λ _, POk)) FBlocked; YCall 3 FClose FNone].
Proof.
  eexists _, _. split; [|split; [|split; [|reflexivity]]].
  - do_step (eapply (yt_call _ fsys_init 1 (FPop (λ _, POk))); reflexivity).
    do_step (eapply (yt_call _ _ 2 (FPop (λ _, POk))); reflexivity).
    do_step (eapply (yt_call _ _ 3 FClose); reflexivity).
    apply reach_nil.
  - do 2 apply Exists_cons_tl. apply Exists_cons_hd. by eexists _, _.
  - reflexivity.
Qed.
Example C87_delta_case : ∃ ls (z : zsys nat (nat * nat) nat), reach (ztrans ckey) zsys_init ls z ∧ Exists zcloses ls ∧ in_dcall z = [2; 5; 4] ∧
  ls = [ZCall 1 DPop DBlocked; ZCall 2 DPop DBlocked; ZCancel 1; ZCall 4 DClose DNone; ZCall 3 (DAdd (DObj (5, 50))) DNone;
        ZCall 4 DPop (DPopped [(DtAdded, DObj (5, 50))]); ZQueue 5 (DAdd (DObj (5, 51)))].
Proof.
  eexists _, _. split; [|split; [|split; [|reflexivity]]].
  - do_step (eapply (zt_call _ zsys_init 1 DPop); [reflexivity|reflexivity|done]).
    do_step (eapply (zt_call _ _ 2 DPop); [reflexivity|reflexivity|done]).
    do_step (eapply (zt_cancel_waiting _ _ 1 [] [2]); reflexivity).
    do_step (eapply (zt_call _ _ 4 DClose); [reflexivity|reflexivity|done]).
    do_step (eapply (zt_call _ _ 3 (DAdd (DObj (5, 50)))); [reflexivity|reflexivity|done]).
    do_step (eapply (zt_call _ _ 4 DPop); [reflexivity|reflexivity|done]).
    do_step (eapply (zt_queue _ _ 5 (DAdd (DObj (5, 51)))); reflexivity).
    apply reach_nil.
  - do 3 apply Exists_cons_tl. apply Exists_cons_hd. exists 4. by left.
  - reflexivity.
Qed.
Example C87_put_case : ∃ ls (s : dq nat), reach dtrans (dq_init 0%Z) ls s ∧ length (dq_puts s) = 1 ∧
  ls = [DAddAfter 1 5%Z 0%Z; DAddAfter 2 0%Z 0%Z; DAddAfter 3 7%Z 0%Z; DAddAfter 4 8%Z 0%Z; DPut; DShutDown; DPutCancel].
Proof.
  eexists _, _. split; [|split; [|reflexivity]].
  - do_step (apply (dt_add_after (dq_init 0%Z) 1 5%Z)).
    do_step (idtac; match goal with |- dtrans ?s _ _ => apply (dt_add_after s 2 0%Z) end).
    do_step (idtac; match goal with |- dtrans ?s _ _ => apply (dt_add_after s 3 7%Z) end).
    do_step (idtac; match goal with |- dtrans ?s _ _ => apply (dt_add_after s 4 8%Z) end).
    do_step (eapply (dt_put _ (3, 7%Z) [(1, 5%Z)] [(4, 8%Z)]); [reflexivity|vm_compute; lia]).
    do_step (apply dt_shut).
    do_step (eapply (dt_put_cancel _ (1, 5%Z) [] [(4, 8%Z)]); reflexivity).
    apply reach_nil.
  - reflexivity.
Qed.

Print Assumptions C87_gets_accounted.
Print Assumptions C87_gets_end_after_shut_down.
Print Assumptions C87_puts_accounted.
Print Assumptions C87_fifo_calls_accounted.
Print Assumptions C87_fifo_calls_end_after_close.
Print Assumptions C87_delta_calls_accounted.
Print Assumptions C87_delta_calls_end_after_close.
