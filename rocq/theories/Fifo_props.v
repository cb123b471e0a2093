(** Properties C18-C23: the FIFO store queue (aiok8s/cache/fifo.py). *)
From Verif Require Import Base Fifo_model Fifo_spec Fifo_proofs FifoSched_model FifoSched_proofs.

Section props.
  Context {K O : Type} `{EqDecision K} (keyf : O → option K).

  (** C18: what is readable is what the history stored and did not yet hand
      out, delete or replace ([stored] is computed from the history alone) *)
  Theorem C18_readable_until_disposed h (s : fifo K O) : exec (fstep keyf) fifo_init h s →
    (∀ k, (fstep keyf s (FGetByKey k)).2 = FOpt (stored keyf k (reverse h))) ∧
    (∃ ks, (fstep keyf s FListKeys).2 = FKeys ks ∧ NoDup ks ∧ ∀ k, k ∈ ks ↔ is_Some (stored keyf k (reverse h))).
  Proof. exact (fifo_reads keyf h s). Qed.
  (** [pop] hands out the value last stored under its key *)
  Theorem C18_latest_value h (s : fifo K O) p o : exec (fstep keyf) fifo_init h s →
    (fstep keyf s (FPop p)).2 = FItem o ∨ (fstep keyf s (FPop p)).2 = FProcessError o →
    ∃ k, keyf o = Some k ∧ stored keyf k (reverse h) = Some o.
  Proof. exact (fifo_pop_latest keyf h s p o). Qed.
  (** two deliveries for one key have a storing call in between (possibly the
      first delivery itself, if its callback asked for the object to be put back) *)
  Theorem C18_delivered_once h1 h2 h3 (s : fifo K O) e1 o1 e2 o2 k :
    exec (fstep keyf) fifo_init (h1 ++ e1 :: h2 ++ e2 :: h3) s →
    hands_out o1 e1 → hands_out o2 e2 → keyf o1 = Some k → keyf o2 = Some k →
    ∃ e, e ∈ e1 :: h2 ∧ stores keyf k e.
  Proof. exact (fifo_once keyf h1 h2 h3 s e1 o1 e2 o2 k). Qed.
  (** popping hands out exactly the stored objects, each once, and then finds
      nothing: nothing is lost *)
  Theorem C18_nothing_lost h (s : fifo K O) p : exec (fstep keyf) fifo_init h s → (∀ o, ¬ put_back p o) →
    ∃ l s', exec (fstep keyf) s ((λ o, (FPop p, plain_answer p o)) <$> l) s' ∧ NoDup l ∧
      (∀ o, o ∈ l ↔ ∃ k, stored keyf k (reverse h) = Some o) ∧ found_nothing (FPop p, (fstep keyf s' (FPop p)).2).
  Proof. exact (fifo_drain keyf h s p). Qed.

  (** C19 *)
  Theorem C19_deleted_not_delivered h1 h2 h3 (s : fifo K O) e1 e2 o k :
    exec (fstep keyf) fifo_init (h1 ++ e1 :: h2 ++ e2 :: h3) s →
    deletes keyf k e1 → hands_out o e2 → keyf o = Some k → ∃ e, e ∈ h2 ∧ stores keyf k e.
  Proof. exact (fifo_delete_stops keyf h1 h2 h3 s e1 e2 o k). Qed.
  Theorem C19_delete_absent h (s : fifo K O) o k : exec (fstep keyf) fifo_init h s → keyf o = Some k →
    ((fstep keyf s (FDelete o)).2 = FKeyError ↔ stored keyf k (reverse h) = None) ∧
    (stored keyf k (reverse h) = None →
      ∀ j, (fstep keyf (fstep keyf s (FDelete o)).1 (FGetByKey j)).2 = (fstep keyf s (FGetByKey j)).2).
  Proof. exact (fifo_delete_absent keyf h s o k). Qed.

  (** C20: the queue is first populated by [replace(l)] and not replaced again.
      Before: false.  True only if every object of [l] was handed out or deleted ... *)
  Theorem C20_not_before h (s : fifo K O) : exec (fstep keyf) fifo_init h s → (∀ e, e ∈ h → ¬ populates keyf e) →
    (fstep keyf s FHasSynced).2 = FBool false.
  Proof. exact (synced_never_before keyf h s). Qed.
  Theorem C20_synced_means_disposed h0 l h (s : fifo K O) :
    exec (fstep keyf) fifo_init (h0 ++ (FReplace l, FNone) :: h) s →
    (∀ e, e ∈ h0 → ¬ populates keyf e) → (∀ e, e ∈ h → ¬ is_replace e) →
    (fstep keyf s FHasSynced).2 = FBool true →
    ∀ o k, o ∈ l → keyf o = Some k → ∃ e, e ∈ h ∧ disposes keyf k e.
  Proof. exact (synced_sound keyf h0 l h s). Qed.
  (** ... true once every key of [l] was handed out, and once [pop] found the
      queue empty *)
  Theorem C20_synced_when_all_popped h0 l h (s : fifo K O) :
    exec (fstep keyf) fifo_init (h0 ++ (FReplace l, FNone) :: h) s →
    (∀ e, e ∈ h0 → ¬ populates keyf e) → (∀ e, e ∈ h → ¬ is_replace e) →
    (∀ o k, o ∈ l → keyf o = Some k → ∃ e o', e ∈ h ∧ hands_out o' e ∧ keyf o' = Some k) →
    (fstep keyf s FHasSynced).2 = FBool true.
  Proof. exact (synced_complete keyf h0 l h s). Qed.
  Theorem C20_synced_when_drained h0 l h (s : fifo K O) e :
    exec (fstep keyf) fifo_init (h0 ++ (FReplace l, FNone) :: h ++ [e]) s →
    (∀ e, e ∈ h0 → ¬ populates keyf e) → (∀ e, e ∈ h → ¬ is_replace e) → found_nothing e →
    (fstep keyf s FHasSynced).2 = FBool true.
  Proof. exact (synced_drained keyf h0 l h s e). Qed.

  (** C21 *)
  Theorem C21_resync_changes_nothing h (s : fifo K O) : exec (fstep keyf) fifo_init h s →
    fstep keyf s FResync = (s, FNone).
  Proof. exact (fifo_resync_noop keyf h s). Qed.

  (** C22 *)
  Theorem C22_outcomes h (s : fifo K O) p o :
    exec (fstep keyf) fifo_init h s → hands_out o (FPop p, (fstep keyf s (FPop p)).2) →
    ∃ k, keyf o = Some k ∧ let s' := (fstep keyf s (FPop p)).1 in
      (fstep keyf s (FPop p)).2 = match p o with POk | PRequeue false => FItem o | _ => FProcessError o end ∧
      (fstep keyf s' (FGetByKey k)).2 = FOpt (match p o with PRequeue _ => Some o | _ => None end) ∧
      (∀ j, j ≠ k → (fstep keyf s' (FGetByKey j)).2 = (fstep keyf s (FGetByKey j)).2).
  Proof. exact (fifo_pop_outcome keyf h s p o). Qed.
  (** an object put back goes last, if no delete left a stale queue entry *)
  Theorem C22_put_back_goes_last h (s : fifo K O) p o q l s'' :
    exec (fstep keyf) fifo_init h s → (∀ x, (FDelete x, FNone) ∉ h) →
    hands_out o (FPop p, (fstep keyf s (FPop p)).2) → put_back p o → (∀ x, ¬ put_back q x) →
    exec (fstep keyf) (fstep keyf s (FPop p)).1 ((λ x, (FPop q, plain_answer q x)) <$> l) s'' →
    found_nothing (FPop q, (fstep keyf s'' (FPop q)).2) → last l = Some o.
  Proof. exact (fifo_requeue_last keyf h s p o q l s''). Qed.

  (** C23 *)
  Theorem C23_fifo_closed_pop h (s : fifo K O) p : exec (fstep keyf) fifo_init h s → (∃ r, (FClose, r) ∈ h) →
    (fstep keyf s (FPop p)).2 ≠ FBlocked ∧
    ((fstep keyf s (FPop p)).2 = FClosedError ↔ ∀ k, stored keyf k (reverse h) = None).
  Proof. exact (fifo_closed_pop keyf h s p). Qed.
  (** schedules with any number of tasks and cancellations: a task is left
      waiting only while the queue is open and empty *)
  Theorem C23_fifo_no_lost_wakeup {T} `{EqDecision T} ls (y : fsys K O T) :
    reach (ytrans keyf) fsys_init ls y → y_waiting y ≠ [] →
    (fstep keyf (y_fifo y) FListKeys).2 = FKeys [] ∧ (fstep keyf (y_fifo y) FIsClosed).2 = FBool false.
  Proof. exact (no_stuck_waiter keyf ls y). Qed.
  (** after [close] nobody waits and no turn of any task ends waiting *)
  Theorem C23_fifo_close_releases_everyone {T} `{EqDecision T} ls (y : fsys K O T) l y' :
    reach (ytrans keyf) fsys_init ls y → Exists closes ls → ytrans keyf y l y' →
    y_waiting y = [] ∧ (∀ t c, l ≠ YCall t c FBlocked) ∧ (∀ t, l ≠ YResume t FBlocked).
  Proof. exact (closed_turns keyf ls y l y'). Qed.
  Theorem C23_fifo_woken_tasks_can_run {T} `{EqDecision T} (y : fsys K O T) t p w1 w2 :
    y_woken y = w1 ++ (t, p) :: w2 → ∃ r y', ytrans keyf y (YResume t r) y'.
  Proof. exact (woken_runs keyf y t p w1 w2). Qed.
End props.

(** *** Concrete cases.  Objects are (key, value) pairs; key 9 has no key. *)
Definition tkey (o : nat * nat) : option nat := if decide (o.1 = 9) then None else Some o.1.
Definition ok : nat * nat → outcome := λ _, POk.
Definition again : nat * nat → outcome := λ _, PRequeue false.

(** replace, overwrite, delete, re-add, put back, pop to the end *)
Definition fcase : list (fop nat (nat * nat)) :=
  [FHasSynced; FReplace [(1, 10); (2, 20); (1, 11); (3, 30)]; FAdd (2, 21); FHasSynced; FDelete (3, 0); FDelete (3, 0);
   FPop again; FPop ok; FAddIfNotPresent (1, 99); FHasSynced; FPop (λ _, PFail); FHasSynced; FPop ok; FHasSynced; FClose; FAdd (9, 0);
   FAdd (7, 70); FPop ok; FPop ok].
Definition fcase_answers : list (fres nat (nat * nat)) :=
  [FBool false; FNone; FNone; FBool false; FNone; FKeyError;
   FItem (1, 11); FItem (2, 21); FNone; FBool false; FProcessError (1, 11); FBool true; FBlocked; FBool true; FNone; FStoreKeyError (9, 0);
   FNone; FItem (7, 70); FClosedError].
Example fcase_runs : exec (fstep tkey) fifo_init (zip fcase fcase_answers) (fst (run (fstep tkey) fifo_init fcase)).
Proof. by apply exec_check. Qed.

(** C20 without the restriction to one replace fails: the second, shorter list
    leaves the counter above zero although everything was popped *)
Theorem C20_second_replace_refuted : ∃ h s,
  exec (fstep tkey) fifo_init ((FReplace [(1, 10); (2, 20)], FNone) :: h) s ∧
  found_nothing (FPop ok, (fstep tkey s (FPop ok)).2) ∧ (fstep tkey s FHasSynced).2 = FBool false ∧
  (fstep tkey (fstep tkey s (FPop ok)).1 FHasSynced).2 = FBool false.
Proof.
  exists [(FReplace [(1, 10)], FNone); (FPop ok, FItem (1, 10))], (fst (run (fstep tkey) fifo_init [FReplace [(1, 10); (2, 20)]; FReplace [(1, 10)]; FPop ok])).
  split; [by apply exec_check|]. split; [exists ok; by left|]. by split.
Qed.

(** C22 without the restriction to histories without delete fails: the object
    put back is handed out before one that was queued earlier, through the
    stale queue entry left by the delete *)
Theorem C22_put_back_goes_last_refuted : ∃ h s l s'',
  exec (fstep tkey) fifo_init h s ∧ (fstep tkey s (FPop again)).2 = FItem (1, 11) ∧
  exec (fstep tkey) (fstep tkey s (FPop again)).1 ((λ x, (FPop ok, plain_answer ok x)) <$> l) s'' ∧
  found_nothing (FPop ok, (fstep tkey s'' (FPop ok)).2) ∧ l = [(1, 11); (2, 20)].
Proof.
  set (os := [FAdd (1, 10); FDelete (1, 10); FAdd (1, 11); FAdd (2, 20)] : list (fop nat (nat * nat))).
  exists (zip os [FNone; FNone; FNone; FNone]), (fst (run (fstep tkey) fifo_init os)), [(1, 11); (2, 20)],
    (fst (run (fstep tkey) fifo_init (os ++ [FPop again; FPop ok; FPop ok]))).
  split; [by apply exec_check|]. split; [done|]. split; [by apply exec_check|]. split; [exists ok; by left|done].
Qed.

(** three tasks: two wait, one of them is cancelled, close wakes the other *)
Example C23_case : ∃ ls y, reach (ytrans tkey) fsys_init ls y ∧ Exists closes ls ∧
  ls = [YCall 1 (FPop ok) FBlocked; YCall 2 (FPop ok) FBlocked; YCall 3 (FAdd (5, 50)) FNone; YResume 2 (FItem (5, 50));
        YResume 1 FBlocked; YCall 2 (FPop ok) FBlocked; YCancel 2; YCall 3 FClose FNone; YResume 1 FClosedError].
Proof.
  eexists _, _. split; [|split; [|reflexivity]].
  - do_step (eapply (yt_call _ fsys_init 1 (FPop ok)); reflexivity).
    do_step (eapply (yt_call _ _ 2 (FPop ok)); reflexivity).
    do_step (eapply (yt_call _ _ 3 (FAdd (5, 50))); reflexivity).
    do_step (eapply (yt_resume _ _ 2 ok [(1, ok)] []); reflexivity).
    do_step (eapply (yt_resume _ _ 1 ok [] []); reflexivity).
    do_step (eapply (yt_call _ _ 2 (FPop ok)); reflexivity).
    do_step (eapply (yt_cancel_waiting _ _ 2 ok [(1, ok)] []); reflexivity).
    do_step (eapply (yt_call _ _ 3 FClose); reflexivity).
    do_step (eapply (yt_resume _ _ 1 ok [] []); reflexivity).
    apply reach_nil.
  - do 7 apply Exists_cons_tl. apply Exists_cons_hd. by eexists _, _.
Qed.

Print Assumptions C18_readable_until_disposed.
Print Assumptions C18_latest_value.
Print Assumptions C18_delivered_once.
Print Assumptions C18_nothing_lost.
Print Assumptions C19_deleted_not_delivered.
Print Assumptions C19_delete_absent.
Print Assumptions C20_not_before.
Print Assumptions C20_synced_means_disposed.
Print Assumptions C20_synced_when_all_popped.
Print Assumptions C20_synced_when_drained.
Print Assumptions C21_resync_changes_nothing.
Print Assumptions C22_outcomes.
Print Assumptions C22_put_back_goes_last.
Print Assumptions C23_fifo_closed_pop.
Print Assumptions C23_fifo_no_lost_wakeup.
Print Assumptions C23_fifo_close_releases_everyone.
Print Assumptions C23_fifo_woken_tasks_can_run.
Print Assumptions C20_second_replace_refuted.
Print Assumptions C22_put_back_goes_last_refuted.
