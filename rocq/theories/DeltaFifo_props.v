(** Properties C23 (DeltaFIFO part) to C28, C30 (queue part) and C31 of the
    DeltaFIFO.  [h] is any history of calls from a new queue, [s] the state it
    leads to.  [replay k h] reconstructs, from the history alone, what happened
    to key [k]. *)
From Verif Require Import Base DeltaFifo_model DeltaFifo_spec DeltaFifo_proofs DeltaFifo_proofs2 DeltaFifoSched_model DeltaFifoSched_proofs.

Section props.
  Context {K O : Type} `{EqDecision K} (keyf : O → option K).
  Notation dstep := (dstep keyf).
  Notation hist := (list (dop K O * dres K O)).
  Notation deltas := (list (delta K O)).

  (** C24: processed, being processed and pending deltas of a key, in this
      order, are the changes offered for it, except that a deletion directly
      after a deletion is merged with it and a Sync directly after a deletion is
      ignored *)
  Theorem C24_every_change_once_in_order h (s : dfifo K O) k : exec dstep dfifo_init h s →
    merged (k_offered (replay keyf k h)) (k_done (replay keyf k h) ++ k_proc (replay keyf k h) ++ k_pend (replay keyf k h)).
  Proof. exact (df_merged keyf h s k). Qed.
  (** in particular no addition or update is lost, duplicated or reordered *)
  Theorem C24_no_update_lost h (s : dfifo K O) k : exec dstep dfifo_init h s →
    List.filter is_plain (k_done (replay keyf k h) ++ k_proc (replay keyf k h) ++ k_pend (replay keyf k h)) =
    List.filter is_plain (k_offered (replay keyf k h)).
  Proof. exact (df_plain keyf h s k). Qed.
  (** the reconstructed pending list is the one the queue shows ... *)
  Theorem C24_pending_is_readable h (s : dfifo K O) k : exec dstep dfifo_init h s →
    (dstep s (DGetByKey k)).2 = DDeltas (match k_pend (replay keyf k h) with [] => None | ds => Some ds end).
  Proof. exact (df_readable keyf h s k). Qed.
  (** ... and the one the callback receives *)
  Theorem C24_pop_delivers_pending h (s : dfifo K O) ds : exec dstep dfifo_init h s → (dstep s DPop).2 = DPopped ds →
    ∃ k, deltas_key keyf ds = Some k ∧ k_pend (replay keyf k h) = ds.
  Proof. exact (df_pop_delivers keyf h s ds). Qed.

  (** C25: non-empty, one key, no two adjacent deletions *)
  Theorem C25_pending_lists_tidy h (s : dfifo K O) k ds : exec dstep dfifo_init h s → tidy_puts keyf h →
    (dstep s (DGetByKey k)).2 = DDeltas (Some ds) → tidy keyf k ds.
  Proof. exact (df_pending_tidy keyf h s k ds). Qed.
  Theorem C25_popped_lists_tidy h (s : dfifo K O) ds : exec dstep dfifo_init h s → tidy_puts keyf h →
    (dstep s DPop).2 = DPopped ds → ∃ k, tidy keyf k ds.
  Proof. exact (df_popped_tidy keyf h s ds). Qed.
  (** the newest delta is the last change; of two merged deletions the one with
      the real object survives *)
  Theorem C25_add_is_newest h (s : dfifo K O) o k p : exec dstep dfifo_init h s →
    (dstep s (DAdd o)).2 ≠ DLockWait → key_of keyf o = Some k → (dstep s (DGetByKey k)).2 = DDeltas p →
    (dstep (dstep s (DAdd o)).1 (DGetByKey k)).2 = DDeltas (Some (pending_of p ++ [(DtAdded, o)])) ∧
    ∀ j, j ≠ k → (dstep (dstep s (DAdd o)).1 (DGetByKey j)).2 = (dstep s (DGetByKey j)).2.
  Proof. exact (df_add_result keyf h s o k p). Qed.
  Theorem C25_update_is_newest h (s : dfifo K O) o k p : exec dstep dfifo_init h s →
    (dstep s (DUpdate o)).2 ≠ DLockWait → key_of keyf o = Some k → (dstep s (DGetByKey k)).2 = DDeltas p →
    (dstep (dstep s (DUpdate o)).1 (DGetByKey k)).2 = DDeltas (Some (pending_of p ++ [(DtUpdated, o)])) ∧
    ∀ j, j ≠ k → (dstep (dstep s (DUpdate o)).1 (DGetByKey j)).2 = (dstep s (DGetByKey j)).2.
  Proof. exact (df_update_result keyf h s o k p). Qed.
  Theorem C25_delete_is_newest h (s : dfifo K O) kn o k p : exec dstep dfifo_init h s →
    (dstep s (DDelete kn o)).2 ≠ DLockWait → key_of keyf o = Some k → (dstep s (DGetByKey k)).2 = DDeltas p →
    (dstep (dstep s (DDelete kn o)).1 (DGetByKey k)).2 = DDeltas (
      match p with
      | None => if decide (known_to kn k) then Some [(DtDeleted, o)] else None
      | Some ds => match last ds with
                   | Some (DtDeleted, DTomb j x) => Some (removelast ds ++ [(DtDeleted, o)])
                   | Some (DtDeleted, DObj x) => Some ds
                   | _ => Some (ds ++ [(DtDeleted, o)])
                   end
      end) ∧
    ∀ j, j ≠ k → (dstep (dstep s (DDelete kn o)).1 (DGetByKey j)).2 = (dstep s (DGetByKey j)).2.
  Proof. exact (df_delete_result keyf h s kn o k p). Qed.

  (** C26: keys are popped from the front; every other call only appends keys,
      and no key is queued twice *)
  Theorem C26_keys_first_in_first_out h (s : dfifo K O) c ks : exec dstep dfifo_init h s →
    (dstep s DListKeys).2 = DKeys ks →
    match (dstep s c).2 with
    | DPopped ds => ∃ k ks', ks = k :: ks' ∧ deltas_key keyf ds = Some k ∧ (dstep (dstep s c).1 DListKeys).2 = DKeys ks'
    | _ => ∃ new, (dstep (dstep s c).1 DListKeys).2 = DKeys (ks ++ new) ∧ NoDup (ks ++ new)
    end.
  Proof. exact (df_order keyf h s c ks). Qed.
  Theorem C26_pop_answers h (s : dfifo K O) : exec dstep dfifo_init h s →
    match (dstep s DPop).2 with
    | DPopped _ => ∃ k ks, (dstep s DListKeys).2 = DKeys (k :: ks)
    | DBlocked | DClosedError => (dstep s DListKeys).2 = DKeys []
    | DLockWait => (dstep s DPop).1 = s
    | _ => False
    end.
  Proof. exact (df_pop_answers keyf h s). Qed.
  (** the keys shown are exactly those with pending deltas *)
  Theorem C26_listed_keys_are_pending h (s : dfifo K O) k ks : exec dstep dfifo_init h s →
    (dstep s DListKeys).2 = DKeys ks → k ∈ ks ↔ (dstep s (DGetByKey k)).2 ≠ DDeltas None.
  Proof. exact (df_keys_pending keyf h s k ks). Qed.

  (** C27 *)
  Theorem C27_synced_exactly_when_batch_popped h0 kn l h (s : dfifo K O) :
    exec dstep dfifo_init (h0 ++ (DReplace kn l, DNone) :: h) s → (∀ e, e ∈ h0 → inert e.1) →
    NoDup (omap (key_of keyf) l) → NoDup (known_keys kn) →
    (dstep s DHasSynced).2 = DBool true ↔ ∀ k, k ∈ batch keyf kn l → ∃ e, e ∈ h ∧ pops keyf k e.
  Proof. exact (df_synced_exact keyf h0 kn l h s). Qed.
  Theorem C27_not_synced_before h (s : dfifo K O) : exec dstep dfifo_init h s → (∀ e, e ∈ h → inert e.1) →
    (dstep s DHasSynced).2 = DBool false.
  Proof. exact (df_not_synced_before keyf h s). Qed.
  (** once true it stays true, after any population, under any further calls *)
  Theorem C27_synced_stays h (s : dfifo K O) c : exec dstep dfifo_init h s →
    (dstep s DHasSynced).2 = DBool true → (dstep (dstep s c).1 DHasSynced).2 = DBool true.
  Proof. exact (df_synced_stays keyf h s c). Qed.

  (** C28 *)
  Theorem C28_replace_announces h (s : dfifo K O) kn l k p : exec dstep dfifo_init h s →
    (dstep s (DReplace kn l)).2 ≠ DLockWait →
    (∀ o, o ∈ l → is_Some (key_of keyf o)) → NoDup (omap (key_of keyf) l) → NoDup (known_keys kn) →
    (dstep s (DGetByKey k)).2 = DDeltas p →
    let p := pending_of p : deltas in
    (dstep s (DReplace kn l)).2 = DNone ∧
    ∃ q, (dstep (dstep s (DReplace kn l)).1 (DGetByKey k)).2 = DDeltas q ∧
    (** listed: a Sync with the listed object, unless a deletion is pending *)
    (∀ o, o ∈ l → key_of keyf o = Some k → pending_of q = absorb p (DtSync, o)) ∧
    (** not listed: a deletion with the last known object, if there was one *)
    (k ∉ omap (key_of keyf) l → pending_of q = match kn with
       | None => match last p with None => [] | Some d => absorb p (DtDeleted, DTomb k (Some d.2)) end
       | Some kn => if decide (k ∈ kn_keys kn) then absorb p (DtDeleted, DTomb k (lookup_obj (kn_get kn k))) else p
       end).
  Proof. exact (df_replace_result keyf h s kn l k p). Qed.

  (** C30, the queue's part *)
  Theorem C30_resync_reannounces h (s : dfifo K O) kn k p : exec dstep dfifo_init h s →
    (dstep s (DResync (Some kn))).2 ≠ DLockWait → NoDup (kn_keys kn) →
    (∀ k o, k ∈ kn_keys kn → kn_get kn k = LFound o → key_of keyf o = Some k) →
    (dstep s (DGetByKey k)).2 = DDeltas p →
    (dstep (dstep s (DResync (Some kn))).1 (DGetByKey k)).2 = DDeltas (match p with
      | Some ds => Some ds
      | None => if decide (k ∈ kn_keys kn)
                then match kn_get kn k with LFound o => Some [(DtSync, o)] | _ => None end else None
      end).
  Proof. exact (df_resync_result keyf h s kn k p). Qed.

  (** C31 *)
  Theorem C31_outcomes h (s : dfifo K O) out ds k : exec dstep dfifo_init h s →
    (dstep s DPop).2 = DPopped ds → deltas_key keyf ds = Some k →
    let s1 := (dstep s DPop).1 in let s2 := (dstep s1 (DFinish out)).1 in
    (dstep s1 (DGetByKey k)).2 = DDeltas None ∧
    (dstep s1 (DFinish out)).2 = match out with
      | DOk | DRequeue false => DItem ds | DRequeue true | DFail => DProcessError ds | DCancel => DCancelled end ∧
    (dstep s2 (DGetByKey k)).2 = DDeltas (match out with DRequeue _ => Some ds | _ => None end) ∧
    (∀ j, j ≠ k → (dstep s2 (DGetByKey j)).2 = (dstep s (DGetByKey j)).2).
  Proof. exact (df_outcome keyf h s out ds k). Qed.
  Theorem C31_put_back_never_displaces h (s : dfifo K O) ds k p : exec dstep dfifo_init h s → deltas_key keyf ds = Some k →
    (dstep s (DAddIfNotPresent ds)).2 ≠ DLockWait → (dstep s (DGetByKey k)).2 = DDeltas p →
    let s' := (dstep s (DAddIfNotPresent ds)).1 in
    (dstep s' (DGetByKey k)).2 = DDeltas (match p with Some newer => Some newer | None => Some ds end) ∧
    (∀ j, j ≠ k → (dstep s' (DGetByKey j)).2 = (dstep s (DGetByKey j)).2).
  Proof. exact (df_put_back keyf h s ds k p). Qed.
  (** while the callback runs, every call that needs the lock waits *)
  Theorem C31_callback_holds_the_lock (s : dfifo K O) ds : (dstep s DPop).2 = DPopped ds →
    ∀ c, needs_lock c = true → dstep (dstep s DPop).1 c = ((dstep s DPop).1, DLockWait).
  Proof. exact (df_busy_locked keyf s ds). Qed.

  (** C23, DeltaFIFO *)
  Theorem C23_delta_closed_pop h (s : dfifo K O) : exec dstep dfifo_init h s → (DClose, DNone) ∈ h →
    (dstep s DPop).2 ≠ DBlocked ∧ ((dstep s DPop).2 ≠ DLockWait →
      ((dstep s DPop).2 = DClosedError ↔ (dstep s DListKeys).2 = DKeys [])).
  Proof. exact (df_closed_pop keyf h s). Qed.
  Theorem C23_delta_no_lost_wakeup {T} ls (z : zsys K O T) : reach (ztrans keyf) zsys_init ls z → z_waiting z ≠ [] →
    (dstep (z_q z) DListKeys).2 = DKeys [] ∧ (dstep (z_q z) DIsClosed).2 = DBool false.
  Proof. exact (df_no_stuck_waiter keyf ls z). Qed.
  Theorem C23_delta_close_releases_everyone {T} ls (z : zsys K O T) l z' : reach (ztrans keyf) zsys_init ls z →
    Exists zcloses ls → ztrans keyf z l z' →
    z_waiting z = [] ∧ (∀ t c, l ≠ ZCall t c DBlocked) ∧ (∀ t c, l ≠ ZGo t c DBlocked).
  Proof. exact (df_closed_turns keyf ls z l z'). Qed.
  Theorem C23_delta_progress {T} ls (z : zsys K O T) : reach (ztrans keyf) zsys_init ls z →
    (z_holder z = None → ∀ t c, (t, c) ∈ z_ready z → ∃ r z', ztrans keyf z (ZGo t c r) z' ∧ r ≠ DLockWait) ∧
    (∀ t, z_holder z = Some t → ∀ out, ∃ ds z', ztrans keyf z (ZFinish t out (match out with
       | DOk | DRequeue false => DItem ds | DRequeue true | DFail => DProcessError ds | DCancel => DCancelled end)) z' ∧
       z_holder z' = None).
  Proof. exact (df_progress keyf ls z). Qed.
End props.

(** *** Concrete cases.  Objects are (key, value) pairs; key 9 has no key. *)
Definition dkey (o : nat * nat) : option nat := if decide (o.1 = 9) then None else Some o.1.
Definition obj (k v : nat) : dobj nat (nat * nat) := DObj (k, v).
(** the store knows 1 and 4 *)
Definition dknown : known nat (nat * nat) :=
  Known [1; 4] (λ k, if decide (k = 1) then LFound (obj 1 10) else if decide (k = 4) then LFound (obj 4 40) else LMissing).

Definition dcase : list (dop nat (nat * nat)) :=
  [DHasSynced; DReplace (Some dknown) [obj 1 11; obj 2 20]; DHasSynced; DListKeys; DUpdate (obj 2 21); DDelete (Some dknown) (obj 2 22);
   DDelete (Some dknown) (obj 2 23); DAdd (obj 2 24); DGetByKey 2; DGetByKey 4; DDelete (Some dknown) (obj 4 41); DGetByKey 4;
   DPop; DAdd (obj 1 12); DFinish (DRequeue false); DPop; DFinish DOk; DAdd (obj 1 12); DHasSynced; DPop; DFinish DFail; DHasSynced;
   DPop; DFinish DOk; DResync (Some dknown); DGetByKey 4; DPop; DFinish (DRequeue true); DAddIfNotPresent [(DtSync, obj 1 9)]; DClose;
   DDelete None (obj 8 8); DAdd (obj 9 0)].
Definition dcase_answers : list (dres nat (nat * nat)) :=
  [DBool false; DNone; DBool false; DKeys [1; 2; 4]; DNone; DNone;
   DNone; DNone; DDeltas (Some [(DtSync, obj 2 20); (DtUpdated, obj 2 21); (DtDeleted, obj 2 22); (DtAdded, obj 2 24)]);
   DDeltas (Some [(DtDeleted, DTomb 4 (Some (obj 4 40)))]); DNone; DDeltas (Some [(DtDeleted, obj 4 41)]);
   DPopped [(DtSync, obj 1 11)]; DLockWait; DItem [(DtSync, obj 1 11)];
   DPopped [(DtSync, obj 2 20); (DtUpdated, obj 2 21); (DtDeleted, obj 2 22); (DtAdded, obj 2 24)];
   DItem [(DtSync, obj 2 20); (DtUpdated, obj 2 21); (DtDeleted, obj 2 22); (DtAdded, obj 2 24)]; DNone; DBool false;
   DPopped [(DtDeleted, obj 4 41)]; DProcessError [(DtDeleted, obj 4 41)]; DBool true;
   DPopped [(DtSync, obj 1 11); (DtAdded, obj 1 12)]; DItem [(DtSync, obj 1 11); (DtAdded, obj 1 12)]; DNone;
   DDeltas (Some [(DtSync, obj 4 40)]); DPopped [(DtSync, obj 1 10)]; DProcessError [(DtSync, obj 1 10)]; DNone; DNone;
   DNone; DKeyFuncError (obj 9 0)].
Example dcase_runs : exec (dstep dkey) dfifo_init (zip dcase dcase_answers) (fst (run (dstep dkey) dfifo_init dcase)).
Proof. apply exec_check. vm_compute. reflexivity. Qed.
Example dcase_tidy : tidy_puts dkey (zip dcase dcase_answers).
Proof.
  assert (Hall : Forall (λ e : dop nat (nat * nat) * dres nat (nat * nat),
    match e.1 with DAddIfNotPresent ds => ds = [(DtSync, obj 1 9)] | _ => True end) (zip dcase dcase_answers)) by (by repeat constructor).
  rewrite Forall_forall in Hall. intros ds r Hin. specialize (Hall _ Hin). simpl in Hall. subst ds. exists 1. split; [done|]. split.
  - intros d ->%elem_of_list_singleton. done.
  - intros [|? [|??]] ???; done.
Qed.
(** key 2 in that run, and key 1 in the middle of it: offered, processed,
    being processed, pending *)
Example dcase_key2 : replay dkey 2 (zip dcase dcase_answers) =
  KSt [(DtSync, obj 2 20); (DtUpdated, obj 2 21); (DtDeleted, obj 2 22); (DtDeleted, obj 2 23); (DtAdded, obj 2 24)]
      [(DtSync, obj 2 20); (DtUpdated, obj 2 21); (DtDeleted, obj 2 22); (DtAdded, obj 2 24)] [] [].
Proof. by vm_compute. Qed.
Example dcase_key1 : replay dkey 1 (take 14 (zip dcase dcase_answers)) =
  KSt [(DtSync, obj 1 11)] [] [(DtSync, obj 1 11)] [].
Proof. by vm_compute. Qed.
(** C27's hypotheses: a batch of two listed and one vanished key *)
Example C27_case : batch dkey (Some dknown) [obj 1 11; obj 2 20] = [1; 2; 4] ∧
  NoDup (omap (key_of dkey) [obj 1 11; obj 2 20]) ∧ NoDup (known_keys (Some dknown)).
Proof.
  split; [done|]. split; [apply (bool_decide_unpack (NoDup [1; 2])); by vm_compute|apply (bool_decide_unpack (NoDup [1; 4])); by vm_compute].
Qed.

(** C27 with a duplicate key in the list fails: the queue is drained and the
    batch was popped, yet has_synced stays false *)
Theorem C27_duplicate_keys_refuted : ∃ h s,
  exec (dstep dkey) dfifo_init ((DReplace None [obj 1 10; obj 1 11], DNone) :: h) s ∧
  (∀ k, k ∈ batch dkey None [obj 1 10; obj 1 11] → ∃ e, e ∈ h ∧ pops dkey k e) ∧
  (dstep dkey s DListKeys).2 = DKeys [] ∧ (dstep dkey s DPop).2 = DBlocked ∧ (dstep dkey s DHasSynced).2 = DBool false.
Proof.
  set (p := [(DtSync, obj 1 10); (DtSync, obj 1 11)]).
  exists [(DPop, DPopped p); (DFinish DOk, DItem p)],
    (fst (run (dstep dkey) dfifo_init [DReplace None [obj 1 10; obj 1 11]; DPop; DFinish DOk])).
  split; [apply exec_check; vm_compute; reflexivity|]. split; [|by split].
  intros k Hk. exists (DPop, DPopped p). split; [by left|]. exists p. split; [done|].
  vm_compute in Hk. by repeat (apply elem_of_cons in Hk as [->|Hk]; [done|]); apply elem_of_nil in Hk.
Qed.
(** C27 after a failed replace fails too: popping what the failed call left in
    the queue is counted, so has_synced is true although nothing of the list was
    popped *)
Definition knows_nothing : known nat (nat * nat) := Known [] (λ _, LMissing).
Theorem C27_failed_replace_refuted : ∃ h0 h s,
  exec (dstep dkey) dfifo_init (h0 ++ (DReplace (Some knows_nothing) [obj 2 20], DNone) :: h) s ∧
  h0 = [(DReplace (Some knows_nothing) [obj 1 10; obj 9 0], DKeyFuncError (obj 9 0))] ∧
  (∀ e, e ∈ h → ¬ pops dkey 2 e) ∧ (dstep dkey s (DGetByKey 2)).2 = DDeltas (Some [(DtSync, obj 2 20)]) ∧
  (dstep dkey s DHasSynced).2 = DBool true.
Proof.
  exists [(DReplace (Some knows_nothing) [obj 1 10; obj 9 0], DKeyFuncError (obj 9 0))],
    [(DPop, DPopped [(DtSync, obj 1 10)]); (DFinish DOk, DItem [(DtSync, obj 1 10)])],
    (fst (run (dstep dkey) dfifo_init [DReplace (Some knows_nothing) [obj 1 10; obj 9 0]; DReplace (Some knows_nothing) [obj 2 20]; DPop; DFinish DOk])).
  split; [apply exec_check; vm_compute; reflexivity|]. split; [done|]. split; [|by split].
  intros e He (ds & -> & Hk). apply elem_of_cons in He as [He|He]; [by simplify_eq|].
  apply elem_of_cons in He as [He|He]; [done|]. by apply elem_of_nil in He.
Qed.

(** four tasks: a popper waits, an add wakes it, its callback holds the lock
    while another call queues; close releases the last waiter *)
Example C23_delta_case : ∃ ls z, reach (ztrans dkey) zsys_init ls z ∧ Exists zcloses ls ∧ z_ready z = [] ∧ z_holder z = None ∧
  ls = [ZCall 1 DPop DBlocked; ZCall 2 (DAdd (obj 5 50)) DNone; ZGo 1 DPop (DPopped [(DtAdded, obj 5 50)]);
        ZQueue 2 (DAdd (obj 5 51)); ZFinish 1 DOk (DItem [(DtAdded, obj 5 50)]); ZGo 2 (DAdd (obj 5 51)) DNone;
        ZCall 3 DPop (DPopped [(DtAdded, obj 5 51)]); ZFinish 3 DFail (DProcessError [(DtAdded, obj 5 51)]);
        ZCall 3 DPop DBlocked; ZCall 1 DPop DBlocked; ZCancel 1; ZCall 4 DClose DNone; ZGo 3 DPop DClosedError].
Proof.
  eexists _, _. split; [|split; [|split; [|split; [|reflexivity]]]].
  - do_step (eapply (zt_call _ zsys_init 1 DPop); [reflexivity|reflexivity|done]).
    do_step (eapply (zt_call _ _ 2 (DAdd (obj 5 50))); [reflexivity|reflexivity|done]).
    do_step (eapply (zt_go _ _ 1 DPop [] []); reflexivity).
    do_step (eapply (zt_queue _ _ 2 (DAdd (obj 5 51))); reflexivity).
    do_step (eapply (zt_finish _ _ 1 DOk); reflexivity).
    do_step (eapply (zt_go _ _ 2 (DAdd (obj 5 51)) [] []); reflexivity).
    do_step (eapply (zt_call _ _ 3 DPop); [reflexivity|reflexivity|done]).
    do_step (eapply (zt_finish _ _ 3 DFail); reflexivity).
    do_step (eapply (zt_call _ _ 3 DPop); [reflexivity|reflexivity|done]).
    do_step (eapply (zt_call _ _ 1 DPop); [reflexivity|reflexivity|done]).
    do_step (eapply (zt_cancel_waiting _ _ 1 [3] []); reflexivity).
    do_step (eapply (zt_call _ _ 4 DClose); [reflexivity|reflexivity|done]).
    do_step (eapply (zt_go _ _ 3 DPop [] []); reflexivity).
    apply reach_nil.
  - do 11 apply Exists_cons_tl. apply Exists_cons_hd. exists 4. by left.
  - done.
  - done.
Qed.

Print Assumptions C24_every_change_once_in_order.
Print Assumptions C24_no_update_lost.
Print Assumptions C24_pending_is_readable.
Print Assumptions C24_pop_delivers_pending.
Print Assumptions C25_pending_lists_tidy.
Print Assumptions C25_popped_lists_tidy.
Print Assumptions C25_add_is_newest.
Print Assumptions C25_update_is_newest.
Print Assumptions C25_delete_is_newest.
Print Assumptions C26_keys_first_in_first_out.
Print Assumptions C26_pop_answers.
Print Assumptions C26_listed_keys_are_pending.
Print Assumptions C27_synced_exactly_when_batch_popped.
Print Assumptions C27_not_synced_before.
Print Assumptions C27_synced_stays.
Print Assumptions C28_replace_announces.
Print Assumptions C30_resync_reannounces.
Print Assumptions C31_outcomes.
Print Assumptions C31_put_back_never_displaces.
Print Assumptions C31_callback_holds_the_lock.
Print Assumptions C23_delta_closed_pop.
Print Assumptions C23_delta_no_lost_wakeup.
Print Assumptions C23_delta_close_releases_everyone.
Print Assumptions C23_delta_progress.
Print Assumptions C27_duplicate_keys_refuted.
Print Assumptions C27_failed_replace_refuted.
