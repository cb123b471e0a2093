(** C100: the DeltaFIFO called with Deltas lists. *)
From Verif Require Import Base DeltaFifo_model DeltaFifo_spec DeltaArg_model DeltaArg_spec DeltaArg_proofs.

Section C100.
  Context {K O : Type} `{EqDecision K} (keyf : O → option K) (keyl : list (dtype * dobj K (arg K O)) → option K).
  Notation akey := (arg_key keyf keyl).
  Notation dfifo := (dfifo K (arg K O)).
  Notation deltas ds := (DObj (ADeltas ds)).

  (** what is pending is found under the key of its newest object, lists or not *)
  Theorem C100_pending h (s : dfifo) k ds : exec (dstep akey) dfifo_init h s → (dstep akey s (DGetByKey k)).2 = DDeltas (Some ds) →
    ∃ t o, last ds = Some (t, o) ∧ key_of akey o = Some k.
  Proof. exact (pending_key keyf keyl h s k ds). Qed.
  (** if no list was passed as an object: a list read has the key it was read under *)
  Theorem C100_read h (s : dfifo) k ds : exec (dstep akey) dfifo_init h s → listless h → (dstep akey s (DGetByKey k)).2 = DDeltas (Some ds) →
    key_of akey (deltas ds) = Some k ∧ (dstep akey s (DGet (deltas ds))).2 = DDeltas (Some ds).
  Proof. exact (round keyf keyl h s k ds). Qed.
  (** and a list popped the one it was pending under *)
  Theorem C100_popped h (s : dfifo) ds : exec (dstep akey) dfifo_init h s → listless h → (dstep akey s DPop).2 = DPopped ds →
    ∃ k, key_of akey (deltas ds) = Some k ∧ (dstep akey s (DGetByKey k)).2 = DDeltas (Some ds) ∧
      (dstep akey (dstep akey s DPop).1 (DGet (deltas ds))).2 = DDeltas None.
  Proof. exact (popped keyf keyl h s ds). Qed.
  (** lists or not: a popped list can be put back, under its key *)
  Theorem C100_put_back h (s : dfifo) ds out : exec (dstep akey) dfifo_init h s → (dstep akey s DPop).2 = DPopped ds →
    let s2 := (dstep akey (dstep akey s DPop).1 (DFinish out)).1 in
    ∃ k, (dstep akey s (DGetByKey k)).2 = DDeltas (Some ds) ∧ (dstep akey (dstep akey s2 (DAddIfNotPresent ds)).1 (DGetByKey k)).2 = DDeltas (Some ds).
  Proof. exact (put_back keyf keyl h s ds out). Qed.
  (** a list passed to add becomes the object of one delta *)
  Theorem C100_add h (s : dfifo) ds t o k p : exec (dstep akey) dfifo_init h s → last ds = Some (t, o) → no_list o → key_of akey o = Some k →
    (dstep akey s (DAdd (deltas ds))).2 ≠ DLockWait → (dstep akey s (DGetByKey k)).2 = DDeltas p →
    (dstep akey (dstep akey s (DAdd (deltas ds))).1 (DGetByKey k)).2 = DDeltas (Some (pending_of p ++ [(DtAdded, deltas ds)])).
  Proof. exact (add_list keyf keyl h s ds t o k p). Qed.
  (** an empty list: nothing becomes pending, but the failed call makes the queue synced *)
  Theorem C100_empty_synced h (s : dfifo) c : exec (dstep akey) dfifo_init h s → c = DAdd (deltas []) ∨ c = DUpdate (deltas []) →
    (dstep akey s c).2 ≠ DLockWait →
    (dstep akey s c).2 = DKeyFuncError (deltas []) ∧ (dstep akey (dstep akey s c).1 DListKeys).2 = (dstep akey s DListKeys).2 ∧
    (∀ k, (dstep akey (dstep akey s c).1 (DGetByKey k)).2 = (dstep akey s (DGetByKey k)).2) ∧
    ((∀ e, e ∈ h → inert e.1) → (dstep akey s DHasSynced).2 = DBool false ∧ (dstep akey (dstep akey s c).1 DHasSynced).2 = DBool true).
  Proof. exact (add_empty keyf keyl h s c). Qed.
  Theorem C100_empty_ask (s : dfifo) c : c = DGet (deltas []) ∨ (∃ kn, c = DDelete kn (deltas [])) →
    (dstep akey s c).2 ≠ DLockWait → dstep akey s c = (s, DKeyFuncError (deltas [])).
  Proof. exact (ask_empty keyf keyl s c). Qed.
  Theorem C100_empty_put (s : dfifo) : (dstep akey s (DAddIfNotPresent [])).2 ≠ DLockWait → dstep akey s (DAddIfNotPresent []) = (s, DAttributeError).
  Proof. exact (put_empty keyf keyl s). Qed.
End C100.

(** after add of a list, the key of what is popped cannot be had *)
Theorem C100_nested_refuted : ∃ h (s : dfifo nat (arg nat nat)) ds, exec nstep dfifo_init h s ∧ (nstep s DPop).2 = DPopped ds ∧ (nstep s DListKeys).2 = DKeys [1] ∧
  key_of (arg_key nkey nlist) (DObj (ADeltas ds)) = None ∧ ∀ r, (nstep (nstep s DPop).1 (DGet (DObj (ADeltas ds)))).2 ≠ DDeltas r.
Proof. exact nested. Qed.
(** a run without lists as objects *)
Theorem C100_case : ∃ h (s : dfifo nat (arg nat nat)), h.*1 = plain_calls ∧ exec nstep dfifo_init h s ∧ listless h ∧
  (nstep s (DGetByKey 1)).2 = DDeltas (Some [(DtAdded, nobj 1); (DtUpdated, nobj 1); (DtDeleted, nobj 1)]).
Proof. exact plain_case. Qed.

Print Assumptions C100_pending.
Print Assumptions C100_read.
Print Assumptions C100_popped.
Print Assumptions C100_put_back.
Print Assumptions C100_add.
Print Assumptions C100_empty_synced.
Print Assumptions C100_empty_ask.
Print Assumptions C100_empty_put.
Print Assumptions C100_nested_refuted.
Print Assumptions C100_case.
