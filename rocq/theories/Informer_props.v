(** Properties of the informer: C29, C30 (what processing the deltas leaves in the
    client store), C42-C44 and C50. *)
From Verif Require Import Base DeltaFifo_model DeltaFifo_spec Store_model Store_spec Reflector_model Reflector_spec World_model World_proofs
  Informer_model Informer_spec InformerWorld_model Informer_proofs3 Informer_proofs4 InformerWorld_proofs Informer_proofs5.

Section props.
  Context {K O V N : Type} `{EqDecision K} `{EqDecision V} `{EqDecision N} (keyf : O → option K) (fs : dict N (index_func (dobj K O) V)).
  Context (Hfs : good_indexers fs).
  Notation delta := (delta K O).
  Notation istep := (istep (V:=V) (N:=N) keyf).
  Notation init := (inf_init fs).

  (** C29: after replace(l) and the processing of everything pending, each key
      holds what [replaced] says of its deltas and content before the replace *)
  Theorem C29_content_after_replace h0 s0 l s1 h1 s2 k (p : option (list delta)) c :
    exec istep init h0 s0 → istep s0 (QReplace l) = (s1, IQ DNone) → exec istep s1 h1 s2 → (∀ e, e ∈ h1 → processing e.1) → drained s2 →
    (istep s0 (QGetByKey k)).2 = IQ (DDeltas p) → (istep s0 (SLook k)).2 = IObj c →
    (istep s2 (SLook k)).2 = IObj (replaced keyf k l (pending_of p) c).
  Proof. exact (replace_drain keyf fs Hfs h0 s0 l s1 h1 s2 k p c). Qed.
  (** which is the list, unless a listed key is pending deletion or an unlisted one is pending and not stored *)
  Theorem C29_equals_list k l (p : list delta) c : calm keyf k l p c → replaced keyf k l p c = DObj <$> last_keyed keyf k l.
  Proof. exact (replaced_calm keyf k l p c). Qed.
  (** and everything pending can be processed *)
  Theorem C29_can_drain h s : exec istep init h s → ∃ h' s', exec istep s h' s' ∧ (∀ e, e ∈ h' → processing e.1) ∧ drained s'.
  Proof. exact (can_drain keyf fs Hfs h s). Qed.

  (** C30: processing what a resync queued leaves the store as without it *)
  Theorem C30_store_unchanged h0 s0 r s1 h1 s2 k (p : option (list delta)) c :
    exec istep init h0 s0 → istep s0 QResync = (s1, IQ r) → r ≠ DLockWait → exec istep s1 h1 s2 → (∀ e, e ∈ h1 → processing e.1) → drained s2 →
    (istep s0 (QGetByKey k)).2 = IQ (DDeltas p) → (istep s0 (SLook k)).2 = IObj c →
    (istep s2 (SLook k)).2 = IObj (settle c (pending_of p)).
  Proof. exact (resync_drain keyf fs Hfs h0 s0 r s1 h1 s2 k p c). Qed.

  (** C43: the callbacks for a key are cycles of add, updates and delete, and the store holds the object last delivered *)
  Theorem C43_life_cycle h s k : exec istep init h s → no_requeue h → ∃ c, (istep s (SLook k)).2 = IObj c ∧ life keyf k (callbacks h) c.
  Proof. exact (life_cycle keyf fs Hfs h s k). Qed.

  (** C44: when a callback fails, the rest of the deltas popped with it never
      reaches the store; other keys are not affected *)
  Theorem C44_rest_is_dropped h n s r k j c (p : option (list delta)) h1 s1 s2 :
    exec istep init (h ++ [(PDelta, ICallback n)]) s → istep s (PRaise None) = (s1, IQ r) → has_key keyf k (notif_obj n) →
    (istep s (SLook j)).2 = IObj c → (istep s (QGetByKey j)).2 = IQ (DDeltas p) →
    exec istep s1 h1 s2 → (∀ e, e ∈ h1 → processing e.1) → drained s2 →
    (istep s2 (SLook j)).2 = IObj (if decide (j = k) then c else settle c (pending_of p)).
  Proof. exact (failed_callback keyf fs Hfs h n s r k j c p h1 s1 s2). Qed.
  (** the failure is not silent: pop() raises it with the deltas it gave out, unless it was a RequeueError without cause *)
  Theorem C44_reported h ds h' n s rq : exec istep init (h ++ (PPop, IQ (DPopped ds)) :: h' ++ [(PDelta, ICallback n)]) s → (∀ e, e ∈ h' → e.1 ≠ PPop) →
    (istep s (PRaise rq)).2 = IQ (match rq with Some false => DItem ds | _ => DProcessError ds end).
  Proof. exact (failure_reported keyf fs Hfs h ds h' n s rq). Qed.

  (** C50: once has_synced is true and no item is being processed, every object of the first list was delivered *)
  Theorem C50_first_list_delivered (h0 : list (iop K O * ires K O)) l h s :
    exec istep init (h0 ++ (QReplace l, IQ DNone) :: h) s → (∀ e, e ∈ h0 → idle e.1) →
    NoDup (omap keyf l) → (istep s QHasSynced).2 = IQ (DBool true) → d_busy (i_q s) = None →
    ∀ o, o ∈ l → delivered (DObj o) (callbacks h).
  Proof. exact (synced_delivered keyf fs Hfs h0 l h s). Qed.
  (** of a list naming keys several times: the first object of each key, whatever
      fails; every object if no callback fails *)
  Theorem C50_first_of_key_delivered (h0 : list (iop K O * ires K O)) l1 o l2 h s :
    exec istep init (h0 ++ (QReplace (l1 ++ o :: l2), IQ DNone) :: h) s → (∀ e, e ∈ h0 → idle e.1) →
    (∀ x, x ∈ l1 → keyf x ≠ keyf o) → (istep s QHasSynced).2 = IQ (DBool true) → d_busy (i_q s) = None →
    delivered (DObj o) (callbacks h).
  Proof. exact (synced_first keyf fs Hfs h0 l1 o l2 h s). Qed.
  Theorem C50_all_delivered (h0 : list (iop K O * ires K O)) l h s :
    exec istep init (h0 ++ (QReplace l, IQ DNone) :: h) s → (∀ e, e ∈ h0 → idle e.1) →
    (∀ e, e ∈ h → ¬ fails e.1) → (istep s QHasSynced).2 = IQ (DBool true) → d_busy (i_q s) = None →
    ∀ o, o ∈ l → delivered (DObj o) (callbacks h).
  Proof. exact (synced_all keyf fs Hfs h0 l h s). Qed.

  (** C42: the drained cache is the server's state at the synced version, for
      every key whose deliveries did not fail with deltas left *)
  Theorem C42_cache_is_server_state (g : rcfg O nat) ls w s v k :
    reach (λ x l y, ystep (V:=V) (N:=N) keyf g x l y ∧ careful keyf x l ∧ intact k x l) (world_init, init) ls (w, s) → r_last (w_refl w) = Some v → drained s →
    (istep s (SLook k)).2 = IObj (DObj <$> server_at keyf (w_changes w) v k).
  Proof. exact (cache_is_server_state keyf g fs Hfs ls w s v k). Qed.
  (** whatever failed and however the lists came before, one careful list repairs every key *)
  Theorem C42_list_repairs (g : rcfg O nat) ls1 w1 s1 items v1 w2 s2 ls2 w s v k :
    reach (ystep (V:=V) (N:=N) keyf g) (world_init, init) ls1 (w1, s1) → r_pc (w_refl w1) = RIdle →
    ystep keyf g (w1, s1) (YWorld (WInput (IList items v1))) (w2, s2) → careful keyf (w1, s1) (YWorld (WInput (IList items v1))) →
    reach (λ x l y, ystep (V:=V) (N:=N) keyf g x l y ∧ careful keyf x l ∧ intact k x l) (w2, s2) ls2 (w, s) → r_last (w_refl w) = Some v → drained s →
    (istep s (SLook k)).2 = IObj (DObj <$> server_at keyf (w_changes w) v k).
  Proof. exact (cache_after_list keyf g fs Hfs ls1 w1 s1 items v1 w2 s2 ls2 w s v k). Qed.
  (** relisting with nothing pending is always careful *)
  Theorem C42_drained_relist_careful (s : inf K O V N) l : drained s → calm_list keyf s l.
  Proof. exact (drained_calm keyf s l). Qed.
End props.

(** without the restriction of C29 and C42 the claims are false *)
Theorem C29_refuted : ∃ h1 s1 h2 s2,
  exec icase_step icase_init (h1 ++ [(QReplace [(1, 11)], IQ DNone); (PPop, IQ (DPopped [(DtDeleted, obj 1 10)])); (PDelta, ICallback (NDelete (obj 1 10))); (PDone, IQ (DItem [(DtDeleted, obj 1 10)]))]) s1 ∧
  drained s1 ∧ (icase_step s1 (SLook 1)).2 = IObj None ∧
  exec icase_step icase_init (h2 ++ [(QReplace [], IQ DNone); (PPop, IQ (DPopped [(DtAdded, obj 1 10)])); (PDelta, ICallback (NAdd (obj 1 10) false)); (PDone, IQ (DItem [(DtAdded, obj 1 10)]))]) s2 ∧
  drained s2 ∧ (icase_step s2 (SLook 1)).2 = IObj (Some (obj 1 10)).
Proof. exact replace_drain_refuted. Qed.
Theorem C42_relist_refuted : ∃ ls w s, reach ycase_step (world_init, icase_init) ls (w, s) ∧ drained s ∧ r_last (w_refl w) = Some 2 ∧
  w_changes w = [Event EvAdded (5, 1); Event EvDeleted (5, 2)] ∧ server_at icase_key (w_changes w) 2 5 = None ∧ (icase_step s (SLook 5)).2 = IObj (Some (obj 5 1)).
Proof. exact relist_refuted. Qed.
(** nor does it hold for a key for which a callback failed *)
Theorem C42_failed_handler_refuted : ∃ ls w s, reach (λ x l y, ycase_step x l y ∧ careful icase_key x l) (world_init, icase_init) ls (w, s) ∧ drained s ∧ r_last (w_refl w) = Some 2 ∧
  w_changes w = [Event EvAdded (5, 1); Event EvDeleted (5, 2)] ∧ server_at icase_key (w_changes w) 2 5 = None ∧ (icase_step s (SLook 5)).2 = IObj (Some (obj 5 1)).
Proof. exact failed_handler_refuted. Qed.
(** a handler that raises RequeueError is told of a deletion twice *)
Theorem C43_requeue_refuted : ∃ s, exec icase_step icase_init requeue_h s ∧
  callbacks requeue_h = [NAdd (obj 1 10) false; NDelete (obj 1 10); NDelete (obj 1 10)] ∧ ∀ c, ¬ life icase_key 1 (callbacks requeue_h) c.
Proof. exact requeue_refuted. Qed.
Theorem C44_deletion_lost_refuted : ∃ s, exec icase_step icase_init raise_h s ∧ (QDelete (1, 10), IQ DNone) ∈ raise_h ∧ drained s ∧
  (icase_step s (SLook 1)).2 = IObj (Some (obj 1 10)).
Proof. exact raise_refuted. Qed.
Theorem C50_while_processing_refuted : ∃ s, exec icase_step icase_init synced_h s ∧
  synced_h = [(QReplace [(1, 10)], IQ DNone); (PPop, IQ (DPopped [(DtSync, obj 1 10)])); (QHasSynced, IQ (DBool true))] ∧
  (icase_step s (SLook 1)).2 = IObj None.
Proof. exact has_synced_refuted. Qed.

(** cases *)
Example C43_case : ∃ s, exec icase_step icase_init icase_h s ∧ no_requeue icase_h ∧ drained s ∧
  callbacks icase_h = [NAdd (obj 1 10) true; NAdd (obj 2 20) true; NUpdate (obj 1 10) (obj 1 11) false; NDelete (obj 1 12); NUpdate (obj 2 20) (obj 2 20) true] ∧
  (icase_step s (SLook 2)).2 = IObj (Some (obj 2 20)) ∧ (icase_step s (SLook 1)).2 = IObj None.
Proof. exact icase_life. Qed.
Example C44_case : ∃ s s1, exec icase_step icase_init (take 3 raise_h ++ [(PDelta, ICallback (NAdd (obj 1 10) false))]) s ∧
  icase_step s (PRaise None) = (s1, IQ (DProcessError [(DtAdded, obj 1 10); (DtDeleted, obj 1 10)])) ∧ has_key icase_key 1 (notif_obj (NAdd (obj 1 10) false)).
Proof. exact raise_case. Qed.
(** a key listed twice and a failing callback; an earlier list that failed *)
Theorem C50_key_twice_refuted : ∃ s, exec icase_step icase_init synced_h3 s ∧ head synced_h3 = Some (QReplace [(1, 10); (1, 11)], IQ DNone) ∧ drained s ∧
  (icase_step s QHasSynced).2 = IQ (DBool true) ∧ (icase_step s (SLook 1)).2 = IObj (Some (obj 1 10)) ∧
  callbacks synced_h3 = [NAdd (obj 1 10) true; NAdd (obj 2 20) false].
Proof. exact has_synced_twice_refuted. Qed.
Theorem C50_failed_list_refuted : ∃ s, exec icase_step9 icase_init synced_h4 s ∧
  take 2 synced_h4 = [(QReplace [(1, 10); (9, 0)], IQ (DKeyFuncError (obj 9 0))); (QReplace [(2, 20)], IQ DNone)] ∧ d_busy (i_q s) = None ∧
  (icase_step9 s QHasSynced).2 = IQ (DBool true) ∧ (icase_step9 s (SLook 2)).2 = IObj None.
Proof. exact has_synced_failed_refuted. Qed.
Example C50_case : ∃ s, exec icase_step icase_init synced_h2 s ∧ d_busy (i_q s) = None ∧ (icase_step s QHasSynced).2 = IQ (DBool true) ∧
  synced_h2 = take 2 synced_h2 ++ (QReplace [(1, 10); (2, 20)], IQ DNone) :: drop 3 synced_h2.
Proof. exact has_synced_case. Qed.
Example C42_case : ∃ ls s, reach (λ x l y, ycase_step x l y ∧ careful icase_key x l ∧ intact 5 x l) (world_init, icase_init) ls (ycase_world, s) ∧ drained s ∧
  (icase_step s (SLook 5)).2 = IObj (Some (obj 5 2)).
Proof. exact ycase_runs. Qed.
(** a delivery fails, the watch fails, and the list after it removes the object *)
Example C42_repair_case : ∃ ls1 w1 s1 w2 s2 ls2 w s, reach ycase_step (world_init, icase_init) ls1 (w1, s1) ∧ (icase_step s1 (SLook 5)).2 = IObj (Some (obj 5 1)) ∧ r_pc (w_refl w1) = RIdle ∧
  ycase_step (w1, s1) (YWorld (WInput (IList [] 2))) (w2, s2) ∧ careful icase_key (w1, s1) (YWorld (WInput (IList [] 2))) ∧
  reach (λ x l y, ycase_step x l y ∧ careful icase_key x l ∧ intact 5 x l) (w2, s2) ls2 (w, s) ∧ r_last (w_refl w) = Some 2 ∧ drained s ∧ (icase_step s (SLook 5)).2 = IObj None.
Proof. exact repair_runs. Qed.

Print Assumptions C29_content_after_replace.
Print Assumptions C29_equals_list.
Print Assumptions C29_can_drain.
Print Assumptions C29_refuted.
Print Assumptions C30_store_unchanged.
Print Assumptions C42_cache_is_server_state.
Print Assumptions C42_list_repairs.
Print Assumptions C42_failed_handler_refuted.
Print Assumptions C42_drained_relist_careful.
Print Assumptions C42_relist_refuted.
Print Assumptions C43_life_cycle.
Print Assumptions C43_requeue_refuted.
Print Assumptions C44_rest_is_dropped.
Print Assumptions C44_reported.
Print Assumptions C44_deletion_lost_refuted.
Print Assumptions C50_first_list_delivered.
Print Assumptions C50_first_of_key_delivered.
Print Assumptions C50_all_delivered.
Print Assumptions C50_key_twice_refuted.
Print Assumptions C50_failed_list_refuted.
Print Assumptions C50_while_processing_refuted.
