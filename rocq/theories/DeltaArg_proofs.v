(** Proofs about the DeltaFIFO called with Deltas lists. *)
From Verif Require Import Base DeltaFifo_model DeltaFifo_spec DeltaFifo_proofs DeltaFifo_proofs2 DeltaArg_model DeltaArg_spec.

(** the queue asks for the keys of the objects it is given only *)
Section agree.
  Context {K O : Type} `{EqDecision K} (f g : O → option K).
  Notation same o := (key_of f o = key_of g o).
  Lemma add_agree t o (s : dfifo K O) : same o → df_add f t o s = df_add g t o s.
  Proof. intros E. unfold df_add. by rewrite E. Qed.
  Lemma delete_agree kn o (s : dfifo K O) : same o → df_delete f kn o s = df_delete g kn o s.
  Proof. intros E. unfold df_delete. by rewrite E. Qed.
  Lemma sync_all_agree l : (∀ o, o ∈ l → same o) → ∀ (s : dfifo K O) n, sync_all f l s n = sync_all g l s n.
  Proof.
    induction l as [|o l IH]; intros Hl s n; [done|]. cbn [sync_all]. rewrite (Hl o) by (by left). destruct (key_of g o) as [k|]; [|done].
    destruct (queue_action DtSync k o s) as [s' n']. apply IH. intros o' Ho. apply Hl. by right.
  Qed.
  Lemma replace_agree kn l (s : dfifo K O) : (∀ o, o ∈ l → same o) → df_replace f kn l s = df_replace g kn l s.
  Proof.
    intros Hl. unfold df_replace. rewrite (sync_all_agree l Hl). assert (Eo : omap (key_of f) l = omap (key_of g) l); [|destruct (sync_all g l s false) as [[s1 n] [o|]]; [done|]; by rewrite Eo].
    clear -Hl. induction l as [|o l IH]; [done|]. simpl. rewrite (Hl o) by (by left). assert (Hl' : ∀ o', o' ∈ l → same o') by (intros o' Ho; apply Hl; by right).
    destruct (key_of g o); [f_equal|]; by apply IH.
  Qed.
  Lemma resync_agree kn ks : (∀ k o, kn_get kn k = LFound o → same o) → ∀ (s : dfifo K O) n, resync_keys f kn ks s n = resync_keys g kn ks s n.
  Proof.
    intros Hk. induction ks as [|k ks IH]; intros s n; [done|]. cbn [resync_keys].
    assert (sync_key f kn k s = sync_key g kn k s) as ->.
    { unfold sync_key. destruct (kn_get kn k) as [o| |] eqn:E; [|done|done]. by rewrite (Hk _ _ E). }
    destruct (sync_key g kn k s) as [[s' n'] [o|]]; [done|]. apply IH.
  Qed.
  Lemma put_agree (ds : list (delta K O)) (s : dfifo K O) : (∀ t o, last ds = Some (t, o) → same o) → df_add_if_not_present f ds s = df_add_if_not_present g ds s.
  Proof. intros H. unfold df_add_if_not_present. destruct (last ds) as [[t o]|] eqn:E; [|done]. simpl. by rewrite (H t o). Qed.
End agree.

Section arg.
  Context {K O : Type} `{EqDecision K} (keyf : O → option K) (keyl : list (dtype * dobj K (arg K O)) → option K).
  Notation akey := (arg_key keyf keyl).
  Notation plain_key := (λ a : arg K O, match a with AObj o => keyf o | ADeltas _ => None end).
  Lemma no_list_key o : no_list o → key_of akey o = key_of plain_key o.
  Proof. intros H. destruct o as [[o|ds]|k o]; [done|by destruct (H ds)|done]. Qed.
  Lemma plain_agree (s : dfifo K (arg K O)) c : (∀ o, gives c o → no_list o) → (dstep akey s c).1 = (dstep plain_key s c).1.
  Proof.
    intros H. unfold dstep, dcall. destruct (d_busy s) as [?|]; [destruct (needs_lock c) eqn:?; [done|]; by destruct c; simpl; try destruct (key_of _ _); try destruct (key_of _ _)|].
    destruct c as [o|o|kn o| | |o|k|kn l|kn| |out|ds| | |]; simpl; try done; simpl in H.
    - rewrite (add_agree akey plain_key); [done|]. by apply no_list_key, H.
    - rewrite (add_agree akey plain_key); [done|]. by apply no_list_key, H.
    - rewrite (delete_agree akey plain_key); [done|]. by apply no_list_key, H.
    - by destruct (key_of _ _), (key_of _ _).
    - rewrite (replace_agree akey plain_key); [done|]. intros o Ho. by apply no_list_key, H.
    - destruct kn as [kn|]; [|done]. simpl. rewrite (resync_agree akey plain_key); [done|]. intros k o Ho. apply no_list_key, H. by exists k.
    - rewrite (put_agree akey plain_key); [done|]. intros t o Ho. apply no_list_key, H. by exists t.
  Qed.
  Lemma plain_run_from s0 h (s : dfifo K (arg K O)) : exec (dstep akey) s0 h s → (∃ h', exec (dstep plain_key) dfifo_init h' s0) →
    listless h → ∃ h', exec (dstep plain_key) dfifo_init h' s.
  Proof.
    induction 1 as [s|s c r s1 h s' Hs He IH]; intros H0 Hl; [done|]. apply IH.
    - destruct H0 as [h' H']. exists (h' ++ [(c, (dstep plain_key s c).2)]). apply exec_snoc. exists s. split; [done|].
      pose proof (plain_agree s c) as E. rewrite Hs in E. simpl in E. rewrite E by (intros o; apply (Hl c r); by left). by destruct (dstep plain_key s c).
    - intros c' r' o Hin. apply (Hl c' r'). by right.
  Qed.
  Lemma plain_run h (s : dfifo K (arg K O)) : exec (dstep akey) dfifo_init h s → listless h → ∃ h', exec (dstep plain_key) dfifo_init h' s.
  Proof. intros He. eapply plain_run_from; [done|]. exists []. constructor. Qed.

  (** the key of a pending list *)
  Lemma pending_key h (s : dfifo K (arg K O)) k ds : exec (dstep akey) dfifo_init h s → (dstep akey s (DGetByKey k)).2 = DDeltas (Some ds) →
    ∃ t o, last ds = Some (t, o) ∧ key_of akey o = Some k.
  Proof.
    intros He Hg. pose proof (df_readable akey h s k He) as Hr. rewrite Hg in Hr.
    destruct (k_pend (replay akey k h)) as [|d ds'] eqn:Ep; [done|]. injection Hr as ->.
    assert (HD : DI akey s) by (by eapply DI_exec). assert (Hd : dget k (d_items s) = Some (d :: ds')).
    { unfold dstep, dcall in Hg. destruct (d_busy s); simpl in Hg; congruence. }
    pose proof (di_items _ _ HD _ _ Hd) as Hk. unfold deltas_key in Hk. destruct (last (d :: ds')) as [[t o]|] eqn:E; [|done]. by exists t, o.
  Qed.
  Lemma pop_pending h (s : dfifo K (arg K O)) ds : exec (dstep akey) dfifo_init h s → (dstep akey s DPop).2 = DPopped ds →
    ∃ k, deltas_key akey ds = Some k ∧ (dstep akey s (DGetByKey k)).2 = DDeltas (Some ds).
  Proof.
    intros He Hp. destruct (df_pop_delivers akey h s ds He Hp) as (k & Hk & Hd). exists k. split; [done|].
    rewrite (df_readable akey h s k He), Hd. by destruct ds.
  Qed.
  Lemma list_key ds t o : last ds = Some (t, o) → no_list o → key_of akey (DObj (ADeltas ds)) = key_of akey o.
  Proof. intros Hl Hn. simpl. rewrite Hl. destruct o as [[o|ds']|k o]; [done|by destruct (Hn ds')|done]. Qed.
  Lemma get_list (s : dfifo K (arg K O)) ds k : key_of akey (DObj (ADeltas ds)) = Some k →
    (dstep akey s (DGet (DObj (ADeltas ds)))).2 = (dstep akey s (DGetByKey k)).2.
  Proof.
    intros Hk. change (arg_key keyf keyl (ADeltas ds) = Some k) in Hk. unfold dstep, dcall. destruct (d_busy s); cbn [needs_lock dcall_free key_of]; by rewrite Hk.
  Qed.
  Lemma round h (s : dfifo K (arg K O)) k ds : exec (dstep akey) dfifo_init h s → listless h → (dstep akey s (DGetByKey k)).2 = DDeltas (Some ds) →
    key_of akey (DObj (ADeltas ds)) = Some k ∧ (dstep akey s (DGet (DObj (ADeltas ds)))).2 = DDeltas (Some ds).
  Proof.
    intros He Hl Hg. destruct (plain_run h s He Hl) as [h' He'].
    assert (HD : DI plain_key s) by (by eapply DI_exec). assert (Hd : dget k (d_items s) = Some ds).
    { unfold dstep, dcall in Hg. destruct (d_busy s); simpl in Hg; congruence. }
    pose proof (di_items _ _ HD _ _ Hd) as Hk. unfold deltas_key in Hk. destruct (last ds) as [[t o]|] eqn:E; [|done]. simpl in Hk.
    assert (Hn : no_list o) by (intros ds' ->; done). assert (key_of akey (DObj (ADeltas ds)) = Some k) as Hkk.
    { rewrite (list_key ds t o E Hn), (no_list_key o Hn). done. }
    split; [done|]. by rewrite (get_list s ds k Hkk).
  Qed.
  Lemma popped h (s : dfifo K (arg K O)) ds : exec (dstep akey) dfifo_init h s → listless h → (dstep akey s DPop).2 = DPopped ds →
    ∃ k, key_of akey (DObj (ADeltas ds)) = Some k ∧ (dstep akey s (DGetByKey k)).2 = DDeltas (Some ds) ∧
      (dstep akey (dstep akey s DPop).1 (DGet (DObj (ADeltas ds)))).2 = DDeltas None.
  Proof.
    intros He Hl Hp. destruct (pop_pending h s ds He Hp) as (k & Hk & Hg). destruct (round h s k ds He Hl Hg) as [Hkk _]. exists k. split; [done|]. split; [done|].
    rewrite (get_list _ ds k Hkk). destruct (df_outcome akey h s DOk ds k He Hp Hk) as [H1 _]. done.
  Qed.
  Lemma put_back h (s : dfifo K (arg K O)) ds out : exec (dstep akey) dfifo_init h s → (dstep akey s DPop).2 = DPopped ds →
    let s2 := (dstep akey (dstep akey s DPop).1 (DFinish out)).1 in
    ∃ k, (dstep akey s (DGetByKey k)).2 = DDeltas (Some ds) ∧ (dstep akey (dstep akey s2 (DAddIfNotPresent ds)).1 (DGetByKey k)).2 = DDeltas (Some ds).
  Proof.
    intros He Hp s2. destruct (pop_pending h s ds He Hp) as (k & Hk & Hg). exists k. split; [done|].
    destruct (df_outcome akey h s out ds k He Hp Hk) as (H1 & H2 & H3 & H4). fold s2 in H3, H4.
    assert (He2 : ∃ h2, exec (dstep akey) dfifo_init h2 s2).
    { eexists ((h ++ [(DPop, _)]) ++ [(DFinish out, _)]). apply exec_snoc. exists (dstep akey s DPop).1. split; [|apply surjective_pairing].
      apply exec_snoc. exists s. split; [done|]. apply surjective_pairing. }
    destruct He2 as [h2 He2]. assert (Hw : (dstep akey s2 (DAddIfNotPresent ds)).2 ≠ DLockWait).
    { assert (Hb : d_busy s2 = None).
      { unfold s2. generalize (dstep akey s DPop).1. intros s1. unfold dstep, dcall.
        assert (Hf : d_busy (df_finish out s1).1.1 = None).
        { unfold df_finish. destruct (d_busy s1) as [[k1 ds1]|] eqn:Hb; [|done]. destruct out; try done.
          destruct (put_if_absent _ _ _) as [s3 n3] eqn:Eq. unfold put_if_absent in Eq. destruct (decide _); by simplify_eq. }
        by destruct (d_busy s1). }
      unfold dstep, dcall. rewrite Hb. simpl. unfold df_add_if_not_present. destruct (last ds) as [d|]; [|done]. destruct (key_of akey d.2); [|done]. by destruct (put_if_absent _ _ _). }
    destruct (df_put_back akey h2 s2 ds k _ He2 Hk Hw H3) as [H5 _]. rewrite H5. by destruct out.
  Qed.
  (** an empty list *)
  Lemma add_empty h (s : dfifo K (arg K O)) c : exec (dstep akey) dfifo_init h s → c = DAdd (DObj (ADeltas [])) ∨ c = DUpdate (DObj (ADeltas [])) →
    (dstep akey s c).2 ≠ DLockWait →
    (dstep akey s c).2 = DKeyFuncError (DObj (ADeltas [])) ∧ (dstep akey (dstep akey s c).1 DListKeys).2 = (dstep akey s DListKeys).2 ∧
    (∀ k, (dstep akey (dstep akey s c).1 (DGetByKey k)).2 = (dstep akey s (DGetByKey k)).2) ∧
    ((∀ e, e ∈ h → inert e.1) → (dstep akey s DHasSynced).2 = DBool false ∧ (dstep akey (dstep akey s c).1 DHasSynced).2 = DBool true).
  Proof.
    intros He Hc Hw. assert (Hb : d_busy s = None).
    { destruct (d_busy s) eqn:Hb; [|done]. exfalso. apply Hw. unfold dstep, dcall. rewrite Hb. by destruct Hc as [->| ->]. }
    assert (E : dstep akey s c = (set_populated s, DKeyFuncError (DObj (ADeltas [])))) by (unfold dstep, dcall; rewrite Hb; by destruct Hc as [->| ->]).
    rewrite E. cbn [fst snd]. split; [done|]. unfold dstep, dcall. cbn [d_busy set_populated]. rewrite Hb. simpl. split; [done|]. split; [done|].
    intros Hi. pose proof (df_not_synced_before akey h s He Hi) as Hn. unfold dstep, dcall in Hn. rewrite Hb in Hn. simpl in Hn. split; [done|].
    destruct (inert_exec akey h s He Hi) as [b ->]. done.
  Qed.
  Lemma ask_empty (s : dfifo K (arg K O)) c : c = DGet (DObj (ADeltas [])) ∨ (∃ kn, c = DDelete kn (DObj (ADeltas []))) →
    (dstep akey s c).2 ≠ DLockWait → dstep akey s c = (s, DKeyFuncError (DObj (ADeltas []))).
  Proof. intros Hc. unfold dstep, dcall. destruct (d_busy s) eqn:?; destruct Hc as [->|[kn ->]]; simpl; done. Qed.
  Lemma put_empty (s : dfifo K (arg K O)) : (dstep akey s (DAddIfNotPresent [])).2 ≠ DLockWait → dstep akey s (DAddIfNotPresent []) = (s, DAttributeError).
  Proof. unfold dstep, dcall. destruct (d_busy s) eqn:?; simpl; done. Qed.
  (** a list becomes the object of a delta *)
  Lemma add_list h (s : dfifo K (arg K O)) ds t o k p : exec (dstep akey) dfifo_init h s → last ds = Some (t, o) → no_list o → key_of akey o = Some k →
    (dstep akey s (DAdd (DObj (ADeltas ds)))).2 ≠ DLockWait → (dstep akey s (DGetByKey k)).2 = DDeltas p →
    (dstep akey (dstep akey s (DAdd (DObj (ADeltas ds)))).1 (DGetByKey k)).2 = DDeltas (Some (pending_of p ++ [(DtAdded, DObj (ADeltas ds))])).
  Proof.
    intros He Hl Hn Hk Hw Hg. pose proof (list_key ds t o Hl Hn) as E. rewrite Hk in E.
    by destruct (df_add_result akey h s (DObj (ADeltas ds)) k p He Hw E Hg).
  Qed.
End arg.

(** ** Concrete runs: objects are numbers that are their own keys; the key function raises on lists *)
Definition nkey : nat → option nat := Some.
Definition nlist : list (dtype * dobj nat (arg nat nat)) → option nat := λ _, None.
Notation nstep := (dstep (arg_key nkey nlist)).
Definition nobj (n : nat) : dobj nat (arg nat nat) := DObj (AObj n).
Lemma nested : ∃ h (s : dfifo nat (arg nat nat)) ds, exec nstep dfifo_init h s ∧ (nstep s DPop).2 = DPopped ds ∧ (nstep s DListKeys).2 = DKeys [1] ∧
  key_of (arg_key nkey nlist) (DObj (ADeltas ds)) = None ∧ ∀ r, (nstep (nstep s DPop).1 (DGet (DObj (ADeltas ds)))).2 ≠ DDeltas r.
Proof.
  eexists _, _, _. split; [apply (run_exec nstep dfifo_init [DAdd (DObj (ADeltas [(DtAdded, nobj 1)]))])|].
  split; [vm_compute; reflexivity|]. split; [done|]. split; [done|]. done.
Qed.
Definition plain_calls : list (dop nat (arg nat nat)) := [DAdd (nobj 1); DUpdate (nobj 1); DDelete None (nobj 1); DAdd (nobj 2); DGet (DObj (ADeltas [(DtAdded, nobj 1)]))].
Lemma plain_case : ∃ h (s : dfifo nat (arg nat nat)), h.*1 = plain_calls ∧ exec nstep dfifo_init h s ∧ listless h ∧
  (nstep s (DGetByKey 1)).2 = DDeltas (Some [(DtAdded, nobj 1); (DtUpdated, nobj 1); (DtDeleted, nobj 1)]).
Proof.
  eexists _, _. split; [|split; [apply (run_exec nstep dfifo_init plain_calls)|]]; [done|]. split; [|done].
  intros c r o Hin. vm_compute in Hin. repeat (apply elem_of_cons in Hin as [[= -> ->]|Hin]; [simpl; try done; by intros -> ds|]). by apply elem_of_nil in Hin.
Qed.
