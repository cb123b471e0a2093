(** Concrete runs of the whole system. *)
From Verif Require Import Base KeyFunc_model KeyFunc_spec DeltaFifo_model DeltaFifo_spec Store_model Reflector_model Reflector_spec World_model Informer_model Informer_spec InformerWorld_model InformerWorld_proofs
  SharedInformer_model SharedInformer_spec Listener_model Source_model Source_spec WorkQueue_model DelayQueue_model RateLimit_model Controller_model System_model System_spec.
From Coq Require Import ZArith QArith Strings.String.
From stdpp Require Import strings.
Local Open Scope nat_scope.

Definition version_of (s : string) : option nat :=
  if decide (s = "1"%string) then Some 1 else if decide (s = "2"%string) then Some 2 else if decide (s = "3"%string) then Some 3 else None.
Definition ex_g : rcfg pyobj nat := Rcfg false (λ _, true) None (λ _, None) (λ _, None) (λ _, true)
  (λ o, match o with Unstructured (Some d) _ => match dget "resourceVersion"%string d with Some (Some s) => version_of s | _ => None end | _ => None end).
(** a pod ns/p at a version *)
Definition ex_pod (v : string) : pyobj := Unstructured (Some [("namespace", Some "ns"); ("name", Some "p"); ("resourceVersion", Some v)]%string) ""%string.
Definition ex_key : pystr := Some "ns/p"%string.
Definition ex_req : nsname := NsName (Some "ns"%string) (Some "p"%string).
Notation ex_sys := (sys nat nat).
Notation ex_init := (sys_init (V:=nat) (N:=nat) 10%Z [] 0%Z 1).
Notation ex_step := (zstep (V:=nat) (N:=nat) ex_g 1%Z 10%Z 0 []).
Definition ev (t : etype) (v : string) : Reflector_model.event pyobj := Event t (ex_pod v).

Lemma ex_named v : named (ex_pod v) (Some "ns"%string) (Some "p"%string).
Proof. right. by eexists _, _. Qed.
Lemma ex_pod_key v : queue_key (ex_pod v) = Some ex_key.
Proof. done. Qed.

Ltac good_ch := split; [by eauto|split; [by eexists|repeat split; by vm_compute]].
Ltac good_li := split; [simpl; lia|split; [first [intros ? ->%elem_of_list_singleton; by eexists|intros ? ?%elem_of_nil; done]|intros kk; unfold server_at; simpl; rewrite ?ex_pod_key; by repeat case_decide]].
Ltac wname := first [exact I|intros _; apply ex_named|intros ? ->%elem_of_list_singleton _; apply ex_named|intros ? ?%elem_of_nil; done].
Ltac sub := first [exact I|vm_compute; reflexivity|vm_compute; exact I|apply InformerWorld_proofs.drained_calm; split; vm_compute; reflexivity].
Tactic Notation "zs" uconstr(l) tactic3(tac) := eapply (reach_cons _ _ l); [split; [tac|split; [wname|sub]]|]; try compute_state.
Ltac vr := vm_compute; reflexivity.
Tactic Notation "zchange" uconstr(e) := zs (ZWorld (WChange e)) (eapply z_refl; [right; vr|right; vr|apply w_change; good_ch]).
Tactic Notation "zdeliver" uconstr(e) := zs (ZWorld (WDeliver e)) (eapply z_refl; [left; vr|left; vr|eapply w_deliver; vr]).
Tactic Notation "zlist" uconstr(l) uconstr(v) := zs (ZWorld (WInput (IList l v))) (eapply z_refl; [left; vr|left; vr|eapply w_input; [good_li|vr]]).
Tactic Notation "zinput" uconstr(i) := zs (ZWorld (WInput i)) (eapply z_refl; [left; vr|left; vr|eapply w_input; [exact I|vr]]).
Tactic Notation "zshared" uconstr(c) := zs (ZShared c _) (eapply z_informer; vr).
Tactic Notation "zlis" uconstr(l) := zs (ZLis l) (eapply z_listener; [vr|econstructor; eauto]).
Tactic Notation "zfeed" := zs (ZLis (LAdd _)) (eapply z_feed; [vr|econstructor]).
Tactic Notation "zcall" := zs (ZLis (LCall _)) (eapply z_call; econstructor; done).
Tactic Notation "zadd" := zs (ZAdd _) (eapply z_add; eapply k_env; [exact I|econstructor]).
Tactic Notation "zend" := zs (ZLis LReturn) (eapply (z_end _ _ _ _ _ _ _ _ _ false); econstructor).
Tactic Notation "zget" := zs (ZCtl (KGet 0 _ _)) (eapply z_worker; eapply k_get; [vr|eapply dt_get; vr]).
Tactic Notation "zret" := zs (ZCtl (KRet 0 _ (OResult false 0) 0 _)) (eapply z_worker; eapply k_ret; vr).
Tactic Notation "zdone" := zs (ZCtl (KDone 0 _ _)) (eapply z_worker; eapply k_done; [vr|eapply dt_done; vr]).

Definition ex_single (z : ex_sys) l z' := ex_step z l z' ∧ well_named ex_key (Some "ns"%string) (Some "p"%string) l ∧ single_list z l.
Lemma ex_run : ∃ tr (z : ex_sys), reach ex_single ex_init tr z ∧ registered 0 z ∧ stopped z = false ∧ quiet 0 ex_key ex_req z ∧ drained (h_inf (z_inf z)) ∧
  r_last (w_refl (z_world z)) = Some 2 ∧ length (w_changes (z_world z)) = 2 ∧ cached ex_key z = Some (DObj (ex_pod "2")) ∧ k_ws (z_ctl z) = [WRun ex_req].
Proof.
  eexists _, _. split.
  - compute_state. zshared (HRegister None 0%Z). zshared HRun. zchange (ev EvAdded "1"). zlist [ex_pod "1"] 1. zinput IWatch.
    zshared (HInf PPop). zshared (HInf PDelta). zshared (HInf PDone).
    zlis LStartPump. zlis LStartRun. zfeed. zlis (LPut _). zlis LGet. zlis LWake. zlis LJoined. zlis LPutNext. zlis LFetch. zcall. zadd. zend. zget. zret. zdone.
    zchange (ev EvModified "2"). zdeliver (ev EvModified "2"). zshared (HInf PPop). zshared (HInf PDelta). zshared (HInf PDone).
    zfeed. zlis (LPut _). zlis LWake. zlis LNextJoined. zlis LGet. zlis LWake. zlis LJoined. zlis LPutNext. zlis LFetch. zcall. zadd. zadd. zend. zget.
    apply reach_nil.
  - split; [vm_compute; lia|]. split; [done|]. split.
    { split; [|split; vm_compute; by intros ?%elem_of_nil]. intros n [Hn|Hn]; [by apply elem_of_nil in Hn|]. destruct Hn; try done; [by apply elem_of_nil in H]. }
    by repeat split.
Qed.

(** relists break it *)
Definition ex_calm (z : ex_sys) l z' := ex_step z l z' ∧ well_named ex_key (Some "ns"%string) (Some "p"%string) l ∧ calm_lists z l.
Definition stale_reconcile (c : option (dobj pystr pyobj)) : Prop := ∃ tr1 z1 tr2 (z : ex_sys), reach ex_calm ex_init tr1 z1 ∧ reach ex_calm z1 tr2 z ∧
  registered 0 z ∧ stopped z = false ∧ quiet 0 ex_key ex_req z ∧ drained (h_inf (z_inf z)) ∧ r_last (w_refl (z_world z)) = Some 2 ∧ length (w_changes (z_world z)) = 2 ∧
  cached ex_key z1 = Some (DObj (ex_pod "1")) ∧ cached ex_key z = c ∧ ∀ kl, ZCtl kl ∉ tr2.
Ltac finish := 
  split; [vm_compute; lia|]; split; [done|]; split;
    [split; [|split; vm_compute; by intros ?%elem_of_nil]; intros n [Hn|Hn]; [by apply elem_of_nil in Hn|]; destruct Hn as [H|H|? ? H|H|? H|H|H]; try done; by apply elem_of_nil in H|];
  repeat (split; [done|]); intros kl Hin; repeat (apply elem_of_cons in Hin as [Hin|Hin]; [done|]); by apply elem_of_nil in Hin.
Lemma stale_update : stale_reconcile (Some (DObj (ex_pod "2"))).
Proof.
  eexists _, _, _, _. split; [|split].
  - compute_state. zshared (HRegister None 0%Z). zshared (HRegister (Some 5%Z) 0%Z). zshared HRun. zchange (ev EvAdded "1"). zlist [ex_pod "1"] 1. zinput IWatch.
    zshared (HInf PPop). zshared (HInf PDelta). zshared (HInf PDone).
    zlis LStartPump. zlis LStartRun. zfeed. zlis (LPut _). zlis LGet. zlis LWake. zlis LJoined. zlis LPutNext. zlis LFetch. zcall. zadd. zend. zget. zret. zdone.
    apply reach_nil.
  - zshared (HShouldResync 5%Z). zinput (IResync true). zshared (HInf PPop). zshared (HInf PDelta). zshared (HInf PDone).
    zchange (ev EvModified "2"). zinput (IClose false). zinput IWatchFails. zlist [ex_pod "2"] 2. zinput IWatch.
    zshared (HInf PPop). zshared (HInf PDelta). zshared (HInf PDone).
    apply reach_nil.
  - finish.
Qed.
Lemma stale_delete : stale_reconcile None.
Proof.
  eexists _, _, _, _. split; [|split].
  - compute_state. zshared (HRegister None 0%Z). zshared HRun. zchange (ev EvAdded "1"). zlist [ex_pod "1"] 1. zinput IWatch.
    zshared (HInf PPop). zshared (HInf PDelta). zshared (HInf PDone).
    zlis LStartPump. zlis LStartRun. zfeed. zlis (LPut _). zlis LGet. zlis LWake. zlis LJoined. zlis LPutNext. zlis LFetch. zcall. zadd. zend. zget. zret. zdone.
    apply reach_nil.
  - zchange (ev EvDeleted "2"). zinput (IClose false). zinput IWatchFails. zlist [] 2. zinput IWatch.
    zshared (HInf PPop). zshared (HInf PDelta). zshared (HInf PDone).
    zfeed. zlis (LPut _). zlis LWake. zlis LNextJoined. zlis LGet. zlis LWake. zlis LJoined. zlis LPutNext. zlis LFetch. zcall. zend.
    apply reach_nil.
  - finish.
Qed.
