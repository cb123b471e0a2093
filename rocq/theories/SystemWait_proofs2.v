(** Concrete runs for SystemWait_props.v. *)
From Verif Require Import Base KeyFunc_model KeyFunc_spec DeltaFifo_model DeltaFifo_spec Store_model Reflector_model Reflector_spec World_model Informer_model Informer_spec InformerWorld_model InformerWorld_proofs
  SharedInformer_model SharedInformer_spec Listener_model Source_model Source_spec WorkQueue_model DelayQueue_model RateLimit_model Controller_model Controller_live_spec
  System_model System_spec System_proofs System_proofs2 System_live_spec System_live_proofs System_live_proofs7 SystemWait_model.
From Coq Require Import ZArith QArith Strings.String.
From stdpp Require Import strings.
Local Open Scope nat_scope.

Notation wex := (bstep (V:=nat) (N:=nat) ex_g 1%Z 10%Z 0 []).
Definition wex_single (z : ex_sys) l z' := wex z l z' ∧ well_named ex_key (Some "ns"%string) (Some "p"%string) l ∧ single_list z l.
Tactic Notation "bs" uconstr(l) tactic3(tac) := eapply (reach_cons _ _ l); [first [split; [split; [tac|first [by intros [=]|intros _; vm_compute; reflexivity]]|split; [wname|sub]]
  |split; [tac|first [by intros [=]|intros _; vm_compute; reflexivity]]]|]; try compute_state.
Tactic Notation "bchange" uconstr(e) := bs (ZWorld (WChange e)) (eapply z_refl; [right; vr|right; vr|apply w_change; good_ch]).
Tactic Notation "bdeliver" uconstr(e) := bs (ZWorld (WDeliver e)) (eapply z_refl; [left; vr|left; vr|eapply w_deliver; vr]).
Tactic Notation "blist" uconstr(l) uconstr(v) := bs (ZWorld (WInput (IList l v))) (eapply z_refl; [left; vr|left; vr|eapply w_input; [good_li|vr]]).
Tactic Notation "binput" uconstr(i) := bs (ZWorld (WInput i)) (eapply z_refl; [left; vr|left; vr|eapply w_input; [exact I|vr]]).
Tactic Notation "bshared" uconstr(c) := bs (ZShared c _) (eapply z_informer; vr).
Tactic Notation "blis" uconstr(l) := bs (ZLis l) (eapply z_listener; [vr|econstructor; eauto]).
Tactic Notation "bfeed" := bs (ZLis (LAdd _)) (eapply z_feed; [vr|econstructor]).
Tactic Notation "bcall" := bs (ZLis (LCall _)) (eapply z_call; econstructor; done).
Tactic Notation "badd" := bs (ZAdd _) (eapply z_add; eapply k_env; [exact I|econstructor]).
Tactic Notation "bend" := bs (ZLis LReturn) (eapply (z_end _ _ _ _ _ _ _ _ _ false); econstructor).
Tactic Notation "bget" := bs (ZCtl (KGet 0 _ _)) (eapply z_worker; eapply k_get; [vr|eapply dt_get; vr]).
Tactic Notation "bret" := bs (ZCtl (KRet 0 _ (OResult false 0) 0 _)) (eapply z_worker; eapply k_ret; vr).
Tactic Notation "bdone" := bs (ZCtl (KDone 0 _ _)) (eapply z_worker; eapply k_done; [vr|eapply dt_done; vr]).

(** four notifications ahead of a handler that was not called *)
Lemma four_ahead : ∃ tr0 (z0 : ex_sys) tr z, reach wex ex_init tr0 z0 ∧ registered 0 z0 ∧ waits 0 z0 = false ∧ reach wex z0 tr z ∧ stopped z = false ∧
  length (log_of 0 (z_inf z)) = 4 ∧ calls (tr0 ++ tr) = [] ∧ waits 0 z = true.
Proof.
  eexists _, _, _, _. split; [|split; [|split; [|split]]].
  - compute_state. bshared (HRegister None 0%Z). apply reach_nil.
  - vm_compute. lia.
  - done.
  - bshared HRun. bchange (ev EvAdded "1"). blist [ex_pod "1"] 1. binput IWatch.
    bshared (HInf PPop). bshared (HInf PDelta). blis LStartPump. blis LStartRun. bfeed. blis (LPut _). blis LGet. blis LWake. blis LJoined. bshared (HInf PDone).
    blis LPutNext. blis LFetch. blis LWake. blis LNextJoined.
    bchange (ev EvModified "2"). bdeliver (ev EvModified "2"). bshared (HInf PPop). bshared (HInf PDelta). bfeed. blis (LPut _). blis LGet. blis LWake. blis LJoined. bshared (HInf PDone). blis LPutNext.
    bchange (ev EvModified "3"). bdeliver (ev EvModified "3"). bshared (HInf PPop). bshared (HInf PDelta). bfeed. blis (LPut _). blis LGet. blis LJoined. bshared (HInf PDone).
    bshared (HShouldResync 10%Z). binput (IResync true). bshared (HInf PPop). bshared (HInf PDelta). bfeed. blis (LPut _).
    apply reach_nil.
  - by repeat split.
Qed.

(** an infinite run *)
Lemma wait_run : ∃ (σ : nat → ex_sys) lb n, σ 0 = ex_init ∧ zruns wex_single σ lb ∧ (∀ m, stopped (σ m) = false) ∧ (∀ p, just wex σ lb p) ∧ workers_go_on σ lb ∧
  (∀ m, lb m ≠ ZCtl (KCancel 0)) ∧ server_rests σ lb n ∧ registered 0 (σ n) ∧ length (w_changes (z_world (σ n))) = 2 ∧ cached ex_key (σ n) = Some (DObj (ex_pod "1")).
Proof.
  assert (∃ tr1 z1 tr2 z, reach wex_single ex_init tr1 z1 ∧ reach wex_single z1 tr2 z ∧ wex_single z zgetb z ∧
    stopped z = false ∧ (∀ p l z', acts p l → ¬ ex_step z l z') ∧ length (k_ws (z_ctl z)) = 1 ∧ (∀ l, l ∈ tr1 ++ tr2 → l ≠ ZCtl (KCancel 0)) ∧
    running (z_inf z1) = true ∧ (∃ c, r_pc (w_refl (z_world z1)) = RWatching c) ∧ r_failed (w_refl (z_world z1)) = false ∧ (∀ l, ZWorld l ∈ tr2 → ∃ e, l = WDeliver e) ∧
    registered 0 z1 ∧ length (w_changes (z_world z1)) = 2 ∧ cached ex_key z1 = Some (DObj (ex_pod "1")))
    as (tr1 & z1 & tr2 & z & H1 & H2 & H3 & Hs & Hno & Hw & Hc & R1 & R2 & R3 & R4 & R5).
  - eexists _, _, _, _. split; [|split; [|split]].
    + compute_state. bshared (HRegister None 0%Z). bshared HRun. bchange (ev EvAdded "1"). blist [ex_pod "1"] 1. binput IWatch.
      bshared (HInf PPop). bshared (HInf PDelta). blis LStartPump. blis LStartRun. bfeed. blis (LPut _). blis LGet. blis LWake. blis LJoined. bshared (HInf PDone).
      blis LPutNext. blis LFetch. bcall. badd. bend. bget. bret. bdone.
      bchange (ev EvModified "2"). apply reach_nil.
    + bdeliver (ev EvModified "2"). bshared (HInf PPop). bshared (HInf PDelta).
      bfeed. blis (LPut _). blis LWake. blis LNextJoined. blis LGet. blis LWake. blis LJoined. bshared (HInf PDone). blis LPutNext. blis LFetch. bcall. badd. badd. bend. bget. bret. bdone.
      blis LWake. blis LNextJoined. apply reach_nil.
    + split; [split; [|done]|done]. apply z_worker. match goal with |- kstep _ ?s _ _ => refine (k_get _ s 0 RBlocked (k_q s) 0%Z _ _); [done|]; refine (dt_get (k_q s) (dq_base (k_q s)) RBlocked _) end. done.
    + split; [done|]. split.
      { intros p l z' Ha Hst. inversion Hst as [w h f ll a b kk wl w' s' Hrun Hlock Hw|w h f ll a b kk c h' x Hown Hh|w h f ll a b kk n l' Hlog Hl|w h f ll a b kk lab l' Hfree Hl|w h f ll a b kk n l' Hl
          |w h f ll x a b kk k' Hk|w h f ll b kk l' Hl|w h f ll a b kk kl k' Hk]; subst; clear Hst; try (by destruct p).
        - destruct p, wl; try done. by inversion Hw.
        - destruct p, c as [[]| | | |]; try done; vm_compute in Hh; injection Hh as <- <-; done.
        - inversion Hl; subst; destruct p; try done. naive_solver.
        - inversion Hl.
        - inversion Hl; by destruct b. }
      split; [done|]. split; [intros l Hl ->; repeat (apply elem_of_cons in Hl as [Hl|Hl]; [done|]); by apply elem_of_nil in Hl|].
      split; [done|]. split; [by eexists|]. split; [done|]. split; [intros l Hl; repeat (apply elem_of_cons in Hl as [Hl|Hl]; [first [done|injection Hl as ->; by eexists]|]); by apply elem_of_nil in Hl|].
      split; [vm_compute; lia|]. done.
  - destruct (lasso _ _ _ _ _ _ _ H1 H2 H3) as (σ & lb & E0 & Hr & Em & He & Ha & Hb). exists σ, lb, (length tr1). split; [done|]. split; [exact Hr|].
    set (T := length tr1 + length tr2) in *. split; [|split; [|split; [|split]]].
    + intros m. assert (Hge : ∀ d, stopped (σ (m + d)) = false → stopped (σ m) = false).
      { intros d. induction d as [|d IH]; [by rewrite Nat.add_0_r|]. rewrite Nat.add_succ_r. intros Hd. apply IH. destruct (Hr (m + d)) as [[Hst _] _]. by eapply stopped_back. }
      apply (Hge T). destruct (He (m + T)) as [-> _]; [lia|done].
    + intros p n. exists (n + T). split; [lia|]. right. destruct (He (n + T)) as [-> _]; [lia|]. intros l z' Hp [Hst _]. by apply (Hno p l z').
    + intros j n p Hp. exists (n + T). split; [lia|]. left. destruct (He (n + T)) as [_ ->]; [lia|]. eexists. split; [done|]. simpl.
      assert (length (k_ws (z_ctl (σ n))) = 1) as Hl.
      { rewrite <-Hw. destruct (He (n + T)) as [<- _]; [lia|]. clear -Hr. induction T as [|d IH]; [by rewrite Nat.add_0_r|]. rewrite Nat.add_succ_r, IH. destruct (Hr (n + d)) as [[Hst _] _]. by rewrite (ws_step _ _ _ Hst). }
      apply lookup_lt_Some in Hp. lia.
    + intros m. specialize (Ha m). rewrite app_assoc in Ha. apply elem_of_app in Ha as [Ha| ->%elem_of_list_singleton]; [by apply Hc|done].
    + split; [|by rewrite Em]. rewrite <-Em in *. split; [done|]. split; [done|]. split; [done|]. intros m l Hm Hl. specialize (Hb m Hm). rewrite Hl in Hb.
      apply elem_of_app in Hb as [Hb|Hb]; [by apply R4|]. by apply elem_of_list_singleton in Hb.
Qed.
