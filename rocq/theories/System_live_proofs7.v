(** A concrete infinite run of the whole system. *)
From Verif Require Import Base KeyFunc_model KeyFunc_spec DeltaFifo_model DeltaFifo_spec Store_model Reflector_model Reflector_spec World_model Informer_model Informer_spec InformerWorld_model InformerWorld_proofs
  SharedInformer_model SharedInformer_spec Listener_model Source_model Source_spec WorkQueue_model DelayQueue_model RateLimit_model Controller_model Controller_live_spec
  System_model System_spec System_proofs System_proofs2 System_live_spec System_live_proofs.
From Coq Require Import ZArith QArith Strings.String.
From stdpp Require Import strings.
Local Open Scope nat_scope.

Lemma reach_nil_inv {S L : Type} (step : S → L → S → Prop) s s' : reach step s [] s' → s = s'.
Proof. intros H. inversion H; subst; [done|]. match goal with E : ?a ++ _ = [] |- _ => by destruct a end. Qed.
(** a finite run that ends in a loop *)
Lemma lasso {S L : Type} (step : S → L → S → Prop) z0 tr1 z1 tr2 z l : reach step z0 tr1 z1 → reach step z1 tr2 z → step z l z →
  ∃ (σ : nat → S) (lb : nat → L), σ 0 = z0 ∧ (∀ n, step (σ n) (lb n) (σ (Datatypes.S n))) ∧ σ (length tr1) = z1 ∧
    (∀ n, length tr1 + length tr2 ≤ n → σ n = z ∧ lb n = l) ∧ (∀ n, lb n ∈ tr1 ++ tr2 ++ [l]) ∧ ∀ n, length tr1 ≤ n → lb n ∈ tr2 ++ [l].
Proof.
  intros H1 H2 Hl. revert z0 H1. induction tr1 as [|x tr1 IH]; intros z0 H1.
  - apply reach_nil_inv in H1 as ->. revert z1 H2. induction tr2 as [|x tr2 IH]; intros z1 H2.
    + apply reach_nil_inv in H2 as ->. exists (λ _, z), (λ _, l). repeat split; try done; intros; by left.
    + apply (reach_app_inv _ _ [x] tr2) in H2 as (z' & Hst%reach_one_inv & H2). destruct (IH z' H2) as (σ & lb & E0 & Hr & _ & He & Ha & Hb).
      exists (λ n, match n with 0 => z1 | Datatypes.S n => σ n end), (λ n, match n with 0 => x | Datatypes.S n => lb n end). split; [done|]. split; [intros [|n]; [by rewrite E0|done]|].
      split; [done|]. simpl. split; [intros [|n] Hn; [lia|]; apply He; simpl; lia|]. split; (intros [|n]; [by left|]); [|intros _]; right; apply Ha.
  - apply (reach_app_inv _ _ [x] tr1) in H1 as (z' & Hst%reach_one_inv & H1). destruct (IH z' H1) as (σ & lb & E0 & Hr & Em & He & Ha & Hb).
    exists (λ n, match n with 0 => z0 | Datatypes.S n => σ n end), (λ n, match n with 0 => x | Datatypes.S n => lb n end). split; [done|]. split; [intros [|n]; [by rewrite E0|done]|].
    split; [done|]. simpl. split; [intros [|n] Hn; [lia|]; apply He; simpl; lia|]. split; [intros [|n]; [by left|right; apply Ha]|]. intros [|n] Hn; [lia|]. apply Hb. lia.
Qed.

Notation zgetb := (ZCtl (KGet 0 RBlocked 0%Z)).
Lemma ws_step (z : ex_sys) l z' : ex_step z l z' → length (k_ws (z_ctl z')) = length (k_ws (z_ctl z)).
Proof. intros Hst. destruct Hst as [| | | | |? ? ? ? ? ? ? ? ? Hk| |? ? ? ? ? ? ? ? ? Hk]; try done; simpl; destruct Hk; simpl; rewrite ?insert_length; done. Qed.
(** what a run does with pods at ns/p only and a reconciler that returns Result() *)
Definition tame (l : zlabel) : Prop :=
  match l with
  | ZWorld (WChange e) => ∃ v, e_obj e = ex_pod v
  | ZWorld (WInput (IList items _)) => ∀ o, o ∈ items → ∃ v, o = ex_pod v
  | ZCtl (KRet _ _ o _ _) => o = OResult false 0
  | ZCtl (KCancel _) => False
  | _ => True
  end.
Lemma tame_run : ∃ (σ : nat → ex_sys) lb n, σ 0 = ex_init ∧ zruns ex_single σ lb ∧ (∀ m, stopped (σ m) = false) ∧ (∀ p, just ex_step σ lb p) ∧ workers_go_on σ lb ∧
  (∀ m, lb m ≠ ZCtl (KCancel 0)) ∧ server_rests σ lb n ∧ registered 0 (σ n) ∧ length (w_changes (z_world (σ n))) = 2 ∧ cached ex_key (σ n) = Some (DObj (ex_pod "1")) ∧
  server_at queue_key (w_changes (z_world (σ n))) (length (w_changes (z_world (σ n)))) ex_key = Some (ex_pod "2") ∧ ∀ m, tame (lb m).
Proof.
  assert (∃ tr1 z1 tr2 z, reach ex_single ex_init tr1 z1 ∧ reach ex_single z1 tr2 z ∧ ex_single z zgetb z ∧
    stopped z = false ∧ (∀ p l z', acts p l → ¬ ex_step z l z') ∧ length (k_ws (z_ctl z)) = 1 ∧ (∀ l, l ∈ tr1 ++ tr2 → l ≠ ZCtl (KCancel 0)) ∧
    running (z_inf z1) = true ∧ (∃ c, r_pc (w_refl (z_world z1)) = RWatching c) ∧ r_failed (w_refl (z_world z1)) = false ∧ (∀ l, ZWorld l ∈ tr2 → ∃ e, l = WDeliver e) ∧
    registered 0 z1 ∧ length (w_changes (z_world z1)) = 2 ∧ cached ex_key z1 = Some (DObj (ex_pod "1")) ∧
    server_at queue_key (w_changes (z_world z1)) (length (w_changes (z_world z1))) ex_key = Some (ex_pod "2") ∧ ∀ l, l ∈ tr1 ++ tr2 → tame l)
    as (tr1 & z1 & tr2 & z & H1 & H2 & H3 & Hs & Hno & Hw & Hc & R1 & R2 & R3 & R4 & R5 & R6 & R7 & R9 & R8).
  - eexists _, _, _, _. split; [|split; [|split]].
    + compute_state. zshared (HRegister None 0%Z). zshared HRun. zchange (ev EvAdded "1"). zlist [ex_pod "1"] 1. zinput IWatch.
      zshared (HInf PPop). zshared (HInf PDelta). zshared (HInf PDone).
      zlis LStartPump. zlis LStartRun. zfeed. zlis (LPut _). zlis LGet. zlis LWake. zlis LJoined. zlis LPutNext. zlis LFetch. zcall. zadd. zend. zget. zret. zdone.
      zchange (ev EvModified "2"). apply reach_nil.
    + zdeliver (ev EvModified "2"). zshared (HInf PPop). zshared (HInf PDelta). zshared (HInf PDone).
      zfeed. zlis (LPut _). zlis LWake. zlis LNextJoined. zlis LGet. zlis LWake. zlis LJoined. zlis LPutNext. zlis LFetch. zcall. zadd. zadd. zend. zget. zret. zdone.
      zlis LWake. zlis LNextJoined. apply reach_nil.
    + split; [|done]. apply z_worker. match goal with |- kstep _ ?s _ _ => refine (k_get _ s 0 RBlocked (k_q s) 0%Z _ _); [done|]; refine (dt_get (k_q s) (dq_base (k_q s)) RBlocked _) end. done.
    + split; [done|]. split.
      { intros p l z' Ha Hst. inversion Hst as [w h f ll a b kk wl w' s' Hrun Hlock Hw|w h f ll a b kk c h' x Hown Hh|w h f ll a b kk n l' Hlog Hl|w h f ll a b kk lab l' Hfree Hl|w h f ll a b kk n l' Hl
          |w h f ll x a b kk k' Hk|w h f ll b kk l' Hl|w h f ll a b kk kl k' Hk]; subst; clear Hst; try (by destruct p).
        - destruct p, wl; try done. by inversion Hw.
        - destruct p, c as [[]| | | |]; try done; vm_compute in Hh; injection Hh as <- <-; done.
        - inversion Hl; subst; destruct p; try done. naive_solver.
        - inversion Hl.
        - inversion Hl; by destruct b. }
      split; [done|]. split; [intros l Hl ->; repeat (apply elem_of_cons in Hl as [Hl|Hl]; [done|]); by apply elem_of_nil in Hl|].
      split; [done|]. split; [by eexists|]. split; [done|]. split; [intros l Hl; repeat (apply elem_of_cons in Hl as [Hl|Hl]; [first [done|injection Hl as ->; by eexists]|]); by apply elem_of_nil in Hl|].
      split; [vm_compute; lia|]. split; [done|]. split; [done|]. split; [done|]. intros l Hl.
      repeat (apply elem_of_cons in Hl as [->|Hl]; [first [exact I|reflexivity|by eexists|intros o ->%elem_of_list_singleton; by eexists]|]). by apply elem_of_nil in Hl.
  - destruct (lasso _ _ _ _ _ _ _ H1 H2 H3) as (σ & lb & E0 & Hr & Em & He & Ha & Hb). exists σ, lb, (length tr1). split; [done|]. split; [exact Hr|].
    set (T := length tr1 + length tr2) in *. split; [|split; [|split; [|split]]].
    + intros m. assert (Hge : ∀ d, stopped (σ (m + d)) = false → stopped (σ m) = false).
      { intros d. induction d as [|d IH]; [by rewrite Nat.add_0_r|]. rewrite Nat.add_succ_r. intros Hd. apply IH. destruct (Hr (m + d)) as [Hst _]. by eapply stopped_back. }
      apply (Hge T). destruct (He (m + T)) as [-> _]; [lia|done].
    + intros p n. exists (n + T). split; [lia|]. right. destruct (He (n + T)) as [-> _]; [lia|]. intros l z'. apply Hno.
    + intros j n p Hp. exists (n + T). split; [lia|]. left. destruct (He (n + T)) as [_ ->]; [lia|]. eexists. split; [done|]. simpl.
      assert (length (k_ws (z_ctl (σ n))) = 1) as Hl.
      { rewrite <-Hw. destruct (He (n + T)) as [<- _]; [lia|]. clear -Hr. induction T as [|d IH]; [by rewrite Nat.add_0_r|]. rewrite Nat.add_succ_r, IH. destruct (Hr (n + d)) as [Hst _]. by rewrite (ws_step _ _ _ Hst). }
      apply lookup_lt_Some in Hp. lia.
    + intros m. specialize (Ha m). rewrite app_assoc in Ha. apply elem_of_app in Ha as [Ha| ->%elem_of_list_singleton]; [by apply Hc|done].
    + assert (∀ m, tame (lb m)) as Ht.
      { intros m. specialize (Ha m). rewrite app_assoc in Ha. apply elem_of_app in Ha as [Ha| ->%elem_of_list_singleton]; [by apply R8|done]. }
      split; [|by rewrite Em]. rewrite <-Em in *. split; [done|]. split; [done|]. split; [done|]. intros m l Hm Hl. specialize (Hb m Hm). rewrite Hl in Hb.
      apply elem_of_app in Hb as [Hb|Hb]; [by apply R4|]. by apply elem_of_list_singleton in Hb.
Qed.
Lemma live_run : ∃ (σ : nat → ex_sys) lb n, σ 0 = ex_init ∧ zruns ex_single σ lb ∧ (∀ m, stopped (σ m) = false) ∧ (∀ p, just ex_step σ lb p) ∧ workers_go_on σ lb ∧
  (∀ m, lb m ≠ ZCtl (KCancel 0)) ∧ server_rests σ lb n ∧ registered 0 (σ n) ∧ length (w_changes (z_world (σ n))) = 2 ∧ cached ex_key (σ n) = Some (DObj (ex_pod "1")).
Proof. destruct tame_run as (σ & lb & n & H1 & H2 & H3 & H4 & H5 & H6 & H7 & H8 & H9 & H10 & _). by exists σ, lb, n. Qed.
