From Verif Require Import Base KeyFunc_model KeyFunc_spec DeltaFifo_model DeltaFifo_spec DeltaFifo_proofs DeltaFifo_proofs2 Store_model Store_spec Store_proofs
  Reflector_model Reflector_spec Reflector_proofs World_model World_proofs Informer_model Informer_spec Informer_proofs Informer_proofs2 Informer_proofs3 InformerWorld_model InformerWorld_proofs
  SharedInformer_model SharedInformer_spec SharedInformer_proofs SharedInformer_proofs2 Listener_model Listener_spec Listener_proofs
  Source_model Source_spec Source_proofs WorkQueue_model DelayQueue_model DelayQueue_proofs Controller_model Controller_spec Controller_proofs Controller_proofs3 Controller_live_spec Controller_live_proofs
  System_model System_spec System_proofs System_live_spec System_live_proofs.
From Coq Require Import ZArith.
Local Open Scope nat_scope.

Section proofs.
  Context {V N : Type} `{EqDecision V} `{EqDecision N} (g : rcfg pyobj nat) (second dflt : Z) (i : nat) (ps : list epred).
  Context (fs : dict N (index_func (dobj pystr pyobj) V)) (Hfs : good_indexers fs).
  Notation notif := (Informer_model.notif pystr pyobj).
  Notation shared := (shared pystr pyobj V N).
  Notation sys := (sys V N).
  Notation hstep := (hstep (V:=V) (N:=N) queue_key second dflt).
  Notation istep := (istep (V:=V) (N:=N) queue_key).
  Notation kst := (kstep (λ _ : nsname, true)).
  Notation zstep := (zstep (V:=V) (N:=N) g second dflt i ps).
  Notation base := (base queue_key fs).
  Notation INV := (INV queue_key fs).
  Notation pending := (pending i).
  Notation calm := (calm i).
  Notation BI := (BI g i fs).
  Implicit Types (z : sys) (h : shared).
  Context (t0 : Z) (workers : nat).
  Notation init := (sys_init (V:=V) (N:=N) dflt fs t0 workers).

  Lemma add_enabled w h f l x a b (kk : kstate nsname) : ∃ l' z', acts Runner l' ∧ zstep (Sys w h f l (x :: a) b kk) l' z'.
  Proof. eexists (ZAdd x), _. split; [done|]. apply z_add. apply k_env; [done|]. apply dt_add. Qed.
  Lemma runner_enabled w h f l a b (kk : kstate nsname) :
    match l_run l with RWait => l_nextq l ≠ None | RFetched _ => l_pump l ≠ PStopped | RStopped => False | _ => True end → ∃ l' z', acts Runner l' ∧ zstep (Sys w h f l a b kk) l' z'.
  Proof.
    intros Hr. destruct l as [ad q st p pe nq r]. simpl in *. destruct r as [| |n|n| |]; try done.
    - eexists (ZLis LStartRun), _. split; [done|]. apply z_listener; [done|]. constructor.
    - destruct nq as [n|]; [|done]. eexists (ZLis LFetch), _. split; [done|]. apply z_listener; [done|]. constructor.
    - eexists (ZLis (LCall n)), _. split; [done|]. apply z_call. by constructor.
    - destruct a as [|x a]; [|apply add_enabled]. exists (ZLis (if b then LRaise else LReturn)). destruct b.
      + eexists. split; [done|]. apply (z_end _ _ _ _ _ _ _ _ _ true). constructor.
      + eexists. split; [done|]. apply (z_end _ _ _ _ _ _ _ _ _ false). constructor.
    - eexists (ZLis LSlept), _. split; [done|]. apply z_listener; [done|]. constructor.
  Qed.
  Lemma rank_enabled tr z : calm z tr → pending z ≠ [] → ∃ l z', acts (rank z).2 l ∧ zstep z l z'.
  Proof.
    intros [[Hp Hrs] H2 H3 H4 H5] Hpe. destruct z as [w h f l a b kk]. simpl in *.
    assert (Hns : l_pump l ≠ PStopped) by (intros E; rewrite E in Hp; congruence).
    assert (Hnr : l_run l ≠ RStopped) by (intros E; by apply Hns, Hrs).
    unfold rank. simpl. destruct (l_run l) eqn:Hr; simpl.
    3: { apply runner_enabled. by rewrite Hr. }
    1-4: destruct (l_nextq l) eqn:Hq; [apply runner_enabled; rewrite Hr, ?Hq; done|].
    5: done.
    all: simpl; unfold System_proofs.pending, lpart, inflight, run_part, cur_part, got_part in Hpe; simpl in Hpe; rewrite Hr, Hq in Hpe; destruct l as [ad q st p pe nq r]; simpl in *; subst.
    all: unfold ahead; simpl; destruct p as [|[c|] [n'|] []| |]; simpl in *; try done.
    all: try (eexists (ZLis LStartPump), _; split; [done|]; apply z_listener; [done|]; by constructor).
    all: try (eexists (ZLis LNextJoined), _; split; [done|]; apply z_listener; [done|]; by constructor).
    all: try (eexists (ZLis LPutNext), _; split; [done|]; apply z_listener; [done|]; by constructor).
    all: try (eexists (ZLis LWake), _; split; [done|]; apply z_listener; [done|]; apply l_wake; tauto).
    all: try (eexists (ZLis LWake), _; split; [done|]; apply z_listener; [done|]; apply l_wake; [by left|tauto]).
    all: destruct q as [n2|]; simpl; [eexists (ZLis LGet), _; split; [done|]; apply z_listener; [done|]; by constructor|].
    all: destruct ad as [|n2|]; simpl; [|eexists (ZLis (LPut n2)), _; split; [done|]; apply z_listener; [done|]; by constructor|eexists (ZLis LJoined), _; split; [done|]; apply z_listener; [done|]; by constructor].
    all: destruct Hp as (-> & _); simpl in Hpe; destruct (drop f (log_of i h)) as [|n2 rest] eqn:Hd; [done|].
    all: eexists (ZLis (LAdd n2)), _; split; [done|]; apply z_feed; [|by constructor].
    all: rewrite <-(Nat.add_0_r f), <-lookup_drop, Hd; done.
  Qed.

  Lemma rank_not_loop (z : sys) : (rank z).2 ≠ Loop.
  Proof. unfold rank, ahead. repeat case_match; simpl; done. Qed.

  (** ** A run *)
  Section run.
    Context (σ : nat → sys) (lb : nat → zlabel).
    Hypothesis (H0 : σ 0 = init) (Hrun : zruns zstep σ lb) (Hns : ∀ n, stopped (σ n) = false).
    Lemma run_BI n : BI (first lb n) (σ n).
    Proof.
      induction n as [|n IH]; [rewrite H0; by apply BI_init|]. rewrite first_S. by eapply BI_step.
    Qed.
    Lemma run_calm n : calm (σ n) (first lb n).
    Proof. apply run_BI, Hns. Qed.
    Lemma log_step m : ∃ new, log_of i (z_inf (σ (S m))) = log_of i (z_inf (σ m)) ++ new.
    Proof.
      pose proof (Hrun m) as Hst. pose proof (bi_base _ _ _ _ _ (run_BI m)) as HB. destruct Hst; simpl in *; try (exists []; by rewrite app_nil_r).
      match goal with H : SharedInformer_model.hstep _ _ _ _ _ = _ |- _ => destruct (log_grows second dflt i fs Hfs _ _ _ _ HB H) as (new & ? & _) end. by exists new.
    Qed.
    Lemma log_mono n m : n ≤ m → log_of i (z_inf (σ n)) `prefix_of` log_of i (z_inf (σ m)).
    Proof.
      intros Hle. replace m with (n + (m - n)) by lia. generalize (m - n). intros d. induction d as [|d IH]; [by rewrite Nat.add_0_r|].
      rewrite Nat.add_succ_r. destruct (log_step (n + d)) as [new ->]. by apply prefix_app_r.
    Qed.
    Lemma pending_step m : (∃ n, lb m = ZLis (LCall n) ∧ head (pending (σ m)) = Some n) ∨ ∃ new, pending (σ (S m)) = pending (σ m) ++ new.
    Proof.
      pose proof (cm_flow _ _ _ (run_calm m)) as F1. pose proof (cm_flow _ _ _ (run_calm (S m))) as F2. rewrite first_S, calls_app in F2.
      destruct (log_step m) as [new Hl]. rewrite Hl, <-F1, <-!app_assoc in F2. apply app_inv_head in F2.
      destruct (decide (calls [lb m] = [])) as [He|Hne]; [rewrite He in F2; right; by exists new|]. left.
      destruct (lb m) as [| |[]| |] eqn:El; try done. exists n. split; [done|]. simpl in F2. pose proof (Hrun m) as Hst. rewrite El in Hst.
      assert (pending (σ m) ≠ []) as Hp.
      { inversion Hst as [| | |w h f l a b kk ll l' Hfree Hl'|w h f l a b kk n' l' Hl'| |w h f l [] kk l' Hl'|]; subst; try done. unfold System_proofs.pending. simpl.
        inversion Hl'; subst. unfold lpart, inflight, run_part. simpl. done. }
      destruct (pending (σ m)) as [|n' rest]; [done|]. simpl in *. by simplify_eq.
    Qed.
    Section others.
    Context (Hjust : ∀ p, p ≠ Loop → just zstep σ lb p).

    (** whatever waits is passed to the handler, in order *)
    Lemma call_next_o n : pending (σ n) ≠ [] → ∃ m x, n ≤ m ∧ lb m = ZLis (LCall x).
    Proof.
      intros Hp. destruct (rank_leads zstep σ lb lt lt_wf (λ m, pending (σ m) ≠ []) (λ m, ∃ x, lb m = ZLis (LCall x)) (λ m, (rank (σ m)).1) (λ m, (rank (σ m)).2) n) with (n := n) as (m & Hm & x & Hx).
      - intros m _ HP. destruct (pending_step m) as [(x & ? & _)|[new Hn]]; [left; by exists x|].
        destruct (rank_step g second dflt i ps _ _ _ _ (run_calm m) (Hns (S m)) (Hrun m)) as [?|Hr]; [by left|]. right. split; [rewrite Hn; by destruct (pending (σ m))|].
        destruct Hr as [?|[-> ?]]; [by left|by right].
      - intros m _ HP. by eapply rank_enabled, HP; apply run_calm.
      - intros m _ _. apply Hjust. apply rank_not_loop.
      - done.
      - done.
      - by exists m, x.
    Qed.
    Lemma delivered_o n p x : log_of i (z_inf (σ n)) !! p = Some x → ∃ m, n ≤ m ∧ calls (first lb m) !! p = Some x.
    Proof.
      intros Hx. assert (Hq : ∀ q, q ≤ S p → ∃ m, n ≤ m ∧ q ≤ length (calls (first lb m))).
      { induction q as [|q IH]; intros Hle; [exists n; split; lia|]. destruct IH as (m & Hm & Hlen); [lia|].
        destruct (decide (q < length (calls (first lb m)))) as [?|Hge]; [by exists m|].
        assert (pending (σ m) ≠ []) as Hp.
        { intros He. pose proof (cm_flow _ _ _ (run_calm m)) as F. rewrite He, app_nil_r in F. apply Hge. rewrite F. destruct (log_mono n m Hm) as [b ->].
          rewrite app_length. apply lookup_lt_Some in Hx. lia. }
        destruct (call_next_o m Hp) as (m' & y & Hm' & Hy). destruct (first_app lb m m' Hm') as (b & Hb & _). exists (S m'). split; [lia|].
        rewrite first_S, Hb, !calls_app, Hy, !app_length. simpl. lia. }
      destruct (Hq (S p)) as (m & Hm & Hlen); [done|]. exists m. split; [done|]. pose proof (cm_flow _ _ _ (run_calm m)) as F. destruct (log_mono n m Hm) as [b Hb].
      rewrite Hb in F. apply (f_equal (λ l, l !! p)) in F. by rewrite lookup_app_l, (lookup_app_l_Some _ _ _ _ Hx) in F.
    Qed.
    End others.
    Context (Hjust : ∀ p, just zstep σ lb p).
    Lemma call_next n : pending (σ n) ≠ [] → ∃ m x, n ≤ m ∧ lb m = ZLis (LCall x).
    Proof. exact (call_next_o (λ p _, Hjust p) n). Qed.
    Lemma delivered n p x : log_of i (z_inf (σ n)) !! p = Some x → ∃ m, n ≤ m ∧ calls (first lb m) !! p = Some x.
    Proof. exact (delivered_o (λ p _, Hjust p) n p x). Qed.
  End run.
End proofs.
