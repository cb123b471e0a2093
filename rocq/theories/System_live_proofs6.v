From Verif Require Import Base KeyFunc_model KeyFunc_spec DeltaFifo_model DeltaFifo_spec DeltaFifo_proofs DeltaFifo_proofs2 Store_model Store_spec Store_proofs
  Reflector_model Reflector_spec Reflector_proofs World_model World_proofs Informer_model Informer_spec Informer_proofs Informer_proofs2 Informer_proofs3 InformerWorld_model InformerWorld_proofs
  SharedInformer_model SharedInformer_spec SharedInformer_proofs SharedInformer_proofs2 Listener_model Listener_spec Listener_proofs
  Source_model Source_spec Source_proofs WorkQueue_model DelayQueue_model DelayQueue_proofs Controller_model Controller_spec Controller_proofs Controller_proofs3 Controller_live_spec Controller_live_proofs
  System_model System_spec System_proofs System_live_spec System_live_proofs System_live_proofs2 System_live_proofs3 System_live_proofs4 System_live_proofs5.
From Coq Require Import ZArith.
Local Open Scope nat_scope.
Section proofs.
  Context {V N : Type} `{EqDecision V} `{EqDecision N} (g : rcfg pyobj nat) (second dflt : Z) (i : nat) (ps : list epred).
  Context (fs : dict N (index_func (dobj pystr pyobj) V)) (Hfs : good_indexers fs).
  Notation sys := (sys V N).
  Notation zstep := (zstep (V:=V) (N:=N) g second dflt i ps).
  Implicit Types (z : sys).
  Context (t0 : Z) (workers : nat).
  Notation init := (sys_init (V:=V) (N:=N) dflt fs t0 workers).
  Context (k ns name : pystr) (Hps : ∀ p n e, p ∈ ps → about k n → event_of n e → p e = PTrue).
  Notation r := (NsName ns name).
  Notation cstep := (λ z l z', zstep z l z' ∧ well_named k ns name l ∧ announced i k z l).

  Section run.
    Context (σ : nat → sys) (lb : nat → zlabel) (n0 : nat).
    Hypothesis (H0 : σ 0 = init) (Hcrun : zruns (λ z l z', cstep z l z' ∧ calm_lists z l) σ lb) (Hns : ∀ n, stopped (σ n) = false) (Hjust : ∀ p, just zstep σ lb p) (Hgo : workers_go_on σ lb).
    Hypothesis (Hrest : server_rests σ lb n0).
    Context (i0 : nat) (Hi0 : i0 < workers) (Hnc : ∀ n, lb n ≠ ZCtl (KCancel i0)).
    Lemma Hcr : zruns cstep σ lb.
    Proof. intros n. apply Hcrun. Qed.
    Lemma Hzr : zruns zstep σ lb.
    Proof. intros n. apply Hcrun. Qed.
    Notation run_BI := (run_BI g second dflt i ps fs Hfs t0 workers σ lb H0 Hzr).
    Notation caught_up := (caught_up σ).
    Lemma quiet_step m : n0 ≤ m → caught_up m → registered i (σ m) →
      silent k (lb m) ∧ registered i (σ (S m)) ∧ log_of i (z_inf (σ (S m))) = log_of i (z_inf (σ m)) ∧ cached k (σ (S m)) = cached k (σ m).
    Proof.
      intros Hle Hcu Hreg. destruct (caught_up_step g second dflt i ps fs Hfs t0 workers σ lb n0 H0 Hzr Hns Hrest m Hle Hcu) as [_ Hno].
      assert (Hsil : silent k (lb m)) by (intros c n Hl; by destruct (Hno c n)). split; [done|].
      pose proof (bi_base _ _ _ _ _ (run_BI m)) as HB. pose proof (Hzr m) as Hst. apply and_assoc. split; [|by eapply (cached_step g second dflt i ps fs Hfs)].
      destruct Hst as [|w h f l a b kk c0 h' y Hown Hh| | | | | |]; try done. simpl in *.
      destruct (log_grows second dflt i fs Hfs _ _ _ _ HB Hh) as (new & He & Hnew).
      rewrite Hnew in He; [rewrite app_nil_r in He; split; [|done]|intros n ->; by destruct (Hno c0 n)|done].
      unfold registered in *. simpl in *. pose proof (hstep_effect second dflt fs Hfs _ _ _ _ HB Hh) as (_ & [(n & k0 & d & -> & _)|(_ & _ & Hlg)]); [by destruct (Hno c0 n)|].
      assert (length (logs (h_proc h)) ≤ length (logs (h_proc h'))) as Hll by (destruct Hlg as [->| ->]; rewrite ?app_length; lia). unfold logs in Hll. rewrite !fmap_length in Hll. lia.
    Qed.
    Lemma quiet_from n m : n0 ≤ n → n ≤ m → caught_up n → registered i (σ n) →
      registered i (σ m) ∧ log_of i (z_inf (σ m)) = log_of i (z_inf (σ n)) ∧ cached k (σ m) = cached k (σ n) ∧ (started_since k ns name (first lb n) → started_since k ns name (first lb m)).
    Proof.
      intros Hle Hm Hc Hreg. replace m with (n + (m - n)) by lia. generalize (m - n). intros d. induction d as [|d (I1 & I2 & I3 & I4)]; [by rewrite Nat.add_0_r|]. rewrite Nat.add_succ_r.
      destruct (quiet_step (n + d)) as (Q1 & Q2 & Q3 & Q4); [lia| |done|].
      { eapply (stays_caught_up g second dflt i ps fs Hfs t0 workers σ lb n0 H0 Hzr Hns Hrest n); [done|lia|done]. }
      split; [done|]. split; [congruence|]. split; [congruence|]. intros Hs. rewrite first_S. apply since_snoc; [done|]. by apply I4.
    Qed.
    Lemma converges : registered i (σ n0) → ∃ M, n0 ≤ M ∧ ∀ m, M ≤ m → drained (h_inf (z_inf (σ m))) ∧
      let server := server_at queue_key (w_changes (z_world (σ n0))) (length (w_changes (z_world (σ n0)))) k in
      cached k (σ m) = DObj <$> server ∧ (server = None ∧ (∀ n, n ∈ log_of i (z_inf (σ m)) → ¬ about k n) ∨ reconciled_since cstep init k r (first lb m) (σ m)).
    Proof.
      intros Hreg0. destruct (catches_up g second dflt i ps fs Hfs t0 workers σ lb n0 H0 Hzr Hns Hjust Hrest) as (M1 & HM1 & Hcu).
      assert (Hcs : ∀ m, M1 ≤ m → caught_up m) by (intros m Hm; by eapply (stays_caught_up g second dflt i ps fs Hfs t0 workers σ lb n0 H0 Hzr Hns Hrest M1)).
      assert (Hreg : registered i (σ M1)).
      { clear Hcs Hcu. replace M1 with (n0 + (M1 - n0)) by lia. generalize (M1 - n0). intros d. induction d as [|d IH]; [by rewrite Nat.add_0_r|]. rewrite Nat.add_succ_r.
        pose proof (bi_base _ _ _ _ _ (run_BI (n0 + d))) as HB. pose proof (Hzr (n0 + d)) as Hst. destruct Hst as [|w h f l a b kk c0 h' y Hown Hh| | | | | |]; try done.
        apply registered_logs in IH. apply registered_logs. simpl in *. pose proof (hstep_effect second dflt fs Hfs _ _ _ _ HB Hh) as (_ & [(n & k0 & d0 & _ & -> & _)|(_ & _ & Hlg)]).
        - rewrite distribute_log. destruct IH as [? ->]. by eexists.
        - destruct Hlg as [->| ->]; [done|]. destruct IH as [? IH]. eexists. by apply lookup_app_l_Some. }
      assert (Hsv : ∀ m, M1 ≤ m → drained (h_inf (z_inf (σ m))) ∧ cached k (σ m) = DObj <$> server_at queue_key (w_changes (z_world (σ n0))) (length (w_changes (z_world (σ n0)))) k).
      { intros m Hm. split; [by apply Hcs|]. rewrite <-(proj2 (proj2 (rest_inv g second dflt i ps fs Hfs t0 workers σ lb n0 H0 Hzr Hns Hrest m ltac:(lia)))) at 1.
        eapply (cached_server g second dflt i ps fs Hfs k t0 workers (first lb m)); [| |by apply Hcs].
        - rewrite <-H0. apply first_reach. intros n. split; apply Hcrun.
        - eapply (caught_up_last g second dflt i ps fs Hfs t0 workers σ lb n0 H0 Hzr Hns Hrest); [lia|by apply Hcs]. }
      destruct (owed_taken g second dflt i ps fs Hfs t0 workers k ns name Hps σ lb H0 Hcr Hns Hjust Hgo i0 Hi0 Hnc M1 Hreg) as [(Hno & Hlog)|(M & HM & Hs)].
      - exists M1. split; [done|]. intros m Hm. destruct (Hsv m Hm) as [Hd Hc]. split; [done|]. split; [done|]. left.
        destruct (quiet_from M1 m HM1 Hm Hcu Hreg) as (_ & Hl & Hcm & _). rewrite Hl. split; [|done]. rewrite Hcm, Hno in Hc. by destruct (server_at _ _ _ _).
      - exists M. split; [lia|]. intros m Hm. destruct (Hsv m) as [Hd Hc]; [lia|]. split; [done|]. split; [done|]. right.
        destruct (quiet_from M1 M HM1 HM Hcu Hreg) as (HregM & _). destruct (quiet_from M m) as (_ & _ & _ & Hss); [lia|done|by apply Hcs|done|].
        apply (since_up_to_date g second dflt i ps fs Hfs t0 workers k ns name Hps σ lb H0 Hcr). by apply Hss.
    Qed.
  End run.

  (** ** A reflector that lists once, without resyncs *)
  Section single.
    Context (σ : nat → sys) (lb : nat → zlabel).
    Hypothesis (H0 : σ 0 = init) (Hsrun : zruns (λ z l z', zstep z l z' ∧ well_named k ns name l ∧ single_list z l) σ lb).
    Lemma single_runs : zruns (λ z l z', cstep z l z' ∧ calm_lists z l) σ lb.
    Proof.
      intros n. assert (HS : SL g i fs k ns name (σ n)).
      { induction n as [|n IH]; [rewrite H0; by apply SL_init|]. destruct (Hsrun n) as (H1 & H2 & H3). by eapply (SL_step g second dflt i ps fs Hfs k ns name). }
      destruct (Hsrun n) as (H1 & H2 & H3). split; [|by eapply SL_calm]. split; [done|]. split; [done|]. by eapply (SL_step g second dflt i ps fs Hfs k ns name).
    Qed.
  End single.
End proofs.
