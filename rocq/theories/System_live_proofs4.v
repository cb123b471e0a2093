From Verif Require Import Base KeyFunc_model KeyFunc_spec DeltaFifo_model DeltaFifo_spec DeltaFifo_proofs DeltaFifo_proofs2 Store_model Store_spec Store_proofs
  Reflector_model Reflector_spec Reflector_proofs World_model World_proofs Informer_model Informer_spec Informer_proofs Informer_proofs2 Informer_proofs3 InformerWorld_model InformerWorld_proofs
  SharedInformer_model SharedInformer_spec SharedInformer_proofs SharedInformer_proofs2 Listener_model Listener_spec Listener_proofs
  Source_model Source_spec Source_proofs WorkQueue_model DelayQueue_model DelayQueue_proofs Controller_model Controller_spec Controller_proofs Controller_proofs3 Controller_live_spec Controller_live_proofs
  System_model System_spec System_proofs System_live_spec System_live_proofs System_live_proofs2 System_live_proofs3.
From Coq Require Import ZArith.
Local Open Scope nat_scope.
Section proofs.
  Context {V N : Type} `{EqDecision V} `{EqDecision N} (g : rcfg pyobj nat) (second dflt : Z) (i : nat) (ps : list epred).
  Context (fs : dict N (index_func (dobj pystr pyobj) V)) (Hfs : good_indexers fs).
  Notation notif := (Informer_model.notif pystr pyobj).
  Notation shared := (shared pystr pyobj V N).
  Notation sys := (sys V N).
  Notation hstep := (hstep (V:=V) (N:=N) queue_key second dflt).
  Notation istep := (istep (V:=V) (N:=N) queue_key).
  Notation kst := (kstep (λ _ : nsname, true)).
  Notation zstep := (zstep (V:=V) (N:=N) g second dflt i ps).
  Notation base := (base queue_key fs).
  Notation INV := (INV queue_key fs).
  Notation pending := (pending i).
  Notation calm := (calm i).
  Notation BI := (BI g i fs).
  Implicit Types (z : sys) (h : shared).
  Context (t0 : Z) (workers : nat).
  Notation init := (sys_init (V:=V) (N:=N) dflt fs t0 workers).
  Context (k ns name : pystr) (Hps : ∀ p n e, p ∈ ps → about k n → event_of n e → p e = PTrue).
  Notation r := (NsName ns name).
  Notation cstep := (λ z l z', zstep z l z' ∧ well_named k ns name l ∧ announced i k z l).
  Definition up_to_date tr z : Prop := cached k z = None ∧ (∀ n, n ∈ log_of i (z_inf z) → ¬ about k n) ∨ reconciled_since cstep init k r tr z.

  Section run.
    Context (σ : nat → sys) (lb : nat → zlabel).
    Hypothesis (H0 : σ 0 = init) (Hcrun : zruns cstep σ lb) (Hns : ∀ n, stopped (σ n) = false) (Hjust : ∀ p, just zstep σ lb p) (Hgo : workers_go_on σ lb).
    Context (i0 : nat) (Hi0 : i0 < workers) (Hnc : ∀ n, lb n ≠ ZCtl (KCancel i0)).
    Lemma Hrun : zruns zstep σ lb.
    Proof. intros n. apply Hcrun. Qed.
    Notation run_calm := (run_calm g second dflt i ps fs Hfs t0 workers σ lb H0 Hrun Hns).
    Lemma run_ZI n : ZI i fs k ns name t0 workers (first lb n) (σ n).
    Proof. eapply (ZI_reach g second dflt i ps fs Hfs); [done|]. rewrite <-H0. by apply first_reach. Qed.
    Lemma run_live n : live i k ns name (first lb n) (σ n).
    Proof. apply (zi_live _ _ _ _ _ _ _ _ _ (run_ZI n)), Hns. Qed.

    Lemma waiting_called n x : x ∈ pending (σ n) → ∃ m, n ≤ m ∧ lb m = ZLis (LCall x).
    Proof.
      intros [p Hp]%elem_of_list_lookup. pose proof (cm_flow _ _ _ (run_calm n)) as F.
      destruct (delivered g second dflt i ps fs Hfs t0 workers σ lb H0 Hrun Hns Hjust n (length (calls (first lb n)) + p) x) as (m & Hm & Hx).
      { rewrite <-F, lookup_app_r by lia. by replace (_ + p - _) with p by lia. }
      destruct (first_app lb n m Hm) as (b & Hb & Hin). rewrite Hb, calls_app, lookup_app_r in Hx by lia. apply elem_of_list_lookup_2 in Hx.
      unfold calls in Hx. apply elem_of_list_omap in Hx as (l & Hl & Hx). destruct (Hin l Hl) as (j & Hj & Hlj). exists j. split; [lia|]. destruct l as [| |[]| |]; simplify_eq. done.
    Qed.
    Lemma waiting_taken n x : x ∈ pending (σ n) → about k x → ∃ m j t, n ≤ m ∧ lb m = ZCtl (KGet j (RItem r) t).
    Proof.
      intros Hx Hab. destruct (waiting_called n x Hx) as (m & Hm & Hl). pose proof (Hrun m) as Hst. rewrite Hl in Hst.
      assert (r ∈ z_adds (σ (S m))) as Ha.
      { assert (x ∈ pending (σ m) ∧ z_adds (σ (S m)) = o_adds (on_notif ps x)) as [Hpm ->].
        { inversion Hst as [| | |w h f l a b kk ll l' Hfree Hl'|w h f l a b kk n' l' Hl'| |w h f l [] kk l' Hl'|]; subst; try done. split; [|done]. unfold System_proofs.pending. simpl.
          inversion Hl'; subst. unfold lpart, inflight, run_part. simpl. by left. }
        apply (good_adds ps k ns name Hps); [done|]. by apply (lv_good _ _ _ _ _ _ (run_live m)). }
      destruct (add_taken g second dflt i ps fs Hfs t0 workers σ lb H0 Hrun Hns Hjust Hgo i0 Hi0 Hnc r (S m) Ha) as (m' & j & t & ? & ?). exists m', j, t. split; [lia|done].
    Qed.
    Lemma taken_since m j t : lb m = ZCtl (KGet j (RItem r) t) → started_since k ns name (first lb (S m)).
    Proof. intros Hl. rewrite first_S, Hl. exists (first lb m), j, t, []. split; [done|]. by intros ? ?%elem_of_nil. Qed.
    Lemma owed_taken n : registered i (σ n) →
      (cached k (σ n) = None ∧ ∀ x, x ∈ log_of i (z_inf (σ n)) → ¬ about k x) ∨ ∃ m, n ≤ m ∧ started_since k ns name (first lb m).
    Proof.
      intros Hreg. destruct (lv_owed _ _ _ _ _ _ (run_live n) Hreg) as [?|[(x & Hx & Hab)|[Ha|[Hd|Hs]]]].
      - left. by rewrite cached_cont.
      - right. destruct (waiting_taken n x Hx Hab) as (m & j & t & Hm & Hl). exists (S m). split; [lia|]. by eapply taken_since.
      - right. destruct (add_taken g second dflt i ps fs Hfs t0 workers σ lb H0 Hrun Hns Hjust Hgo i0 Hi0 Hnc r n Ha) as (m & j & t & Hm & Hl). exists (S m). split; [lia|]. by eapply taken_since.
      - right. destruct (dirty_taken g second dflt i ps fs t0 workers σ lb H0 Hrun Hgo i0 Hi0 Hnc r n Hd) as (m & j & t & Hm & Hl). exists (S m). split; [lia|]. by eapply taken_since.
      - right. by exists n.
    Qed.
    Lemma since_up_to_date m : started_since k ns name (first lb m) → reconciled_since cstep init k r (first lb m) (σ m).
    Proof. intros Hs. eapply (since_reconciled g second dflt i ps fs Hfs); [done| |done]. rewrite <-H0. by apply first_reach. Qed.
    Lemma up_to_date_again n : registered i (σ n) → ∃ m, n ≤ m ∧ up_to_date (first lb m) (σ m).
    Proof.
      intros Hreg. destruct (owed_taken n Hreg) as [?|(m & Hm & Hs)]; [exists n; split; [done|by left]|]. exists m. split; [done|]. right. by apply since_up_to_date.
    Qed.
  End run.
End proofs.
