From Verif Require Import Base KeyFunc_model KeyFunc_spec KeyFunc_proofs DeltaFifo_model DeltaFifo_spec DeltaFifo_proofs DeltaFifo_proofs2 Store_model Store_spec Store_proofs
  Reflector_model Reflector_spec Reflector_proofs World_model World_proofs Informer_model Informer_spec Informer_proofs Informer_proofs2 Informer_proofs3 InformerWorld_model InformerWorld_proofs
  SharedInformer_model SharedInformer_spec SharedInformer_proofs SharedInformer_proofs2 Listener_model Listener_spec Listener_proofs
  Source_model Source_spec Source_proofs WorkQueue_model DelayQueue_model DelayQueue_proofs Controller_model Controller_spec Controller_proofs Controller_proofs3 Controller_live_spec Controller_live_proofs
  System_model System_spec System_proofs System_live_spec System_live_proofs System_live_proofs2 System_live_proofs3 System_live_proofs4 System_live_proofs5 System_live_proofs6
  Example_model Example_spec.
From Coq Require Import ZArith QArith Strings.String.
From stdpp Require Import strings.
Local Open Scope nat_scope.

Lemma pod_key o : pod_like o → ∀ ns name, ns ≠ ""%string → no_slash name → queue_key o = Some (object_key_to_store_key (NsName (Some ns) (Some name))) → named o (Some ns) (Some name).
Proof.
  intros (ns' & name' & Hn & Hne & Hs) ns name Hne1 Hs1 Hk. unfold queue_key in Hk. destruct (reader_key _ _ _ Hn) as [Hr _]. rewrite Hr in Hk. injection Hk as Hk.
  assert (Hp : named (Typed (Some (Some (Some ns, Some name))) ""%string) (Some ns) (Some name)) by (left; by eexists).
  destruct (reader_key _ _ _ Hp) as [Hr' _].
  destruct (proj1 (named_keys_injective _ _ _ _ _ _ Hn Hp Hs Hs1)) as [Hsn ->]; [rewrite Hr, Hr'; by f_equal|]. unfold same_namespace in Hsn. simpl in Hsn. by subst.
Qed.

Section proofs.
  Context {V N : Type} `{EqDecision V} `{EqDecision N} (g : rcfg pyobj nat) (second dflt : Z) (i : nat).
  Context (fs : dict N (index_func (dobj pystr pyobj) V)) (Hfs : good_indexers fs).
  Notation sys := (sys V N).
  Notation zstep := (zstep (V:=V) (N:=N) g second dflt i []).
  Implicit Types (z : sys).
  Context (t0 : Z) (workers : nat).
  Notation init := (sys_init (V:=V) (N:=N) dflt fs t0 workers).
  Context (ns name : string) (Hne : ns ≠ ""%string) (Hsl : no_slash name).
  Notation r := (NsName (Some ns) (Some name)).
  Notation k := (object_key_to_store_key r).
  Section run.
    Context (σ : nat → sys) (lb : nat → zlabel) (n0 : nat) (pr : nat → list printed).
    Hypothesis (H0 : σ 0 = init) (Hrun : zruns (λ z l z', zstep z l z' ∧ only_pods l ∧ single_list z l) σ lb) (Hns : ∀ n, stopped (σ n) = false) (Hjust : ∀ p, just zstep σ lb p) (Hgo : workers_go_on σ lb).
    Hypothesis (Hrest : server_rests σ lb n0) (Hw : 0 < workers) (Hnc : ∀ n j, lb n ≠ ZCtl (KCancel j)) (Hpr : prints σ lb pr).
    Lemma Hps : ∀ p n e, p ∈ (@nil epred) → about k n → event_of n e → p e = PTrue.
    Proof. by intros ? ? ? ?%elem_of_nil. Qed.
    Lemma named_run : zruns (λ z l z', zstep z l z' ∧ well_named k (Some ns) (Some name) l ∧ single_list z l) σ lb.
    Proof.
      intros n. destruct (Hrun n) as (H1 & H2 & H3). split; [done|]. split; [|done]. destruct (lb n) as [[]| | | |]; try done; simpl in *.
      - intros Hk. by apply pod_key.
      - destruct i0; try done. intros o Ho Hk. apply pod_key; auto.
    Qed.
    Notation Hc := (single_runs g second dflt i [] fs Hfs t0 workers k (Some ns) (Some name) Hps σ lb H0 named_run).
    Lemma Hz : zruns zstep σ lb.
    Proof. intros n. apply Hrun. Qed.
    Notation run_BI := (run_BI g second dflt i [] fs Hfs t0 workers σ lb H0 Hz).
    Notation server := (server_at queue_key (w_changes (z_world (σ n0))) (length (w_changes (z_world (σ n0)))) k).

    (** a reconcile under way goes on until it returns *)
    Lemma stays j x m : k_ws (z_ctl (σ m)) !! j = Some (WRun x) → (∃ o sec a, lb m = ZCtl (KRet j x o sec a)) ∨ (k_ws (z_ctl (σ (S m))) !! j = Some (WRun x) ∧ ¬ ∃ l, lb m = ZCtl l ∧ moves j l).
    Proof.
      intros Hj. pose proof (Hz m) as Hst. pose proof (Hnc m) as Hm. destruct Hst as [| | | | |? ? ? ? ? ? ? ? ? Hk| |? ? ? ? ? ? ? kl ? Hk]; try (right; split; [done|]; by intros (? & ? & ?)).
      - right. inversion Hk; subst; simpl in *. split; [done|]. by intros (? & ? & ?).
      - simpl in *. destruct Hk as [l' q' Hout Hd|j' y q' tv Hi Hd|j' y o sec ms q' pv av Hi Hh|j' y rt Hi|j' y rt q' ev Hi Hd|j' Hi|j' pv Hi]; simpl in *; try (destruct (decide (j' = j)) as [->|Hjj]; [congruence|]).
        + right. split; [done|]. intros (? & [= <-] & ?). done.
        + right. rewrite list_lookup_insert_ne by done. split; [done|]. intros (? & [= <-] & ?). done.
        + destruct (decide (j' = j)) as [->|Hjj].
          * left. rewrite Hj in Hi. injection Hi as <-. eauto.
          * right. rewrite list_lookup_insert_ne by done. split; [done|]. intros (? & [= <-] & ?). done.
        + right. rewrite list_lookup_insert_ne by done. split; [done|]. intros (? & [= <-] & ?). done.
        + right. rewrite list_lookup_insert_ne by done. split; [done|]. intros (? & [= <-] & ?). done.
        + right. rewrite list_lookup_insert_ne by done. split; [done|]. intros (? & [= <-] & ?). done.
        + by destruct (Hm j').
    Qed.
    Lemma returns j x n : k_ws (z_ctl (σ n)) !! j = Some (WRun x) → ∃ m o sec a, n ≤ m ∧ lb m = ZCtl (KRet j x o sec a).
    Proof.
      intros Hj. destruct (Hgo j n _ Hj) as (m & Hm & Hmv).
      assert (∀ d, n + d ≤ m → (∃ m o sec a, n ≤ m ∧ lb m = ZCtl (KRet j x o sec a)) ∨ k_ws (z_ctl (σ (n + d))) !! j = Some (WRun x)) as Hd.
      { intros d. induction d as [|d IH]; intros Hle; [right; by rewrite Nat.add_0_r|]. destruct IH as [?|IH]; [lia|by left|].
        destruct (stays j x (n + d) IH) as [(o & sec & a & Hl)|[Hs _]]; [left; exists (n + d), o, sec, a; split; [lia|done]|right; by rewrite Nat.add_succ_r]. }
      destruct (Hd (m - n)) as [?|Hs]; [lia|done|]. replace (n + (m - n)) with m in Hs by lia.
      destruct (stays j x m Hs) as [(o & sec & a & Hl)|[_ Hno]]; [by exists m, o, sec, a|]. destruct Hmv as [?|[?|?]]; [done|congruence|congruence].
    Qed.
    (** it prints after it began *)
    Lemma reports m j t : lb m = ZCtl (KGet j (RItem r) t) → ∃ q v, m < q ∧ (j, r, v) ∈ pr q.
    Proof.
      intros Hl. pose proof (Hz m) as Hst. rewrite Hl in Hst. inversion Hst as [| | | | | | |w h f l xa xb kk kl k' Hk He1 He2 He3]; subst. inversion Hk as [|j' y q' t' Hi Hd| | | | |]; subst.
      destruct (returns j r (S m)) as (m' & o & sec & a' & Hm' & Hret).
      { rewrite <-He3. simpl. by rewrite list_lookup_insert by (by eapply lookup_lt_Some). }
      destruct (pr_returns _ _ _ Hpr m' j r o sec a' Hret) as (_ & q & v & Hq & Hin & Hcont). exists q, v. split; [|done].
      destruct (decide (q ≤ m)) as [Hle|]; [|lia]. specialize (Hcont m ltac:(lia)). rewrite <-He1 in Hcont. simpl in Hcont. congruence.
    Qed.
    Lemma registered_stays n m : n ≤ m → registered i (σ n) → registered i (σ m).
    Proof.
      intros Hle Hr. replace m with (n + (m - n)) by lia. generalize (m - n). intros d. induction d as [|d IH]; [by rewrite Nat.add_0_r|]. rewrite Nat.add_succ_r.
      pose proof (bi_base _ _ _ _ _ (run_BI (n + d))) as HB. pose proof (Hz (n + d)) as Hst. destruct Hst as [|w h f l a b kk c0 h' y Hown Hh| | | | | |]; try done.
      apply registered_logs in IH. apply registered_logs. simpl in *. pose proof (hstep_effect second dflt fs Hfs _ _ _ _ HB Hh) as (_ & [(n' & k0 & d0 & _ & -> & _)|(_ & _ & Hlg)]).
      - rewrite distribute_log. destruct IH as [? ->]. by eexists.
      - destruct Hlg as [->| ->]; [done|]. destruct IH as [? IH]. eexists. by apply lookup_app_l_Some.
    Qed.
    Lemma fmap_Some_1' {A B : Type} (f : A → B) (o : option A) y : f <$> o = Some y → ∃ x, o = Some x ∧ f x = y.
    Proof. destruct o; simpl; intros; simplify_eq; eauto. Qed.
    Lemma first_lookup m p l : first lb m !! p = Some l → lb p = l ∧ p < m.
    Proof. unfold first. rewrite list_lookup_fmap. intros (x & Hx & <-)%fmap_Some_1'. apply lookup_seq in Hx as [-> ?]. done. Qed.
    Lemma since_position m : started_since k (Some ns) (Some name) (first lb m) →
      ∃ p j t, p < m ∧ lb p = ZCtl (KGet j (RItem r) t) ∧ ∀ q, p < q → q ≤ m → cached k (σ q) = cached k (σ m).
    Proof.
      intros (tr1 & j & t & tr2 & He & Hsil). exists (length tr1), j, t.
      destruct (first_lookup m (length tr1) (ZCtl (KGet j (RItem r) t))) as [Hl Hm]; [rewrite He; by apply list_lookup_middle|]. split; [done|]. split; [done|].
      assert (∀ d q, length tr1 < q → q + d = m → cached k (σ q) = cached k (σ m)) as Hd.
      { intros d. induction d as [|d IH]; intros q Hq Hqd; [rewrite <-Hqd; by rewrite Nat.add_0_r|]. rewrite <-(IH (S q)) by lia. symmetry. eapply (cached_step g second dflt i [] fs Hfs).
        - by apply (bi_base _ _ _ _ _ (run_BI q)).
        - apply Hz.
        - apply Hsil. assert (lb q = lb q ∧ first lb m !! q = Some (lb q)) as [_ Hlq].
          { split; [done|]. unfold first. rewrite list_lookup_fmap, lookup_seq_lt by lia. done. }
          rewrite He, lookup_app_r in Hlq by lia. destruct (q - length tr1) as [|q'] eqn:Hqq; [lia|]. simpl in Hlq. by eapply elem_of_list_lookup_2. }
      intros q Hq Hqm. apply (Hd (m - q)); lia.
    Qed.
    Lemma last_report : registered i (σ n0) → ∃ M, n0 ≤ M ∧ always_tells pr r (DObj <$> server) M ∧
      (server = None ∧ (∀ m x, M ≤ m → x ∈ log_of i (z_inf (σ m)) → ¬ about k x) ∨
       ∃ q j, (j, r, DObj <$> server) ∈ pr q ∧ always_tells pr r (DObj <$> server) q).
    Proof.
      intros Hreg. destruct (converges g second dflt i [] fs Hfs t0 workers k (Some ns) (Some name) Hps σ lb n0 H0 Hc Hns Hjust Hgo Hrest 0 Hw (λ n, Hnc n 0) Hreg) as (M & HM & Hcv).
      assert (Htell : always_tells pr r (DObj <$> server) M).
      { intros m j v Hm Hin. destruct (pr_read _ _ _ Hpr _ _ _ _ Hin) as [_ ->]. change (look r (σ m)) with (cached k (σ m)). by destruct (Hcv m Hm) as (_ & -> & _). }
      destruct (catches_up g second dflt i [] fs Hfs t0 workers σ lb n0 H0 Hz Hns Hjust Hrest) as (M1 & HM1 & Hcu1). set (M2 := M `max` M1).
      assert (Hcu : caught_up σ M2) by (eapply (stays_caught_up g second dflt i [] fs Hfs t0 workers σ lb n0 H0 Hz Hns Hrest M1); [done|unfold M2; lia|done]).
      assert (Hreg2 : registered i (σ M2)) by (eapply registered_stays; [|done]; unfold M2; lia).
      exists M2. split; [unfold M2; lia|]. split; [intros m j v Hm; apply Htell; unfold M2 in Hm; lia|].
      assert (Hcr : zruns (λ z l z', zstep z l z' ∧ well_named k (Some ns) (Some name) l ∧ announced i k z l) σ lb) by (intros n; apply Hc).
      destruct (owed_taken g second dflt i [] fs Hfs t0 workers k (Some ns) (Some name) Hps σ lb H0 Hcr Hns Hjust Hgo 0 Hw (λ n, Hnc n 0) M2 Hreg2) as [(Hno & Hlog)|(m & HMm & Hss)].
      - left. destruct (Hcv M2) as (_ & Hcs & _); [unfold M2; lia|]. rewrite Hno in Hcs. split; [by destruct (server_at _ _ _ _)|]. intros m x Hm.
        destruct (quiet_from g second dflt i [] fs Hfs t0 workers k (Some ns) (Some name) σ lb n0 H0 Hc Hns Hrest 0 Hw M2 m) as (_ & -> & _); [unfold M2; lia|done|done|done|]. apply Hlog.
      - right. destruct (since_position m Hss) as (p & j & t & Hp & Hl & Hsame). destruct (reports p j t Hl) as (q & v & Hq & Hin).
        assert (Hall : always_tells pr r (DObj <$> server) (S p)).
        { intros q' j' v' Hq' Hin'. destruct (pr_read _ _ _ Hpr _ _ _ _ Hin') as [_ ->]. change (look r (σ q')) with (cached k (σ q')).
          destruct (Hcv m) as (_ & Hcm & _); [unfold M2 in HMm; lia|]. destruct (decide (q' ≤ m)) as [Hle|]; [by rewrite Hsame by lia|]. by destruct (Hcv q') as (_ & -> & _); [unfold M2 in HMm; lia|]. }
        exists q, j. split; [|intros q' j' v' Hq'; apply Hall; lia]. by rewrite <-(Hall q j v).
    Qed.
    Lemma reports_server : registered i (σ n0) → ∃ M, n0 ≤ M ∧ always_tells pr r (DObj <$> server) M ∧
      (DObj (K:=pystr) <$> server = None ∧ (∀ m x, M ≤ m → x ∈ log_of i (z_inf (σ m)) → ¬ about k x) ∨
       ∃ q j, (j, r, DObj <$> server) ∈ pr q ∧ always_tells pr r (DObj <$> server) q).
    Proof. intros Hreg. destruct (last_report Hreg) as (M & HM & Ht & [(Hs & Hl)|Hq]); exists M; (split; [done|]); (split; [done|]); [left; split; [by rewrite Hs|done]|by right]. Qed.
  End run.
End proofs.
