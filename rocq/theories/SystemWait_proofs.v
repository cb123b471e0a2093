(** Lemmas for SystemWait_props.v. *)
From Verif Require Import Base KeyFunc_model KeyFunc_spec DeltaFifo_model DeltaFifo_spec DeltaFifo_proofs DeltaFifo_proofs2 Store_model Store_spec Store_proofs
  Reflector_model Reflector_spec Reflector_proofs World_model World_proofs Informer_model Informer_spec Informer_proofs Informer_proofs2 Informer_proofs3 InformerWorld_model InformerWorld_proofs
  SharedInformer_model SharedInformer_spec SharedInformer_proofs SharedInformer_proofs2 Listener_model Listener_spec Listener_proofs ListenerTime_proofs
  Source_model Source_spec Source_proofs WorkQueue_model DelayQueue_model DelayQueue_proofs Controller_model Controller_spec Controller_proofs Controller_proofs3 Controller_live_spec Controller_live_proofs
  System_model System_spec System_proofs System_live_spec System_live_proofs System_live_proofs2 System_live_proofs4 System_live_proofs6 SystemWait_model.
From Coq Require Import ZArith.
Local Open Scope nat_scope.

Section proofs.
  Context {V N : Type} `{EqDecision V} `{EqDecision N} (g : rcfg pyobj nat) (second dflt : Z) (i : nat) (ps : list epred).
  Context (fs : dict N (index_func (dobj pystr pyobj) V)) (Hfs : good_indexers fs).
  Notation notif := (Informer_model.notif pystr pyobj).
  Notation shared := (shared pystr pyobj V N).
  Notation sys := (sys V N).
  Notation hstep := (hstep (V:=V) (N:=N) queue_key second dflt).
  Notation zstep := (zstep (V:=V) (N:=N) g second dflt i ps).
  Notation bstep := (bstep (V:=V) (N:=N) g second dflt i ps).
  Notation base := (base queue_key fs).
  Notation pending := (pending i).
  Notation calm := (calm i).
  Notation BI := (BI g i fs).
  Notation waits := (waits (V:=V) (N:=N) i).
  Implicit Types (z : sys) (h : shared).
  Context (t0 : Z) (workers : nat).
  Notation init := (sys_init (V:=V) (N:=N) dflt fs t0 workers).

  Lemma waits_false z : waits z = false ↔ length (log_of i (z_inf z)) ≤ z_fed z ∧ l_adder (z_lis z) = AIdle.
  Proof.
    unfold SystemWait_model.waits. rewrite orb_false_iff, bool_decide_eq_false. split.
    - intros [H1 H2]. split; [lia|]. by destruct (l_adder _).
    - intros [H1 ->]. split; [lia|done].
  Qed.
  Lemma bz z l z' : bstep z l z' → zstep z l z'.
  Proof. by intros [? _]. Qed.
  Lemma breach z ls z' : reach bstep z ls z' → reach zstep z ls z'.
  Proof. induction 1 as [|ls z1 l z2 Hr IH Hst]; [constructor|]. eapply reach_snoc; [done|]. by apply bz. Qed.
  Lemma zBI z ls z' tr : BI tr z → reach zstep z ls z' → BI (tr ++ ls) z'.
  Proof. intros HB. induction 1 as [|ls z1 l z2 Hr IH Hst]; [by rewrite app_nil_r|]. rewrite app_assoc. by eapply BI_step. Qed.

  (** how the log changes *)
  Lemma callback_delta h c h' n : hstep h c = (h', HI (ICallback n)) → c = HInf PDelta.
  Proof.
    destruct c as [c|req now| | |t]; simpl; [|repeat case_match; intros; simplify_eq/=..].
    destruct (negb (allowed h c)); [done|]. destruct (istep queue_key (h_inf h) c) as [s' r] eqn:Hi. intros Hx.
    assert (r = ICallback n) as -> by (destruct r; by simplify_eq/=). clear Hx.
    destruct c; try done; exfalso; simpl in Hi; unfold call_q, end_process in Hi; repeat case_match; by simplify_eq/=.
  Qed.
  Lemma registered_step z l z' : base (z_inf z) → zstep z l z' → registered i z → registered i z'.
  Proof.
    intros HB Hst Hreg. destruct Hst; simpl in *; try done. unfold registered in *. simpl in *.
    destruct (hstep_effect second dflt fs Hfs _ _ _ _ HB H0) as (_ & [(n & k0 & d & _ & -> & _)|(_ & _ & Hl)]).
    - unfold distribute. simpl. by rewrite imap_length.
    - assert (length (logs (h_proc h)) ≤ length (logs (h_proc h'))) as Hll by (destruct Hl as [->| ->]; rewrite ?app_length; lia). unfold logs in Hll. rewrite !fmap_length in Hll. lia.
  Qed.
  Lemma log_step1 z l z' : base (z_inf z) → zstep z l z' → registered i z →
    log_of i (z_inf z') = log_of i (z_inf z) ∨ (acts Loop l ∧ processes l = true ∧ length (log_of i (z_inf z')) ≤ S (length (log_of i (z_inf z)))).
  Proof.
    intros HB Hst Hreg. destruct Hst; simpl in *; try (by left). unfold registered in *. simpl in *. rewrite !log_of_logs.
    destruct (hstep_effect second dflt fs Hfs _ _ _ _ HB H0) as (_ & [(n & k0 & d & -> & -> & _)|(Hn & _ & Hl)]).
    - right. apply callback_delta in H0 as ->. split; [done|]. split; [done|]. rewrite distribute_log. destruct (logs (h_proc h) !! i); simpl; [|lia].
      rewrite app_length. case_match; simpl; lia.
    - left. destruct Hl as [->| ->]; [done|]. rewrite lookup_app_l; [done|]. unfold logs. by rewrite fmap_length.
  Qed.
  Lemma unregistered_log z : ¬ registered i z → log_of i (z_inf z) = [].
  Proof. unfold registered, log_of. intros H. rewrite (lookup_ge_None_2 (p_ls _)); [done|]. lia. Qed.

  Lemma registered_or_not z : registered i z ∨ ¬ registered i z.
  Proof. unfold registered. lia. Qed.

  (** ** How far the informer is ahead of the handler *)
  Definition given z : Prop := match l_adder (z_lis z) with AJoining => True | _ => l_addq (z_lis z) = None end.
  Lemma given_step z l z' : stopped z' = false → zstep z l z' → given z → given z'.
  Proof.
    unfold given. intros Hns Hst Hq. destruct Hst as [| |w h f l a b k n l' Hn Hl1|w h f l a b k ll l' Hf Hl1|w h f l a b k n l' Hl1| |w h f l b k l' Hl1|]; simpl in *; try done.
    - by inversion Hl1; subst; simpl in *.
    - unfold stopped in Hns. simpl in Hns. destruct Hl1; simpl in *; try done; try (rewrite Hns in Hf; done); first [by destruct a0|by destruct got, cur, put].
    - by inversion Hl1; subst.
    - destruct b; by inversion Hl1; subst.
  Qed.
  Lemma given_reach z ls z' : reach zstep z ls z' → stopped z' = false → given z → given z'.
  Proof. induction 1 as [|ls z1 l z2 Hr IH Hst]; [done|]. intros Hns Hq. eapply given_step; [done..|]. apply IH; [by eapply stopped_back|done]. Qed.
  Definition lag z : Prop := length (log_of i (z_inf z)) ≤ z_fed z + match l_adder (z_lis z) with AIdle => 1 | _ => 0 end.
  Lemma lag_step tr z l z' : BI tr z → stopped z' = false → registered i z → lag z → bstep z l z' → lag z'.
  Proof.
    intros HB Hns Hreg Hl [Hst Hw]. pose proof (bi_base _ _ _ _ _ HB) as Hba. unfold lag in Hl.
    destruct (log_step1 _ _ _ Hba Hst Hreg) as [He|(Ha & Hp & Hle)].
    2:{ specialize (Hw Hp). apply waits_false in Hw as [Hf Hi]. unfold lag. destruct Hst; simpl in *; try done. rewrite Hi in *. lia. }
    unfold lag. rewrite He. clear Hw He Hba HB. destruct Hst as [| |w h f l a b k n l' Hn Hl1|w h f l a b k ll l' Hf Hl1|w h f l a b k n l' Hl1| |w h f l b k l' Hl1|]; simpl in *; try done.
    - apply lookup_lt_Some in Hn. inversion Hl1; subst; simpl in *. lia.
    - unfold stopped in Hns. simpl in Hns. destruct Hl1; simpl in *; try done; try (rewrite Hns in Hf; done); try lia; by destruct got, cur, put.
    - by inversion Hl1; subst.
    - destruct b; by inversion Hl1; subst.
  Qed.
  Lemma lag_reach tr0 z0 tr z : BI tr0 z0 → reach bstep z0 tr z → stopped z = false → registered i z0 → lag z0 → lag z ∧ registered i z.
  Proof.
    intros HB. induction 1 as [|tr z1 l z2 Hr IH Hst]; [done|]. intros Hns Hreg Hlag.
    destruct IH as [IH1 IH2]; [by eapply stopped_back; [apply bz|]|done|done|]. pose proof (zBI _ _ _ _ HB (breach _ _ _ Hr)) as HB1. split.
    - by eapply lag_step.
    - eapply registered_step; [by eapply bi_base|by apply bz|done].
  Qed.
  Lemma lag_pending tr z : BI tr z → stopped z = false → lag z → given z → length (log_of i (z_inf z)) ≤ length (calls tr) + 4.
  Proof.
    intros HB Hns Hl Hq. destruct (bi_calm _ _ _ _ _ HB Hns) as [H1 H2 H3 H4 H5]. rewrite <-H5, app_length. unfold lag in Hl. unfold given in Hq. unfold System_proofs.pending, lpart. rewrite !app_length, drop_length.
    assert (Hnp : l_pump (z_lis z) ≠ PStopped). { intros E. destruct H1 as [H1 _]. rewrite E in H1. congruence. }
    pose proof (inflight_small _ H1 Hnp) as Hi. unfold room in Hi. destruct (l_adder (z_lis z)); simpl in *; rewrite ?Hq in Hi; lia.
  Qed.
  Lemma ahead_of_handler tr0 z0 tr z : reach bstep init tr0 z0 → registered i z0 → waits z0 = false → reach bstep z0 tr z → stopped z = false →
    length (log_of i (z_inf z)) ≤ length (calls (tr0 ++ tr)) + 4.
  Proof.
    intros Hr0 Hreg Hw Hr Hns. pose proof (zBI _ _ _ _ (BI_init g dflt i fs t0 workers) (breach _ _ _ Hr0)) as HB0. simpl in HB0.
    assert (Hlag : lag z0) by (apply waits_false in Hw as [H1 H2]; unfold lag; lia).
    destruct (lag_reach _ _ _ _ HB0 Hr Hns Hreg Hlag) as [Hlz _]. apply lag_pending; [|done|done|].
    - eapply zBI; [done|by apply breach].
    - eapply given_reach; [eapply breach, reach_app; [exact Hr0|exact Hr]|done|done].
  Qed.

  (** ** Infinite runs *)
  Section run.
    Context (σ : nat → sys) (lb : nat → zlabel).
    Hypothesis (H0 : σ 0 = init) (Hrun : zruns bstep σ lb) (Hns : ∀ n, stopped (σ n) = false) (Hjb : ∀ p, just bstep σ lb p).
    Lemma zrun : zruns zstep σ lb.
    Proof. intros n. apply bz, Hrun. Qed.
    Lemma others_just p : p ≠ Loop → just zstep σ lb p.
    Proof.
      intros Hp n. destruct (Hjb p n) as (m & Hm & [Ha|Hd]); exists m; split; [done|by left|done|right]. intros l z Ha Hst. apply (Hd l z Ha). split; [done|].
      intros Hpr. exfalso. destruct p, l as [|[[]| | | |] []| | |]; try done.
    Qed.
    Notation runBI := (run_BI g second dflt i ps fs Hfs t0 workers σ lb H0 zrun).
    Notation rcalm := (run_calm g second dflt i ps fs Hfs t0 workers σ lb H0 zrun Hns).
    Lemma reg_mono n m : n ≤ m → registered i (σ n) → registered i (σ m).
    Proof. induction 1 as [|m Hm IH]; [done|]. intros Hr. eapply registered_step; [by eapply bi_base, runBI|apply zrun|by apply IH]. Qed.
    Lemma grow n m : n ≤ m → registered i (σ n) → log_of i (z_inf (σ m)) = log_of i (z_inf (σ n)) ∨ ∃ j, n ≤ j < m ∧ acts Loop (lb j).
    Proof.
      induction 1 as [|m Hm IH]; intros Hreg; [by left|]. destruct (IH Hreg) as [He|(j & Hj & Ha)]; [|right; exists j; split; [lia|done]].
      destruct (log_step1 (σ m) (lb m) (σ (S m))) as [He2|(Ha & _)]; [by eapply bi_base, runBI|apply zrun|by eapply reg_mono|left; congruence|].
      right. exists m. split; [lia|done].
    Qed.
    Lemma waits_stay z l z' : zstep z l z' → log_of i (z_inf z') = log_of i (z_inf z) → waits z = false → waits z' = false.
    Proof.
      intros Hst He [Hf Hi]%waits_false. apply waits_false. rewrite He.
      destruct Hst as [| |w h f l a b k n l' Hn Hl1|w h f l a b k ll l' Hf1 Hl1|w h f l a b k n l' Hl1| |w h f l b k l' Hl1|]; simpl in *; try done.
      - apply lookup_lt_Some in Hn. lia.
      - split; [done|]. destruct Hl1; simpl in *; try done; by destruct got, cur, put.
      - by inversion Hl1; subst.
      - destruct b; by inversion Hl1; subst.
    Qed.
    Lemma quiet_lis z : shape (z_lis z) → l_stop (z_lis z) = false → pending z = [] → length (log_of i (z_inf z)) ≤ z_fed z ∧ l_addq (z_lis z) = None ∧ (∀ n, l_adder (z_lis z) ≠ APutting n).
    Proof.
      intros H1 H2 Hp. unfold System_proofs.pending, lpart, inflight in Hp. apply app_eq_nil in Hp as [[[_ [_ [_ [_ [_ Hx]%app_eq_nil]%app_eq_nil]%app_eq_nil]%app_eq_nil]%app_eq_nil Had]%app_eq_nil Hd]. split; [|split].
      - apply (f_equal length) in Hd. rewrite drop_length in Hd. simpl in Hd. lia.
      - by destruct (l_addq (z_lis z)).
      - intros n Hn. by rewrite Hn in Had.
    Qed.
    Lemma quiet_waits m : pending (σ m) = [] → waits (σ m) = false ∨ l_adder (z_lis (σ m)) = AJoining.
    Proof.
      intros Hp. destruct (quiet_lis (σ m) (cm_shape _ _ _ (rcalm m)) (cm_stop _ _ _ (rcalm m)) Hp) as (H1 & H2 & H3).
      destruct (l_adder (z_lis (σ m))) as [|n|] eqn:Ha; [left; by apply waits_false|by destruct (H3 n)|by right].
    Qed.
    Lemma fin m : ∃ m', m ≤ m' ∧ (pending (σ m') ≠ [] ∨ waits (σ m') = false).
    Proof.
      destruct (others_just Feed (ltac:(done)) m) as (m' & Hm & Hj).
      destruct (pending (σ m')) as [|x r] eqn:Hp; [|exists m'; split; [done|left; by rewrite Hp]].
      destruct (quiet_waits m' Hp) as [?|Ha]; [exists m'; split; [done|by right]|].
      destruct (quiet_lis (σ m') (cm_shape _ _ _ (rcalm m')) (cm_stop _ _ _ (rcalm m')) Hp) as (H1 & H2 & H3).
      destruct Hj as [Hac|Hd].
      - exists (S m'). split; [lia|]. right. apply waits_false. pose proof (zrun m') as Hst. destruct (lb m') as [| |ll| |]; try done.
        destruct ll; try done; inversion Hst as [| |w h f l a b k n' l' Hn Hl1 Hz Hlb Hz'|w h f l a b k ll l' Hf1 Hl1 Hz Hlb Hz'| | |w h f l b k l' Hl1 Hz Hlb Hz'|]; subst; try done;
          rewrite <-Hz in *; simpl in *; try (by inversion Hl1; subst; simpl in *; congruence); try (by destruct b).
        inversion Hl1; subst. done.
      - exfalso. destruct (σ m') as [w h f l a b k]. destruct l as [ad q st p pe nq r]. simpl in *. subst.
        eapply (Hd (ZLis LJoined)); [done|]. apply z_listener; [done|]. constructor.
    Qed.
    Lemma stay n m : n ≤ m → waits (σ n) = false → waits (σ m) = false ∨ (∃ j, n ≤ j < m ∧ acts Loop (lb j)) ∨ registered i (σ m).
    Proof.
      induction 1 as [|m Hm IH]; intros Hw; [by left|]. destruct (IH Hw) as [Hwm|[(j & Hj & Ha)|Hreg]]; [|right; left; exists j; split; [lia|done]|right; right; by eapply (reg_mono m); [lia|]].
      destruct (registered_or_not (σ m)) as [Hreg|Hnr].
      - destruct (log_step1 (σ m) (lb m) (σ (S m))) as [He|(Ha & _)]; [by eapply bi_base, runBI|apply zrun|done|left; by eapply waits_stay; [apply zrun| |]|].
        right; left. exists m. split; [lia|done].
      - destruct (registered_or_not (σ (S m))) as [?|Hnr']; [by right; right|left]. eapply waits_stay; [apply zrun| |done].
        by rewrite !unregistered_log.
    Qed.
    Lemma stay_reg n m : n ≤ m → registered i (σ n) → waits (σ n) = false → waits (σ m) = false ∨ (∃ j, n ≤ j < m ∧ acts Loop (lb j)).
    Proof.
      induction 1 as [|m Hm IH]; intros Hreg Hw; [by left|]. destruct (IH Hreg Hw) as [Hwm|(j & Hj & Ha)]; [|right; exists j; split; [lia|done]].
      destruct (log_step1 (σ m) (lb m) (σ (S m))) as [He|(Ha & _)]; [by eapply bi_base, runBI|apply zrun|by eapply reg_mono|left; by eapply waits_stay; [apply zrun| |]|].
      right. exists m. split; [lia|done].
    Qed.
    Definition goes n : Prop := ∃ m, n ≤ m ∧ (acts Loop (lb m) ∨ ∀ l z, acts Loop l → ¬ zstep (σ m) l z).
    Lemma goes_le n m : n ≤ m → goes m → goes n.
    Proof. intros Hle (m' & Hm & Hx). exists m'. split; [lia|done]. Qed.
    Lemma loop_reg n : registered i (σ n) → goes n.
    Proof.
      intros Hreg.
      assert (Hall : ∃ m, n ≤ m ∧ length (log_of i (z_inf (σ n))) ≤ length (calls (first lb m))).
      { destruct (log_of i (z_inf (σ n))) as [|x r] eqn:Hl; [exists n; split; [done|simpl; lia]|].
        destruct (lookup_lt_is_Some_2 (x :: r) (length r)) as [y Hy]; [simpl; lia|].
        destruct (delivered_o g second dflt i ps fs Hfs t0 workers σ lb H0 zrun Hns others_just n (length r) y) as (m & Hm & Hc); [by rewrite Hl|].
        exists m. split; [done|]. apply lookup_lt_Some in Hc. simpl. lia. }
      destruct Hall as (m & Hm & Hlen).
      assert (Hq : ∀ m', m ≤ m' → (pending (σ m') = []) ∨ ∃ j, n ≤ j ∧ acts Loop (lb j)).
      { intros m' Hm'. destruct (grow n m') as [He|(j & Hj & Ha)]; [lia|done| |right; exists j; split; [lia|done]]. left.
        pose proof (cm_flow _ _ _ (rcalm m')) as F. rewrite He in F. destruct (first_app lb m m' Hm') as (b & Hb & _). rewrite Hb, calls_app in F.
        apply (f_equal length) in F. rewrite !app_length in F. apply nil_length_inv. lia. }
      destruct (fin m) as (m' & Hm' & [Hne|Hw]).
      { destruct (Hq m' Hm') as [?|(j & ? & ?)]; [done|]. exists j. split; [done|by left]. }
      destruct (Hjb Loop m') as (m2 & Hm2 & [Ha|Hd]); [exists m2; split; [lia|by left]|].
      destruct (stay_reg m' m2) as [Hw2|(j & Hj & Ha)]; [done|by eapply (reg_mono n); [lia|]|done| |exists j; split; [lia|by left]].
      exists m2. split; [lia|]. right. intros l z Ha Hst. apply (Hd l z Ha). by split.
    Qed.
    Lemma loop_goes n : goes n.
    Proof.
      destruct (registered_or_not (σ n)) as [?|Hnr]; [by apply loop_reg|].
      destruct (fin n) as (m' & Hm' & [Hne|Hw]).
      { apply (goes_le n m'); [done|]. destruct (registered_or_not (σ m')) as [?|Hnr']; [by apply loop_reg|]. exfalso. apply Hne.
        pose proof (cm_flow _ _ _ (rcalm m')) as F. rewrite (unregistered_log _ Hnr') in F. by apply app_eq_nil in F as [_ ?]. }
      destruct (Hjb Loop m') as (m2 & Hm2 & [Ha|Hd]); [exists m2; split; [lia|by left]|].
      destruct (stay m' m2) as [Hw2|[(j & Hj & Ha)|Hreg]]; [done|done| |exists j; split; [lia|by left]|apply (goes_le n m2); [lia|by apply loop_reg]].
      exists m2. split; [lia|]. right. intros l z Ha Hst. apply (Hd l z Ha). by split.
    Qed.
    Lemma part_loop p : p = Loop ∨ p ≠ Loop.
    Proof. destruct p; auto. Qed.
    Lemma just_transfer p : just zstep σ lb p.
    Proof. destruct (part_loop p) as [->|Hp]; [exact loop_goes|by apply others_just]. Qed.
  End run.

  Lemma wait_converges k ns name (Hps : ∀ p n e, p ∈ ps → about k n → event_of n e → p e = PTrue) (σ : nat → sys) lb n :
    let step := λ z l z', zstep z l z' ∧ well_named k ns name l ∧ announced i k z l in
    let changes := w_changes (z_world (σ n)) in
    let server := server_at queue_key changes (length changes) k in
    σ 0 = init → zruns (λ z l z', bstep z l z' ∧ well_named k ns name l ∧ single_list z l) σ lb →
    (∀ m, stopped (σ m) = false) → (∀ q, just bstep σ lb q) → workers_go_on σ lb → server_rests σ lb n → ∀ j, j < workers → (∀ m, lb m ≠ ZCtl (KCancel j)) → registered i (σ n) →
    ∃ M, n ≤ M ∧ ∀ m, M ≤ m → drained (h_inf (z_inf (σ m))) ∧ cached k (σ m) = DObj <$> server ∧
      (server = None ∧ (∀ x, x ∈ log_of i (z_inf (σ m)) → ¬ about k x) ∨ reconciled_since step init k (NsName ns name) (first lb m) (σ m)).
  Proof.
    intros step changes server H0 Hrun Hns Hjust Hgo Hrest j Hj Hnc Hreg.
    assert (Hb : zruns bstep σ lb) by (intros m; apply Hrun).
    assert (Hz : zruns (λ z l z', zstep z l z' ∧ well_named k ns name l ∧ single_list z l) σ lb) by (intros m; destruct (Hrun m) as [[? _] ?]; by split).
    exact (converges g second dflt i ps fs Hfs t0 workers k ns name Hps σ lb n H0 (single_runs g second dflt i ps fs Hfs t0 workers k ns name Hps σ lb H0 Hz) Hns
      (just_transfer σ lb H0 Hb Hns Hjust) Hgo Hrest j Hj Hnc Hreg).
  Qed.
End proofs.
