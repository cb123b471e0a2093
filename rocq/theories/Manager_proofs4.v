From Verif Require Import Base InformersMap_model InformersMap_spec InformersMap_proofs Manager_model Manager_spec Manager_proofs Manager_proofs2 Manager_proofs3.

Section proofs.
  Context {G : Type} `{EqDecision G}.
  Implicit Types (tr ls : list (mlabel G)) (l : mlabel G) (g : G) (s : mgr G) (c i k r : nat) (m : imap G) (ws snap : list G).
  Notation mst := mstep.

  Lemma countb_insert {X} (f : X → bool) (xs : list X) i u v : xs !! i = Some u →
    countb f (<[i:=v]> xs) + (if f u then 1 else 0) = countb f xs + (if f v then 1 else 0).
  Proof.
    revert i. induction xs as [|z xs IH]; intros [|i] Hi; simplify_eq/=; rewrite ?countb_cons; [lia|].
    specialize (IH _ Hi). lia.
  Qed.
  Lemma watched_goes tr ls g : Forall goes_on ls → watched (tr ++ ls) g → watched tr g.
  Proof. intros Hg [k [?|Hk]%elem_of_app]; [by exists k|]. rewrite Forall_forall in Hg. by destruct (Hg _ Hk). Qed.
  Definition setting tr s : Prop := reach mst m_init tr s ∧ allrun (m_cache s) ∧ ∀ g, watched tr g → made g tr.
  Lemma setting_goes tr s i k ph s' ls : setting tr s → goes i k ph s s' ls → setting (tr ++ ls) s'.
  Proof.
    intros (H1&H2&H3) (K1&K2&_&_&K5). split; [by eapply reach_app|]. split; [by eapply allrun_keep|]. intros g Hw. apply made_app, H3. by eapply watched_goes.
  Qed.
  Lemma come_up_n n tr s i k ph : countb (holds k) (m_runs s) ≤ n → setting tr s → m_runs s !! i = Some (CR k ph) →
    ∃ ls s', reach mst s ls s' ∧ Forall goes_on ls ∧ m_runs s' !! i = Some (CR k CUp).
  Proof.
    revert tr s ph. induction n as [n IH] using lt_wf_ind. intros tr s ph Hn Hset Hi.
    assert (Hany : ph ≠ CLock → ph ≠ CUp → ∃ ls s', reach mst s ls s' ∧ Forall goes_on ls ∧ m_runs s' !! i = Some (CR k CUp)).
    { intros H1 H2. destruct Hset as (Hr&Ha&Hw). destruct (fin_any tr s i k ph Hr Ha Hw Hi H1 H2) as (ls&s'&Hgo). exists ls, s'.
      pose proof (goes_lookup _ _ _ _ _ _ _ Hi Hgo). by destruct Hgo as (?&?&_). }
    destruct ph as [|ws|g r ws|snap|]; try (by apply Hany); [|exists [], s; split; [constructor|]; split; [constructor|done]]. clear Hany.
    destruct (forallb (λ x, negb (holds k x)) (m_runs s)) eqn:Hf.
    - destruct Hset as (Hr&Ha&Hw). pose proof (bounded_reach _ _ Hr) as [Hb _]. rewrite Forall_lookup in Hb. specialize (Hb _ _ Hi). simpl in Hb.
      apply lookup_lt_is_Some in Hb as [ws Hws]. pose proof (ms_clock s i k ws Hi Hws Hf) as Hs. set (s1 := set_run i (CLoop ws) s) in *.
      assert (Hgo : goes i k (CLoop ws) s s1 [MCLock i]).
      { split; [by apply reach_one|]. split; [by repeat constructor|]. split; [exact (set_run_insert _ _ _ _ Hi)|]. split; [done|]. by split. }
      destruct (setting_goes tr s i k _ s1 _ (conj Hr (conj Ha Hw)) Hgo) as (Hr1&Ha1&Hw1). pose proof (goes_lookup _ _ _ _ _ _ _ Hi Hgo) as Hi1.
      destruct (fin_any _ s1 i k (CLoop ws) Hr1 Ha1 Hw1 Hi1) as (ls&s'&Hgo2); [done|done|]. pose proof (goes_trans _ _ _ _ _ _ _ _ _ Hgo Hgo2) as Hgo3.
      eexists _, s'. pose proof (goes_lookup _ _ _ _ _ _ _ Hi Hgo3). destruct Hgo3 as (?&?&_). done.
    - assert (∃ j phj, m_runs s !! j = Some (CR k phj) ∧ phj ≠ CLock ∧ phj ≠ CUp) as (j&phj&Hj&Hj1&Hj2).
      { assert (Exists (λ x, holds k x = true) (m_runs s)) as (x&Hx&Hh)%Exists_exists.
        { destruct (decide (Exists (λ x, holds k x = true) (m_runs s))) as [|Hne]; [done|]. exfalso. enough (forallb (λ x, negb (holds k x)) (m_runs s) = true) by congruence.
          apply forallb_forall. intros x Hx. destruct (holds k x) eqn:E; [|done]. destruct Hne. apply Exists_exists. exists x. split; [by apply elem_of_list_In|done]. }
        apply elem_of_list_lookup in Hx as [j Hj]. destruct x as [kj phj]. unfold holds in Hh. simpl in Hh. apply andb_prop in Hh as [Hk%bool_decide_eq_true Hp]. subst kj.
        exists j, phj. by destruct phj. }
      assert (i ≠ j) as Hij by congruence. destruct Hset as (Hr&Ha&Hw).
      destruct (fin_any tr s j k phj Hr Ha Hw Hj Hj1 Hj2) as (ls&s1&Hgo). pose proof (setting_goes tr s j k _ s1 _ (conj Hr (conj Ha Hw)) Hgo) as Hset1.
      pose proof Hgo as (Hr1&Hg1&Hruns&_). assert (Hi1 : m_runs s1 !! i = Some (CR k CLock)) by (by rewrite Hruns, list_lookup_insert_ne).
      pose proof (countb_insert (holds k) (m_runs s) j _ (CR k CUp) Hj) as Hcnt. rewrite <- Hruns in Hcnt.
      assert (holds k (CR k phj) = true) as Hh1. { unfold holds. simpl. rewrite bool_decide_eq_true_2 by done. by destruct phj. }
      assert (holds k (CR k (CUp (G:=G))) = false) as Hh2. { unfold holds. simpl. by rewrite andb_false_r. }
      rewrite Hh1, Hh2 in Hcnt. destruct (IH (countb (holds k) (m_runs s1))) with (tr := tr ++ ls) (s := s1) (ph := CLock (G:=G)) as (ls2&s2&H1&H2&H3); [lia|lia|done|done|].
      exists (ls ++ ls2), s2. split; [by eapply reach_app|]. split; [by apply Forall_app|done].
  Qed.
  Lemma comes_up tr1 tr2 s i k ph : reach mst m_init (tr1 ++ MTask TCache :: tr2) s → (∀ g, made g (tr1 ++ MTask TCache :: tr2) → made g tr1) →
    (∀ k g, MWatch k g ∈ tr1 ++ MTask TCache :: tr2 → made g tr1) → m_runs s !! i = Some (CR k ph) →
    ∃ ls s', reach mst s ls s' ∧ Forall goes_on ls ∧ m_runs s' !! i = Some (CR k CUp).
  Proof.
    intros Hr Hm Hw Hi. eapply come_up_n; [done| |done]. split; [done|]. split; [by eapply early_allrun|].
    intros g [k' Hk']. apply made_app. by eapply Hw.
  Qed.

  (** C71: a start that waits can launch *)
  Lemma started_allrun m m' : imstep m IStart m' → allrun m'.
  Proof.
    intros Hs g Hg. inversion Hs; subst. simpl in *. rewrite dget_run_all in Hg. unfold runnable. simpl. rewrite dget_run_all.
    destruct (dget g (im_infs m)); [|by destruct Hg]. eexists. split; [done|]. simpl. by left.
  Qed.
  Definition known m g : Prop := is_Some (dget g (im_infs m)).
  Lemma known_step m cl m' g : imstep m cl m' → known m g → known m' g.
  Proof.
    unfold known. intros Hs [x Hx]. pose proof (ids_keep _ _ _ g (mi_id x) Hs) as H. unfold ids in H. rewrite Hx in H. specialize (H eq_refl). by destruct (dget g (im_infs m')).
  Qed.
  Lemma known_mstep s l s' g : mst s l s' → known (m_cache s) g → known (m_cache s') g.
  Proof.
    intros Hs%step_cache Hk. apply (reach_inv imstep (λ m, known m g) _ _ _ (λ m cl m' H Hst, known_step m cl m' g Hst H) Hk Hs).
  Qed.
  Lemma runnable_mstep s l s' g : mst s l s' → runnable g (m_cache s) → runnable g (m_cache s').
  Proof. intros Hs%step_cache Hk. apply (reach_inv imstep (runnable g) _ _ _ (λ m cl m' H Hst, runnable_step g m cl m' Hst H) Hk Hs). Qed.
  Definition waitok s : Prop := ∀ c snap, m_starts s !! c = Some (SWait snap) → (∀ g, g ∈ snap → known (m_cache s) g) ∧ (TCache ∈ m_ready s ∨ ∀ g, g ∈ snap → runnable g (m_cache s)).
  Lemma waitok_reach tr s : reach mst m_init tr s → waitok s.
  Proof.
    intros Hr. apply (reach_inv mst waitok m_init tr s); [|by intros c snap|done]. clear tr s Hr. intros s l s' HI Hs c0 snap0 Hc0.
    assert (Hold : m_starts s !! c0 = Some (SWait snap0) ∨ ∃ snap, l = MWait c0 snap ∧ snap0 = snap).
    { destruct Hs; simpl in Hc0; try (by left); try (apply list_lookup_insert_Some in Hc0 as [(->&?&_)|[_ ?]]; [|by left]); try done.
      - apply lookup_app_Some in Hc0 as [?|[_ H1]]; [by left|]. by apply list_lookup_singleton_Some in H1 as [_ ?].
      - right. eexists. split; [done|congruence]. }
    destruct Hold as [Hold|(snap&->&->)].
    - destruct (HI _ _ Hold) as [Hkn Hor]. split; [intros g Hg; eapply known_mstep; [done|by apply Hkn]|].
      destruct Hor as [Hin|Hrun]; [|right; intros g Hg; eapply runnable_mstep; [done|by apply Hrun]].
      destruct Hs as [|k Hk|k g ws Hk Hf| |c Hc1 Hho Hst|c snap Hc1 Hsy|c Hc1 Hho Hst|c p Hc1 Hp|ready' c' Hre Hc|k' ready' Hre|i' k' ws' Hi|i' k' g' ws' c' Hi Hc|i' k' g' r' ws' id st Hi Hd|i' k' Hi|i' k' snap Hi|];
        simpl; try (by left); try (left; apply elem_of_app; by left).
      + right. intros g Hg. eapply started_allrun; [done|]. eapply known_step; [done|]. by apply Hkn.
      + left. rewrite Hre in Hin. by apply elem_of_cons in Hin as [?|?].
    - inversion Hs; subst. simpl in *. split; [|left; apply elem_of_app; right; by left]. intros g Hg. by apply elem_of_dkeys.
  Qed.
  Lemma pop_cache s : TCache ∈ m_ready s → ∃ ls s1, reach mst s ls s1 ∧ Forall (λ l, goes_on l ∨ ∃ t, l = MTask t) ls ∧ m_starts s1 = m_starts s ∧ m_runnables s1 = m_runnables s ∧
    allrun (m_cache s1) ∧ ∀ g, known (m_cache s) g → known (m_cache s1) g.
  Proof.
    remember (m_ready s) as ready eqn:Hre. revert s Hre. induction ready as [|t ready IH]; intros s Hre Hin; [by apply elem_of_nil in Hin|]. destruct t as [|k].
    - pose proof (im_start (m_cache s)) as Hc. pose proof (ms_cache s ready _ (eq_sym Hre) Hc) as Hs. eexists _, _. split; [by apply reach_one|].
      split; [constructor; [eauto|constructor]|]. split; [done|]. split; [done|]. split; [by eapply started_allrun|]. intros g. by eapply known_step.
    - pose proof (ms_run s k ready (eq_sym Hre)) as Hs. apply elem_of_cons in Hin as [?|Hin]; [done|].
      match type of Hs with mstep _ _ ?x => destruct (IH x eq_refl Hin) as (ls&s1&H1&H2&H3&H4&H5&H6) end.
      eexists _, s1. split; [by eapply reach_cons|]. split; [constructor; eauto|]. done.
  Qed.
  Lemma can_launch tr s c snap : reach mst m_init tr s → m_starts s !! c = Some (SWait snap) →
    ∃ ls s1 s', reach mst s ls s1 ∧ mst s1 (MLaunch c (m_runnables s)) s' ∧ Forall (λ l, goes_on l ∨ ∃ t, l = MTask t) ls.
  Proof.
    intros Hr Hc. destruct (waitok_reach _ _ Hr _ _ Hc) as [Hkn Hor].
    assert (∃ ls s1, reach mst s ls s1 ∧ Forall (λ l, goes_on l ∨ ∃ t, l = MTask t) ls ∧ m_starts s1 = m_starts s ∧ m_runnables s1 = m_runnables s ∧ ∀ g, g ∈ snap → runnable g (m_cache s1)) as (ls&s1&H1&H2&H3&H4&H5).
    { destruct Hor as [Hin|Hrun].
      - destruct (pop_cache s Hin) as (ls&s1&H1&H2&H3&H4&H5&H6). exists ls, s1. repeat split; try done. intros g Hg. by apply H5, H6, Hkn.
      - exists [], s. split; [constructor|]. split; [constructor|]. done. }
    destruct (sync_all snap (m_cache s1) H5) as (cls&m'&Hr'&Hq&_&Hsy&_).
    eexists (ls ++ (MCache <$> cls)), (with_cache m' s1), _. split; [eapply reach_app; [done|]; by apply lift_cache|]. split.
    - rewrite <- H4. apply (ms_launch (with_cache m' s1) c snap); [by simpl; rewrite H3|done].
    - apply Forall_app. split; [done|]. eapply Forall_impl; [by apply goes_on_cache|]. intros; by left.
  Qed.

  (** two starts of a controller do not overlap *)
  Lemma one_holder tr s k : reach mst m_init tr s → countb (holds k) (m_runs s) ≤ 1.
  Proof.
    intros Hr. apply (reach_inv mst (λ s, countb (holds k) (m_runs s) ≤ 1) m_init tr s); [|cbv; lia|done]. clear tr s Hr. intros s l s' HI Hs.
    assert (Hset : ∀ i k' ph ph' s0, m_runs s0 = m_runs s → m_runs s !! i = Some (CR k' ph) → (holds k (CR k' ph') = true → holds k (CR k' ph) = true) → countb (holds k) (m_runs (set_run i ph' s0)) ≤ 1).
    { intros i k' ph ph' s0 H0 Hi Himp. rewrite <- H0 in *. rewrite (set_run_insert i ph' s0 _ Hi). pose proof (countb_insert (holds k) _ i _ (CR k' ph') Hi) as H. simpl.
      destruct (holds k (CR k' ph')); [rewrite Himp in H by done; lia|]. destruct (holds k (CR k' ph)); lia. }
    destruct Hs as [|k0 Hk|k0 g ws Hk Hf| |c Hc1 Hho Hst|c snap Hc1 Hsy|c Hc1 Hho Hst|c p Hc1 Hp|ready' c' Hre Hc|k' ready' Hre|i' k' ws' Hi Hws Hf|i' k' g' ws' c' Hi Hc|i' k' g' r' ws' id st Hi Hd|i' k' Hi|i' k' snap Hi|]; try done.
    - simpl. rewrite countb_app, countb_cons, countb_nil. unfold holds at 2. simpl. rewrite andb_false_r. lia.
    - rewrite (set_run_insert i' _ s _ Hi). pose proof (countb_insert (holds k) _ i' _ (CR k' (CLoop ws')) Hi) as H. simpl.
      destruct (decide (k' = k)) as [->|Hne].
      + assert (countb (holds k) (m_runs s) = 0) as H0. { apply countb_zero. intros x Hx. unfold ctl_free in Hf. rewrite forallb_forall in Hf. specialize (Hf x). rewrite <- elem_of_list_In in Hf. specialize (Hf Hx). by destruct (holds k x). }
        destruct (holds k (CR k (CLoop ws'))); lia.
      + assert (holds k (CR k' (CLoop ws')) = false) as H1 by (unfold holds; simpl; by rewrite bool_decide_eq_false_2). rewrite H1 in H. lia.
    - eapply Hset; [done|done|]. unfold holds. by simpl.
    - eapply Hset; [done|done|]. unfold holds. by simpl.
    - eapply Hset; [done|done|]. unfold holds. by simpl.
    - eapply Hset; [done|done|]. unfold holds. simpl. by rewrite andb_false_r.
  Qed.

  (** a kind requested after the start keeps controllers that still wait from coming up *)
  Lemma unrun_reach m cls m' g : reach imstep m cls m' → IStart ∉ cls → unrun g m → unrun g m'.
  Proof.
    intros Hr Hn Hu. revert Hn. apply (reach_trace_inv imstep (λ cls m', IStart ∉ cls → unrun g m') m cls m'); [done| |done].
    intros cls1 m1 cl m2 _ IH Hs [H1 H2]%not_elem_of_app. eapply unrun_step; [done| |by apply IH]. intros ->. apply H2. by left.
  Qed.
  Lemma late_blocks tr1 tr2 s1 s i k snap g : reach mst m_init tr1 s1 → reach mst s1 tr2 s → ¬ made g tr1 → IStart ∉ cache_labels tr2 → m_runs s !! i = Some (CR k (CSync snap)) → g ∈ snap →
    ∀ ls s', reach mst s ls s' → IStart ∉ cache_labels ls → MUp i ∉ ls.
  Proof.
    intros Hr1 Hr2 Hm Hn Hi Hg ls s' Hr. assert (Hu : unrun g (m_cache s)).
    { eapply unrun_reach; [by apply reach_cache|done|]. unfold unrun. destruct (dget g (im_infs (m_cache s1))) eqn:E; [|done]. destruct Hm. apply (made_ids _ _ g Hr1). by rewrite E. }
    enough (IStart ∉ cache_labels ls → unrun g (m_cache s') ∧ m_runs s' !! i = Some (CR k (CSync snap)) ∧ MUp i ∉ ls) as H by (intros ?; by apply H).
    apply (reach_trace_inv mst (λ ls s', IStart ∉ cache_labels ls → unrun g (m_cache s') ∧ m_runs s' !! i = Some (CR k (CSync snap)) ∧ MUp i ∉ ls) s ls s'); [intros _; split; [done|]; split; [done|]; apply not_elem_of_nil|clear ls s' Hr|done].
    intros ls s2 l s3 _ IH Hs Hnn. rewrite cache_labels_app in Hnn. apply not_elem_of_app in Hnn as [Hn1 Hn2]. destruct (IH Hn1) as (IH1&IH2&IH3).
    assert (Hn3 : IStart ∉ in_cache l) by (unfold cache_labels in Hn2; simpl in Hn2; by rewrite app_nil_r in Hn2).
    split; [eapply unrun_reach; [by apply step_cache|done|done]|]. rewrite not_elem_of_app, elem_of_list_singleton.
    destruct Hs as [|k0 Hk|k0 g0 ws Hk Hf| |c Hc1 Hho Hst|c snap0 Hc1 Hsy|c Hc1 Hho Hst|c p Hc1 Hp|ready' c' Hre Hc|k' ready' Hre|i' k' ws' Hi' Hws Hf|i' k' g' ws' c' Hi' Hc|i' k' g' r' ws' id st Hi' Hd|i' k' Hi'|i' k' snap0 Hi' Hsy|]; try done.
    - split; [|done]. simpl. by apply lookup_app_l_Some.
    - rewrite lookup_set_run. destruct (decide (i' = i)) as [->|]; [congruence|]. done.
    - rewrite lookup_set_run. destruct (decide (i' = i)) as [->|]; [congruence|]. done.
    - rewrite lookup_set_run. destruct (decide (i' = i)) as [->|]; [congruence|]. done.
    - rewrite lookup_set_run. destruct (decide (i' = i)) as [->|]; [congruence|]. done.
    - destruct (decide (i' = i)) as [->|Hne].
      + exfalso. rewrite IH2 in Hi'. injection Hi' as -> ->. unfold all_synced in Hsy. rewrite forallb_forall in Hsy. specialize (Hsy g). rewrite <- elem_of_list_In in Hsy. specialize (Hsy Hg).
        apply unrun_synced in IH1. congruence.
      + rewrite lookup_set_run, decide_False by done. split; [done|]. split; [done|]. congruence.
  Qed.
End proofs.

(** cases *)
#[local] Transparent dget dset.
Local Ltac side := cbv; first [reflexivity | done | (intros ? [=]; fail) | (intros ? ?; discriminate) | (econstructor; cbv; first [reflexivity | done])].
Local Ltac go := repeat (eapply reach_cons; [econstructor; side|]; cbv); by constructor.
Definition built : list (mlabel nat) :=
  [MNew; MCache (IGet 7); MCache (IRead 0); MCache (IAdd 0 7 true); MWatch 0 7; MStart; MWait 0 [7]; MTask TCache].
Definition up : list (mlabel nat) :=
  [MCache (IBegin 7); MCache (ISync 7); MLaunch 0 [0]; MTask (TRun 0); MCLock 0; MGet 0 7; MCache (IRead 1); MCache (IAdd 1 7 false); MGot 0 7; MSync 0 [7]; MUp 0].
Definition unbuilt : list (mlabel nat) := [MNew; MWatch 0 7; MStart; MWait 0 []; MLaunch 0 [0]; MTask TCache; MTask (TRun 0); MCLock 0].
Definition up_st : mgr nat := MS (IM [(7, MInf 0 0 1 true)] true 1 [GDone 7 0 false; GDone 7 0 true]) true None [SGather] [[7]] [0] [] [CR 0 CUp].
Definition unbuilt_st : mgr nat := MS (IM [] true 0 []) true None [SGather] [[7]] [0] [] [CR 0 (CLoop [7])].
Lemma built_case : reach mstep m_init (built ++ up) up_st.
Proof. cbv. go. Qed.
Lemma unbuilt_case : reach mstep m_init unbuilt unbuilt_st.
Proof. cbv. go. Qed.
Lemma unbuilt_never : ∃ s, reach mstep m_init unbuilt s ∧ ∀ ls s', reach mstep s ls s' → IStart ∉ cache_labels ls → MUp 0 ∉ ls.
Proof.
  exists unbuilt_st. split; [exact unbuilt_case|]. intros ls s' Hr Hn. eapply (unbuilt_hangs unbuilt unbuilt_st 0 0 7 []); [exact unbuilt_case| |done|done|done].
  intros [r Hin]. unfold built, up, unbuilt, cache_labels in Hin. simpl in Hin. repeat (apply elem_of_cons in Hin as [?|Hin]; [done|]). by apply elem_of_nil in Hin.
Qed.
Lemma twice_case : ∃ s, reach mstep m_init (built ++ up ++ [MStart; MRelaunch 1 [0]]) s ∧ m_starts s !! 1 = Some SRaised ∧ launched 0 (built ++ up ++ [MStart; MRelaunch 1 [0]]) = 2 ∧ m_ready s = [TRun 0].
Proof.
  exists (MS (m_cache up_st) true None [SGather; SRaised] [[7]] [0] [TRun 0] [CR 0 CUp]). split; [|done]. rewrite app_assoc. eapply reach_app; [exact built_case|]. cbv. go.
Qed.
Lemma built_hyps : (∀ g, made g built ↔ g = 7) ∧ (∀ k g, MWatch k g ∈ built ++ up → g = 7) ∧ (∀ g, made g (built ++ up) → g = 7).
Proof.
  assert (H : ∀ g, made g (built ++ up) → g = 7).
  { intros g [r Hin]. unfold built, up, cache_labels in Hin. simpl in Hin. repeat (apply elem_of_cons in Hin as [?|Hin]; [by simplify_eq|]). by apply elem_of_nil in Hin. }
  split; [|split; [|done]].
  - intros g. split; [intros Hm; apply H; by apply made_app|]. intros ->. exists 0. unfold built, cache_labels. simpl. by repeat constructor.
  - intros k g Hin. unfold built, up in Hin. simpl in Hin. repeat (apply elem_of_cons in Hin as [?|Hin]; [by simplify_eq|]). by apply elem_of_nil in Hin.
Qed.
