From Verif Require Import Base InformersMap_model InformersMap_spec InformersMap_proofs Manager_model Manager_spec Manager_proofs Manager_proofs2 Manager_proofs3 Manager_proofs4 Manager_live_spec.

Section live.
  Context {G : Type} `{EqDecision G}.
  Implicit Types (l : mlabel G) (g : G) (s : mgr G) (c i k r n m : nat) (ws snap : list G) (a : agent G).
  Notation mst := mstep.

  Lemma run_stable s l s' i x : mst s l s' → m_runs s !! i = Some x → by_agent (ARun i) l ∨ m_runs s' !! i = Some x.
  Proof.
    intros Hs Hx.
    assert (Hset : ∀ j p s0, m_runs s0 = m_runs s → j = i ∨ m_runs (set_run j p s0) !! i = Some x).
    { intros j p s0 H0. destruct (decide (j = i)) as [->|Hne]; [by left|]. right. rewrite lookup_set_run, decide_False by done. by rewrite H0. }
    destruct Hs; try (by right); try (by apply Hset).
    right. simpl. by apply lookup_app_l_Some.
  Qed.
  Lemma start_stable s l s' c x : mst s l s' → m_starts s !! c = Some x → by_agent (AStart c) l ∨ l = MCancel c ∨ m_starts s' !! c = Some x.
  Proof.
    intros Hs Hx. destruct Hs as [| | | |c0|c0|c0|c0| | | | | | | |]; try (by right; right); simpl.
    1: right; right; by apply lookup_app_l_Some.
    all: destruct (decide (c0 = c)) as [->|Hne]; [auto|]; right; right; by rewrite list_lookup_insert_ne.
  Qed.
  Lemma cache_one s l s' : mst s l s' → in_cache l = [] ∧ m_cache s' = m_cache s ∨ ∃ cl, in_cache l = [cl] ∧ imstep (m_cache s) cl (m_cache s').
  Proof.
    intros Hs. pose proof (step_cache _ _ _ Hs) as Hc. destruct (in_cache l) as [|cl [|]] eqn:E.
    - left. split; [done|]. inversion Hc; subst; [done|]. by destruct ls.
    - right. exists cl. split; [done|]. by apply reach_one_inv in Hc.
    - exfalso. by destruct l as [| | | | | | | |[]| | | | | |].
  Qed.

  Section run.
    Context (σ : nat → mgr G) (lb : nat → mlabel G).
    Hypothesis (H0 : σ 0 = m_init) (Hruns : runs σ lb) (Hfair : fair σ lb).
    Lemma at_reach n : reach mst m_init (trace lb n) (σ n).
    Proof. unfold trace. rewrite <-H0. induction n as [|n IH]; [constructor|]. rewrite seq_S, fmap_app. simpl. eapply reach_snoc; [exact IH|apply Hruns]. Qed.
    Lemma trace_split n m : n ≤ m → ∃ tr, trace lb m = trace lb n ++ tr.
    Proof. intros Hle. exists (lb <$> seq n (m - n)). unfold trace. rewrite <-fmap_app. f_equal. replace m with (n + (m - n)) at 1 by lia. by rewrite seq_app. Qed.

    (** what is able and stays so until it moves does move *)
    Lemma keeps (P : mgr G → Prop) a n d : P (σ n) → (∀ k, n ≤ k → P (σ k) → by_agent a (lb k) ∨ P (σ (S k))) →
      (∃ k, n ≤ k ∧ P (σ k) ∧ by_agent a (lb k)) ∨ P (σ (n + d)).
    Proof.
      intros HP Hst. induction d as [|d IH]; [rewrite Nat.add_0_r; by right|]. destruct IH as [?|IH]; [by left|].
      destruct (Hst (n + d)) as [?|?]; [lia|done|left; exists (n + d); split; [lia|done]|right]. by rewrite Nat.add_succ_r.
    Qed.
    Lemma leads (P : mgr G → Prop) a n : P (σ n) → (∀ k, n ≤ k → P (σ k) → able a (σ k)) → (∀ k, n ≤ k → P (σ k) → by_agent a (lb k) ∨ P (σ (S k))) →
      ∃ k, n ≤ k ∧ P (σ k) ∧ by_agent a (lb k).
    Proof.
      intros HP Hab Hst. destruct (Hfair a n) as [(k&Hk&Hm)|(k&Hk&Hn)]; (destruct (keeps P a n (k - n) HP Hst) as [?|HPk]; [done|]; replace (n + (k - n)) with k in HPk by lia).
      - by exists k.
      - exfalso. eapply (Hn k); [lia|]. by apply Hab.
    Qed.

    (** informers *)
    Definition info g n : option minf := dget g (im_infs (m_cache (σ n))).
    Lemma info_step g n x : IStart ∉ in_cache (lb n) → info g n = Some x →
      ∃ x', info g (S n) = Some x' ∧
        ((by_agent (ABegin g) (lb n) ∧ mi_todo x = S (mi_todo x') ∧ mi_runs x' ≠ 0) ∨
         (by_agent (ASync g) (lb n) ∧ mi_todo x' = mi_todo x ∧ mi_runs x' = mi_runs x ∧ mi_synced x' = true) ∨
         (¬ by_agent (ASync g) (lb n) ∧ ¬ by_agent (ABegin g) (lb n) ∧ x' = x)).
    Proof.
      unfold info. intros Hn Hx. destruct (cache_one _ _ _ (Hruns n)) as [[E ->]|(cl&E&Hc)].
      - exists x. split; [done|]. right. right. destruct (lb n) as [| | | | | | | |[]| | | | | |]; simpl in E; try done; simpl; tauto.
      - assert (Hcl : cl ≠ IStart) by (intros ->; apply Hn; rewrite E; by left).
        assert (Hother : (∀ g', cl ≠ IBegin g' ∨ g' ≠ g) → (∀ g', cl ≠ ISync g' ∨ g' ≠ g) → ¬ by_agent (ASync g) (lb n) ∧ ¬ by_agent (ABegin g) (lb n)).
        { intros H1 H2. destruct (lb n) as [| | | | | | | |[]| | | | | |l0]; simpl in E; try done; simpl; try tauto; injection E as ->; try tauto.
          destruct cl as [| | | | | |g'|g']; simpl; try tauto; (split; [try tauto|try tauto]); intros ->; [destruct (H1 g)|destruct (H2 g)]; done. }
        assert (Hby : lb n = MCache cl ∨ cl = IStart ∨ ∃ g', cl = IGet g') by (destruct (lb n) as [| | | | | | | |[]| | | | | |l0]; simpl in E; try done; injection E as <-; eauto).
        destruct Hc as [g'|r' g' Hr'|r' g' found st infs next id cr Hr' Hfa|r' g' id Hr' Hsy|r' p' Hr' Hp'| |g' y nn Hy Ht|g' y Hy Hnz]; simpl in *; try done.
        + exists x. split; [done|]. right. right. split_and!; [| |done]; eapply Hother; by left.
        + exists x. split; [done|]. right. right. split_and!; [| |done]; eapply Hother; by left.
        + exists x. split; [|right; right; split_and!; [| |done]; eapply Hother; by left].
          unfold find_or_add in Hfa. destruct found; [by simplify_eq|]. destruct (dget g' _) eqn:Eg; [by simplify_eq|]. simplify_eq. rewrite dget_dset. case_decide; [by simplify_eq|done].
        + exists x. split; [done|]. right. right. split_and!; [| |done]; eapply Hother; by left.
        + exists x. split; [done|]. right. right. split_and!; [| |done]; eapply Hother; by left.
        + rewrite dget_dset. destruct (decide (g = g')) as [<-|Hne].
          * rewrite Hx in Hy. injection Hy as <-. eexists. split; [done|]. left. destruct Hby as [->|[?|[? ?]]]; [|done..]. simpl. split_and!; [done|done|lia].
          * exists x. split; [done|]. right. right. split_and!; [| |done]; eapply Hother; intros g''; (destruct (decide (g'' = g)) as [->|]; [left; by intros [= ->]|by right]).
        + rewrite dget_dset. destruct (decide (g = g')) as [<-|Hne].
          * rewrite Hx in Hy. injection Hy as <-. eexists. split; [done|]. right. left. destruct Hby as [->|[?|[? ?]]]; [|done..]. by simpl.
          * exists x. split; [done|]. right. right. split_and!; [| |done]; eapply Hother; intros g''; (destruct (decide (g'' = g)) as [->|]; [left; by intros [= ->]|by right]).
    Qed.
    Lemma begin_able g n x : info g n = Some x → mi_todo x ≠ 0 → able (ABegin g) (σ n).
    Proof. intros Hx Ht. destruct (mi_todo x) as [|t] eqn:E; [done|]. eexists (MCache (IBegin g)), _. split; [done|]. eapply ms_env; [by eapply im_begin|done]. Qed.
    Lemma sync_able g n x : info g n = Some x → mi_runs x ≠ 0 → able (ASync g) (σ n).
    Proof. intros Hx Ht. eexists (MCache (ISync g)), _. split; [done|]. eapply ms_env; [by eapply im_sync|done]. Qed.

    (** begun for the last time *)
    Lemma drained g t : ∀ n x, no_start_from lb n → info g n = Some x → mi_todo x = t → mi_todo x ≠ 0 ∨ mi_runs x ≠ 0 →
      ∃ m y, n ≤ m ∧ info g m = Some y ∧ mi_todo y = 0 ∧ mi_runs y ≠ 0.
    Proof.
      induction t as [|t IH]; intros n x Hns Hx Ht Hor.
      - exists n, x. split_and!; [lia|done|done|]. by destruct Hor.
      - destruct (leads (λ s, ∃ y, dget g (im_infs (m_cache s)) = Some y ∧ mi_todo y = S t) (ABegin g) n) as (k&Hk&(y&Hy&Hyt)&Hb).
        + by exists x.
        + intros k Hk (y&Hy&Hyt). apply (begin_able g k y Hy). lia.
        + intros k Hk (y&Hy&Hyt). destruct (info_step g k y (Hns k Hk) Hy) as (y'&Hy'&[(Hb&_)|[(_&Ht'&_)|(_&_&->)]]); [by left|right; exists y'; split; [done|congruence]|right; by exists y].
        + destruct (info_step g k y (Hns k Hk) Hy) as (y'&Hy'&[(_&Hd&Hr)|[(Hsb&_)|(_&Hnb&_)]]); [| |done].
          * destruct (IH (S k) y') as (m&z&Hm&?&?&?); [intros j Hj; apply Hns; lia|done|lia|by right|]. exists m, z. split_and!; [lia|done..].
          * exfalso. destruct (lb k) as [| | | | | | | | | | | | | |[]]; simpl in *; done.
    Qed.
    (** synced for good *)
    Lemma synced_stays g n x m : no_start_from lb n → info g n = Some x → mi_todo x = 0 → mi_synced x = true → n ≤ m → ∃ y, info g m = Some y ∧ mi_todo y = 0 ∧ mi_synced y = true.
    Proof.
      intros Hns Hx Ht Hsy Hle. replace m with (n + (m - n)) by lia. generalize (m - n) as d. clear m Hle. intros d. induction d as [|d IH]; [rewrite Nat.add_0_r; by exists x|].
      destruct IH as (y&Hy&Hyt&Hys). rewrite Nat.add_succ_r. assert (IStart ∉ in_cache (lb (n + d))) as Hn by (apply Hns; lia).
      destruct (info_step g (n + d) y Hn Hy) as (y'&Hy'&[(_&Hd&_)|[(_&Ht'&_&Hs')|(_&_&->)]]); [lia|exists y'; split_and!; [done|congruence|done]|by exists y].
    Qed.
    Lemma syncs g n : no_start_from lb n → runnable g (m_cache (σ n)) → ∃ m, n ≤ m ∧ ∀ k, m ≤ k → synced g (im_infs (m_cache (σ k))) = true.
    Proof.
      intros Hns (x&Hx&Hor). destruct (drained g (mi_todo x) n x Hns Hx eq_refl Hor) as (m&y&Hm&Hy&Hyt&Hyr).
      assert (Hns' : no_start_from lb m) by (intros j Hj; apply Hns; lia).
      destruct (leads (λ s, ∃ z, dget g (im_infs (m_cache s)) = Some z ∧ mi_todo z = 0 ∧ mi_runs z ≠ 0) (ASync g) m) as (k&Hk&(z&Hz&Hzt&Hzr)&Hb).
      - by exists y.
      - intros k Hk (z&Hz&Hzt&Hzr). by apply (sync_able g k z Hz).
      - intros k Hk (z&Hz&Hzt&Hzr). destruct (info_step g k z (Hns' k Hk) Hz) as (z'&Hz'&[(_&Hd&_)|[(Hb&_)|(_&_&->)]]); [lia|by left|right; by exists z].
      - destruct (info_step g k z (Hns' k Hk) Hz) as (z'&Hz'&[(_&Hd&_)|[(_&Ht'&_&Hs')|(Hnb&_)]]); [lia| |done].
        exists (S k). split; [lia|]. intros j Hj. destruct (synced_stays g (S k) z' j) as (w&Hw&_&Hws); [intros j' Hj'; apply Hns'; lia|done|congruence|done|done|].
        unfold synced. unfold info in Hw. by rewrite Hw.
    Qed.
    Lemma syncs_all snap n : no_start_from lb n → (∀ g, g ∈ snap → runnable g (m_cache (σ n))) → ∃ m, n ≤ m ∧ ∀ k, m ≤ k → all_synced snap (m_cache (σ k)) = true.
    Proof.
      intros Hns. induction snap as [|g snap IH]; intros Hrun; [by exists n|].
      destruct (IH) as (m1&Hm1&H1); [intros g' Hg'; apply Hrun; by right|]. destruct (syncs g n Hns) as (m2&Hm2&H2); [apply Hrun; by left|].
      exists (m1 `max` m2). split; [lia|]. intros k Hk. simpl. rewrite H2 by lia. apply H1. lia.
    Qed.

    (** starts of the manager *)
    Lemma in_ready n (t : mtask) : t ∈ m_ready (σ n) → ∃ k, n ≤ k ∧ lb k = MTask t.
    Proof.
      intros Hin. apply elem_of_list_split in Hin as (pre&post&Heq). revert n post Heq. induction pre as [|t0 pre IH]; intros n post Heq.
      - destruct (leads (λ s, ∃ post, m_ready s = t :: post) ALoop n) as (k&Hk&(post'&HP)&Hb).
        + by exists post.
        + intros k Hk (post'&HP). destruct t as [|j].
          * eexists (MTask TCache), _. split; [done|]. eapply ms_cache; [done|apply im_start].
          * eexists (MTask (TRun j)), _. split; [done|]. by eapply ms_run.
        + intros k Hk (post'&HP). pose proof (Hruns k) as Hs. remember (lb k) as l eqn:El. remember (σ (S k)) as s' eqn:Es.
          destruct Hs; simpl; try (right; by exists post'); try (right; rewrite HP; simpl; by eexists); by left.
        + exists k. split; [done|]. pose proof (Hruns k) as Hs. destruct (lb k); try done. inversion Hs; subst; rewrite HP in *; by simplify_eq.
      - destruct (leads (λ s, ∃ post, m_ready s = t0 :: pre ++ t :: post) ALoop n) as (k&Hk&(post'&HP)&Hb).
        + by exists post.
        + intros k Hk (post'&HP). destruct t0 as [|j].
          * eexists (MTask TCache), _. split; [done|]. eapply ms_cache; [done|apply im_start].
          * eexists (MTask (TRun j)), _. split; [done|]. by eapply ms_run.
        + intros k Hk (post'&HP). pose proof (Hruns k) as Hs. remember (lb k) as l eqn:El. remember (σ (S k)) as s' eqn:Es.
          destruct Hs; simpl; try (right; by exists post'); try (right; rewrite HP; simpl; rewrite <-app_assoc; simpl; by eexists); by left.
        + assert (m_ready (σ (S k)) = pre ++ t :: post') as Hr. { pose proof (Hruns k) as Hs. destruct (lb k); try done. inversion Hs; subst; rewrite HP in *; by simplify_eq/=. }
          destruct (IH (S k) post' Hr) as (k'&?&?). exists k'. split; [lia|done].
    Qed.
    Lemma will_launch c snap n n1 : no_start_from lb n1 → (∀ j, n ≤ j → lb j ≠ MCancel c) → m_starts (σ n) !! c = Some (SWait snap) → ∃ k ks, n ≤ k ∧ lb k = MLaunch c ks.
    Proof.
      intros Hns Hnc Hc.
      assert (Hstay : ∀ j, n ≤ j → m_starts (σ j) !! c = Some (SWait snap) → by_agent (AStart c) (lb j) ∨ m_starts (σ (S j)) !! c = Some (SWait snap)).
      { intros j Hj Hcj. destruct (start_stable _ _ _ _ _ (Hruns j) Hcj) as [?|[?|?]]; [by left|by destruct (Hnc j)|by right]. }
      assert (Hmove : ∀ j, n ≤ j → m_starts (σ j) !! c = Some (SWait snap) → by_agent (AStart c) (lb j) → ∃ k ks, n ≤ k ∧ lb k = MLaunch c ks).
      { intros j Hj Hcj Hb. pose proof (Hruns j) as Hs. destruct (lb j) as [| | | |c0 sn|c0 ks|c0 ks| | | | | | | |] eqn:El; simpl in Hb; try done; subst c0.
        - inversion Hs; subst. congruence.
        - by exists j, ks.
        - inversion Hs; subst. congruence. }
      assert (Hwas : ∀ d, (∃ k ks, n ≤ k ∧ lb k = MLaunch c ks) ∨ m_starts (σ (n + d)) !! c = Some (SWait snap)).
      { intros d. destruct (keeps (λ s, m_starts s !! c = Some (SWait snap)) (AStart c) n d Hc Hstay) as [(k&Hk&HP&Hb)|?]; [left; by apply (Hmove k)|by right]. }
      (* a moment when the informers of the snapshot are to be run, and none is scheduled later *)
      assert ((∃ k ks, n ≤ k ∧ lb k = MLaunch c ks) ∨ ∃ j, n ≤ j ∧ n1 ≤ j ∧ m_starts (σ j) !! c = Some (SWait snap) ∧ ∀ g, g ∈ snap → runnable g (m_cache (σ j))) as [?|(j&Hj&Hj1&Hcj&Hrun)]; [|done|].
      { destruct (Hwas (n1 - n)) as [?|Hcj]; [by left|]. set (j := n + (n1 - n)) in *.
        destruct (waitok_reach _ _ (at_reach j) _ _ Hcj) as [_ [Hin|Hrun]]; [|right; exists j; split_and!; [lia|lia|done|done]].
        exfalso. destruct (in_ready j TCache Hin) as (k&Hk&Hl). eapply (Hns k); [lia|]. rewrite Hl. by left. }
      destruct (syncs_all snap j) as (m&Hm&Hsy); [intros j' Hj'; apply Hns; lia|done|].
      destruct (Hwas (m - n)) as [?|Hcm]; [done|]. replace (n + (m - n)) with m in Hcm by lia.
      destruct (leads (λ s, m_starts s !! c = Some (SWait snap)) (AStart c) m) as (k&Hk&HP&Hb); [done| | |].
      - intros k Hk HP. eexists (MLaunch c _), _. split; [done|]. eapply ms_launch; [done|]. by apply Hsy.
      - intros k Hk. apply Hstay. lia.
      - apply (Hmove k); [lia|done|done].
    Qed.

    (** controllers *)
    Section calm.
      Context (N : nat).
      Hypothesis (Hcalm : ∀ n, N ≤ n → ∀ g, is_Some (dget g (im_infs (m_cache (σ n)))) → synced g (im_infs (m_cache (σ n))) = true).
      Hypothesis (Hknown : ∀ n g, N ≤ n → watched (trace lb n) g → is_Some (dget g (im_infs (m_cache (σ n))))).

      Lemma wants n i k ph g : N ≤ n → m_runs (σ n) !! i = Some (CR k ph) → g ∈ wanted ph → is_Some (dget g (im_infs (m_cache (σ n)))).
      Proof.
        intros Hn Hi Hg. destruct (wantok_reach _ _ (at_reach n)) as [_ Hw]. destruct (Hw (CR k ph) g) as [?|?]; [by eapply elem_of_list_lookup_2|done|by apply Hknown|].
        by apply (made_ids _ _ g (at_reach n)).
      Qed.
      Lemma up_sync i k snap n : N ≤ n → m_runs (σ n) !! i = Some (CR k (CSync snap)) → ∃ m, n ≤ m ∧ lb m = MUp i ∧ m_runs (σ m) !! i = Some (CR k (CSync snap)).
      Proof.
        intros Hn Hi. destruct (leads (λ s, m_runs s !! i = Some (CR k (CSync snap))) (ARun i) n Hi) as (m&Hm&HP&Hb).
        - intros m Hm HP. eexists (MUp i), _. split; [done|]. eapply ms_up; [done|]. unfold all_synced. apply forallb_forall. intros g Hg%elem_of_list_In. apply Hcalm; [lia|]. eapply wants; [|done|done]. lia.
        - intros m Hm HP. by apply (run_stable (σ m)).
        - exists m. split; [done|]. split; [|done]. pose proof (Hruns m) as Hs. destruct (lb m) eqn:El; simpl in Hb; try done; subst; inversion Hs; subst; simplify_eq; done.
      Qed.
      Lemma done_stays n r g id st : im_gets (m_cache (σ n)) !! r = Some (GDone g id st) → im_gets (m_cache (σ (S n))) !! r = Some (GDone g id st).
      Proof.
        intros Hp. destruct (cache_one _ _ _ (Hruns n)) as [[_ ->]|(cl&_&Hc)]; [done|]. remember (m_cache (σ (S n))) as m' eqn:Em.
        destruct Hc as [g'|r' g' Hr'|r' g' found st' infs next id' cr Hr' Hfa|r' g' id' Hr' Hsy|r' p' Hr' Hp'| |g' y nn Hy Ht|g' y Hy Hnz]; simpl; try done.
        - by apply lookup_app_l_Some.
        - rewrite list_lookup_insert_ne; [done|]. intros ->. congruence.
        - rewrite list_lookup_insert_ne; [done|]. intros ->. congruence.
        - rewrite list_lookup_insert_ne; [done|]. intros ->. congruence.
        - rewrite list_lookup_insert_ne; [done|]. intros ->. rewrite Hp in Hr'. injection Hr' as <-. by destruct (Hp' g id st).
      Qed.
      (** a call of get that belongs to a controller *)
      Definition rank (p : gphase G) : nat := match p with GLook _ => 3 | GFound _ _ _ => 2 | GWait _ _ => 1 | _ => 0 end.
      Lemma call_stable i k g r ws p n : m_runs (σ n) !! i = Some (CR k (CGet g r ws)) → im_gets (m_cache (σ n)) !! r = Some p → rank p ≠ 0 →
        by_agent (ACall r) (lb n) ∨ (m_runs (σ (S n)) !! i = Some (CR k (CGet g r ws)) ∧ im_gets (m_cache (σ (S n))) !! r = Some p).
      Proof.
        intros Hi Hp Hr. destruct (run_stable _ _ _ _ _ (Hruns n) Hi) as [Hb|Hi'].
        { exfalso. pose proof (Hruns n) as Hs. destruct (lb n) eqn:El; simpl in Hb; try done; subst; inversion Hs; subst; simplify_eq; done. }
        destruct (cache_one _ _ _ (Hruns n)) as [[_ ->]|(cl&E&Hc)]; [by right|].
        assert (Hins : ∀ r' p', r' = r ∨ <[r':=p']> (im_gets (m_cache (σ n))) !! r = Some p). { intros r' p'. destruct (decide (r' = r)) as [->|]; [by left|right]. by rewrite list_lookup_insert_ne. }
        assert (Hby : lb n = MCache cl ∨ cl = IStart ∨ ∃ g', cl = IGet g') by (destruct (lb n) as [| | | | | | | |[]| | | | | |l0]; simpl in E; try done; injection E as <-; eauto).
        remember (m_cache (σ (S n))) as m' eqn:Em.
        destruct Hc as [g'|r' g' Hr'|r' g' found st infs next id cr Hr' Hfa|r' g' id Hr' Hsy|r' p' Hr' Hp'| |g' y nn Hy Ht|g' y Hy Hnz]; simpl; try (by right).
        - right. split; [done|]. by apply lookup_app_l_Some.
        - destruct (Hins r' (GFound g' (mi_id <$> dget g' (im_infs (m_cache (σ n)))) (im_started (m_cache (σ n))))) as [->|?]; [left|by right]. destruct Hby as [->|[?|[? ?]]]; done.
        - destruct (Hins r' (after_find g' id st infs)) as [->|?]; [left|by right]. destruct Hby as [->|[?|[? ?]]]; done.
        - destruct (Hins r' (GDone g' id true)) as [->|?]; [left|by right]. destruct Hby as [->|[?|[? ?]]]; done.
        - destruct (decide (r' = r)) as [->|]; [|right; split; [done|]; by rewrite list_lookup_insert_ne]. exfalso. destruct Hby as [Hl|[?|[? ?]]]; [|done..].
          pose proof (Hruns n) as Hs. rewrite Hl in Hs. inversion Hs as [| | | | | | | | | | | | | | |? ? ? Ho]; subst. specialize (Ho r eq_refl). unfold owned in Ho.
          assert (existsb (λ x : crun G, match c_phase x with CGet _ r' _ => bool_decide (r' = r) | _ => false end) (m_runs (σ n)) = true) as Ht; [|congruence].
          apply existsb_exists. eexists. split; [apply elem_of_list_In; by eapply elem_of_list_lookup_2|]. simpl. by apply bool_decide_eq_true_2.
      Qed.
      Lemma call_done i k g r ws d : ∀ n p, N ≤ n → rank p = d → asks_for g p → m_runs (σ n) !! i = Some (CR k (CGet g r ws)) → im_gets (m_cache (σ n)) !! r = Some p →
        ∃ m id st, n ≤ m ∧ m_runs (σ m) !! i = Some (CR k (CGet g r ws)) ∧ im_gets (m_cache (σ m)) !! r = Some (GDone g id st).
      Proof.
        induction d as [d IH] using lt_wf_ind. intros n p Hn Hd Ha Hi Hp. destruct (decide (rank p = 0)) as [Hz|Hz].
        { destruct p; try done. simpl in Ha. subst. by exists n, id, started. }
        destruct (leads (λ s, m_runs s !! i = Some (CR k (CGet g r ws)) ∧ im_gets (m_cache s) !! r = Some p) (ACall r) n) as (m&Hm&[HP1 HP2]&Hb).
        - done.
        - intros m Hm [HP1 HP2]. destruct p as [g'|g' found st|g' id| |]; try done; simpl in Ha; subst g'.
          + eexists (MCache (IRead r)), _. split; [done|]. eapply ms_env; [by eapply im_read|done].
          + destruct (find_or_add g found (m_cache (σ m))) as [[[infs next] id] cr] eqn:E. eexists (MCache (IAdd r g cr)), _. split; [done|]. eapply ms_env; [by eapply im_add|done].
          + eexists (MCache (IWake r)), _. split; [done|]. eapply ms_env; [eapply im_wake; [done|]|done]. apply Hcalm; [lia|]. eapply (wants m i k _ g); [lia|done|]. simpl. by left.
        - intros m Hm [HP1 HP2]. by apply call_stable.
        - assert (∃ p', im_gets (m_cache (σ (S m))) !! r = Some p' ∧ asks_for g p' ∧ rank p' < rank p) as (p'&Hp'&Ha'&Hlt).
          { assert (r < length (im_gets (m_cache (σ m)))) as Hlen by (by eapply lookup_lt_Some).
            destruct (lb m) as [| | | | | | | | | | | | | |cl] eqn:El; simpl in Hb; try done. destruct cl as [|r0|r0 g0 c0|r0| | | |]; try done; subst r0;
              (destruct (cache_one _ _ _ (Hruns m)) as [[E _]|(cl&E&Hc)]; [by rewrite El in E|]; rewrite El in E; simpl in E; injection E as <-; remember (m_cache (σ (S m))) as m' eqn:Em; inversion Hc; subst; simplify_eq; simpl in *; subst).
            - eexists. split; [by apply list_lookup_insert|]. split; [done|]. simpl. lia.
            - eexists. split; [by apply list_lookup_insert|]. unfold after_find. destruct (_ && _); (split; [done|]); simpl; lia.
            - eexists. split; [by apply list_lookup_insert|]. split; [done|]. simpl. lia. }
          assert (m_runs (σ (S m)) !! i = Some (CR k (CGet g r ws))) as Hi'.
          { destruct (run_stable _ _ _ _ _ (Hruns m) HP1) as [Hb'|?]; [|done]. exfalso. destruct (lb m) as [| | | | | | | | | | | | | |[]]; done. }
          destruct (IH (rank p')) with (n := S m) (p := p') as (m2&id&st&?&?&?); [lia|lia|done|done|done|done|]. exists m2, id, st. split; [lia|done].
      Qed.
      Lemma got_ws i k g r ws n id st : m_runs (σ n) !! i = Some (CR k (CGet g r ws)) → im_gets (m_cache (σ n)) !! r = Some (GDone g id st) → ∃ m, n ≤ m ∧ m_runs (σ (S m)) !! i = Some (CR k (CLoop ws)).
      Proof.
        intros Hi Hd. destruct (leads (λ s, m_runs s !! i = Some (CR k (CGet g r ws)) ∧ im_gets (m_cache s) !! r = Some (GDone g id st)) (ARun i) n) as (m3&Hm3&[HP3 HD3]&Hb3).
        - done.
        - intros m3 Hm3 [HP3 HD3]. eexists (MGot i g), _. split; [done|]. by eapply ms_got.
        - intros m3 Hm3 [HP3 HD3]. destruct (run_stable _ _ _ _ _ (Hruns m3) HP3) as [?|?]; [by left|right]. split; [done|]. by apply (done_stays m3).
        - exists m3. split; [done|]. pose proof (Hruns m3) as Hs. remember (σ (S m3)) as s' eqn:Es. destruct (lb m3) eqn:El; simpl in Hb3; try done; subst; inversion Hs; subst; simplify_eq. rewrite lookup_set_run, decide_True by done. by rewrite HP3.
      Qed.
      Lemma up_loop i k ws : ∀ n, N ≤ n → m_runs (σ n) !! i = Some (CR k (CLoop ws)) → ∃ m snap, n ≤ m ∧ lb m = MUp i ∧ m_runs (σ m) !! i = Some (CR k (CSync snap)).
      Proof.
        induction ws as [|g ws IH]; intros n Hn Hi.
        - destruct (leads (λ s, m_runs s !! i = Some (CR k (CLoop []))) (ARun i) n Hi) as (m&Hm&HP&Hb).
          + intros m Hm HP. eexists (MSync i _), _. split; [done|]. by eapply ms_sync.
          + intros m Hm HP. by apply (run_stable (σ m)).
          + assert (∃ snap, m_runs (σ (S m)) !! i = Some (CR k (CSync snap))) as [snap Hi'].
            { pose proof (Hruns m) as Hs. remember (σ (S m)) as s' eqn:Es. destruct (lb m) eqn:El; simpl in Hb; try done; subst; inversion Hs; subst; simplify_eq. eexists. rewrite lookup_set_run, decide_True by done. by rewrite HP. }
            destruct (up_sync i k snap (S m)) as (m'&?&?&?); [lia|done|]. exists m', snap. split; [lia|done].
        - destruct (leads (λ s, m_runs s !! i = Some (CR k (CLoop (g :: ws)))) (ARun i) n Hi) as (m&Hm&HP&Hb).
          + intros m Hm HP. eexists (MGet i g), _. split; [done|]. eapply ms_get; [done|apply im_get].
          + intros m Hm HP. by apply (run_stable (σ m)).
          + assert (∃ r, m_runs (σ (S m)) !! i = Some (CR k (CGet g r ws)) ∧ im_gets (m_cache (σ (S m))) !! r = Some (GLook g)) as (r&Hi'&Hr').
            { pose proof (Hruns m) as Hs. remember (σ (S m)) as s' eqn:Es. destruct (lb m) eqn:El; simpl in Hb; try done; subst; inversion Hs as [| | | | | | | | | | |? ? ? ? ? ? Hc| | | |]; subst; simplify_eq.
              eexists. rewrite lookup_set_run, decide_True by done. simpl. rewrite HP. split; [done|]. inversion Hc; subst. simpl. by rewrite list_lookup_middle. }
            destruct (call_done i k g r ws 3 (S m) (GLook g)) as (m2&id&st&Hm2&Hi2&Hd2); [lia|done|done|done|done|].
            destruct (got_ws i k g r ws m2 id st Hi2 Hd2) as (m3&Hm3&Hi4). destruct (IH (S m3)) as (m4&snap&?&?&?); [lia|done|]. exists m4, snap. split; [lia|done].
      Qed.
      Lemma up_get i k g r ws n p : N ≤ n → m_runs (σ n) !! i = Some (CR k (CGet g r ws)) → im_gets (m_cache (σ n)) !! r = Some p → asks_for g p →
        ∃ m snap, n ≤ m ∧ lb m = MUp i ∧ m_runs (σ m) !! i = Some (CR k (CSync snap)).
      Proof.
        intros Hn Hi Hp Ha. destruct (call_done i k g r ws (rank p) n p) as (m2&id&st&Hm2&Hi2&Hd2); [done..|].
        destruct (got_ws i k g r ws m2 id st Hi2 Hd2) as (m3&Hm3&Hi4). destruct (up_loop i k ws (S m3)) as (m4&snap&?&?&?); [lia|done|]. exists m4, snap. split; [lia|done].
      Qed.

      (** past the lock *)
      Lemma up_held i k ph n : N ≤ n → m_runs (σ n) !! i = Some (CR k ph) → ph ≠ CLock → ph ≠ CUp → ∃ m snap, n ≤ m ∧ lb m = MUp i ∧ m_runs (σ m) !! i = Some (CR k (CSync snap)).
      Proof.
        intros Hn Hi H1 H2. destruct ph as [|ws|g r ws|snap|]; try done.
        - by apply (up_loop i k ws).
        - pose proof (asked_reach _ _ (at_reach n)) as Hq. rewrite Forall_lookup in Hq. destruct (Hq _ _ Hi) as (p&Hp&Hask). by apply (up_get i k g r ws n p).
        - destruct (up_sync i k snap n Hn Hi) as (m&?&?&?). by exists m, snap.
      Qed.
      Lemma up_after i k m snap : lb m = MUp i → m_runs (σ m) !! i = Some (CR k (CSync snap)) → m_runs (σ (S m)) !! i = Some (CR k CUp) ∧ ctl_free k (σ (S m)).
      Proof.
        intros Hl Hi. assert (m_runs (σ (S m)) = <[i:=CR k CUp]> (m_runs (σ m))) as Heq.
        { pose proof (Hruns m) as Hs. rewrite Hl in Hs. remember (σ (S m)) as s' eqn:Es. inversion Hs; subst. by rewrite (set_run_insert i _ _ _ Hi). }
        split; [rewrite Heq; apply list_lookup_insert; by eapply lookup_lt_Some|].
        pose proof (one_holder _ _ k (at_reach m)) as Hone. pose proof (countb_insert (holds k) _ i _ (CR k CUp) Hi) as Hc. rewrite <-Heq in Hc.
        assert (holds k (CR k (CSync snap)) = true) as Ha by (unfold holds; simpl; by rewrite bool_decide_eq_true_2). assert (holds k (CR k (CUp (G:=G))) = false) as Hb by (unfold holds; simpl; by rewrite andb_false_r).
        rewrite Ha, Hb in Hc. unfold ctl_free. apply forallb_forall. intros x Hx%elem_of_list_In. assert (countb (holds k) (m_runs (σ (S m))) = 0) as H00 by lia. pose proof (proj1 (countb_zero _ _) H00 x Hx) as Hz. by rewrite Hz.
      Qed.
      Lemma free_dec k s : ctl_free k s ∨ ∃ j ph, m_runs s !! j = Some (CR k ph) ∧ ph ≠ CLock ∧ ph ≠ CUp.
      Proof.
        unfold ctl_free. destruct (forallb _ _) eqn:E; [by left|right]. apply not_true_iff_false in E.
        destruct (decide (Exists (λ x, holds k x = true) (m_runs s))) as [Hex|Hn].
        - apply Exists_exists in Hex as (x&Hx&Hh). apply elem_of_list_lookup in Hx as [j Hj]. destruct x as [k' ph]. unfold holds in Hh. simpl in Hh. apply andb_true_iff in Hh as [->%bool_decide_eq_true Hp]. exists j, ph. split; [done|]. by destruct ph.
        - destruct E. apply forallb_forall. intros x Hx%elem_of_list_In. apply not_Exists_Forall in Hn; [|apply _]. rewrite Forall_forall in Hn. specialize (Hn x Hx). destruct (holds k x) eqn:E2; [by destruct Hn|done].
      Qed.
      Lemma comes i k ph n : N ≤ n → m_runs (σ n) !! i = Some (CR k ph) → ∃ m, n ≤ m ∧ m_runs (σ m) !! i = Some (CR k CUp).
      Proof.
        intros Hn Hi.
        assert (Hheld : ∀ ph n, N ≤ n → m_runs (σ n) !! i = Some (CR k ph) → ph ≠ CLock → ∃ m, n ≤ m ∧ m_runs (σ m) !! i = Some (CR k CUp)).
        { clear ph n Hn Hi. intros ph n Hn Hi H1. assert (ph = CUp ∨ ph ≠ CUp) as [->|H2] by (destruct ph; auto); [by exists n|].
          destruct (up_held i k ph n) as (m&snap&Hm&Hl&Hs); [done..|]. exists (S m). split; [lia|]. by apply (up_after i k m snap). }
        assert (ph = CLock ∨ ph ≠ CLock) as [->|H1] by (destruct ph; auto); [|by apply (Hheld ph)].
        set (P := λ s : mgr G, m_runs s !! i = Some (CR k CLock)).
        assert (Hst : ∀ m, n ≤ m → P (σ m) → by_agent (ARun i) (lb m) ∨ P (σ (S m))) by (intros m _ HP; by apply (run_stable (σ m))).
        assert (Hmove : ∀ m, n ≤ m → P (σ m) → by_agent (ARun i) (lb m) → ∃ m, n ≤ m ∧ m_runs (σ m) !! i = Some (CR k CUp)).
        { intros m Hm HP Hb. assert (∃ ws, m_runs (σ (S m)) !! i = Some (CR k (CLoop ws))) as [ws Hi'].
          { unfold P in HP. pose proof (Hruns m) as Hs. remember (σ (S m)) as s' eqn:Es. destruct (lb m) eqn:El; simpl in Hb; try done; subst; inversion Hs; subst; simplify_eq. eexists. rewrite lookup_set_run, decide_True by done. by rewrite HP. }
          destruct (Hheld (CLoop ws) (S m)) as (m'&?&?); [lia|done|done|]. exists m'. split; [lia|done]. }
        assert (Hab : ∀ m, P (σ m) → ctl_free k (σ m) → able (ARun i) (σ m)).
        { intros m HP Hf. destruct (bounded_reach _ _ (at_reach m)) as [Hbd _]. destruct (lookup_lt_is_Some_2 (m_ctls (σ m)) k) as [ws Hws].
          { rewrite Forall_lookup in Hbd. by apply (Hbd i (CR k CLock)). }
          eexists (MCLock i), _. split; [done|]. by eapply ms_clock. }
        destruct (Hfair (ARun i) n) as [(m&Hm&Hb)|(m&Hm&Hna)]; (destruct (keeps P (ARun i) n (m - n) Hi Hst) as [(m'&Hm'&HP'&Hb')|HP]; [by apply (Hmove m')|]; replace (n + (m - n)) with m in HP by lia).
        - by apply (Hmove m).
        - exfalso. destruct (free_dec k (σ m)) as [Hf|(j&ph&Hj&Hj1&Hj2)]; [eapply (Hna m); [lia|]; by apply Hab|].
          destruct (up_held j k ph m) as (m2&snap&Hm2&Hl2&Hs2); [lia|done..|]. destruct (up_after j k m2 snap Hl2 Hs2) as [_ Hf].
          destruct (keeps P (ARun i) m (S m2 - m) HP) as [(m'&Hm'&HP'&Hb')|HP2]; [intros m' ?; apply Hst; lia| |].
          + eapply (Hna m'); [done|]. eexists _, _. split; [done|apply Hruns].
          + replace (m + (S m2 - m)) with (S m2) in HP2 by lia. eapply (Hna (S m2)); [lia|]. by apply Hab.
      Qed.
    End calm.

    (** the calls of start *)
    Lemma start_launches c p n n1 : no_start_from lb n1 → (∀ j c', lb j ≠ MCancel c') → m_starts (σ n) !! c = Some p → p = SLock ∨ (∃ snap, p = SWait snap) →
      ∃ k ks, n ≤ k ∧ (lb k = MLaunch c ks ∨ lb k = MRelaunch c ks).
    Proof.
      intros Hns Hnc Hc [->|[snap ->]]; [|destruct (will_launch c snap n n1) as (k&ks&?&?); [done|done|done|]; exists k, ks; auto].
      set (P := λ s : mgr G, m_starts s !! c = Some SLock).
      assert (Hst : ∀ j, n ≤ j → P (σ j) → by_agent (AStart c) (lb j) ∨ P (σ (S j))). { intros j _ HP. destruct (start_stable _ _ _ _ _ (Hruns j) HP) as [?|[?|?]]; [by left|by destruct (Hnc j c)|by right]. }
      assert (Hmove : ∀ j, n ≤ j → P (σ j) → by_agent (AStart c) (lb j) → ∃ k ks, n ≤ k ∧ (lb k = MLaunch c ks ∨ lb k = MRelaunch c ks)).
      { intros j Hj HP Hb. pose proof (Hruns j) as Hs. unfold P in HP. destruct (lb j) as [| | | |c0 sn|c0 ks|c0 ks| | | | | | | |] eqn:El; simpl in Hb; try done; subst c0.
        - destruct (will_launch c sn (S j) n1) as (k&ks&?&?); [done|intros; apply Hnc| |exists k, ks; split; [lia|auto]].
          inversion Hs as [| | | |c1 Hc1 Hho Hst1 E1 E2| | | | | | | | | | |]. simpl. apply list_lookup_insert. by eapply lookup_lt_Some.
        - exists j, ks. auto.
        - exists j, ks. auto. }
      assert (Hab : ∀ j, P (σ j) → m_holder (σ j) = None → able (AStart c) (σ j)).
      { intros j HP Hh. destruct (m_started (σ j)) eqn:E; [eexists (MRelaunch c _), _|eexists (MWait c _), _]; (split; [done|]); by constructor. }
      destruct (Hfair (AStart c) n) as [(m&Hm&Hb)|(m&Hm&Hna)]; (destruct (keeps P (AStart c) n (m - n) Hc Hst) as [(m'&Hm'&HP'&Hb')|HP]; [by apply (Hmove m')|]; replace (n + (m - n)) with m in HP by lia).
      - by apply (Hmove m).
      - exfalso. destruct (m_holder (σ m)) as [c'|] eqn:Eh; [|eapply (Hna m); [lia|]; by apply Hab].
        destruct (mok_reach _ _ (at_reach m)) as [Hh _ _ _]. apply Hh in Eh as [snap Hc'].
        destruct (will_launch c' snap m n1) as (k&ks&Hk&Hl); [done|intros; apply Hnc|done|].
        destruct (keeps P (AStart c) m (S k - m) HP) as [(m'&Hm'&HP'&Hb')|HP2]; [intros m' ?; apply Hst; lia| |].
        + eapply (Hna m'); [done|]. eexists _, _. split; [done|apply Hruns].
        + replace (m + (S k - m)) with (S k) in HP2 by lia. eapply (Hna (S k)); [lia|]. apply Hab; [done|].
          pose proof (Hruns k) as Hs. rewrite Hl in Hs. inversion Hs as [| | | | |c1 snap1 Hc1 Hsy E1 E2| | | | | | | | | |]. done.
    Qed.

    (** everything was made before the cache was started for the last time *)
    Lemma made_split g n m : n ≤ m → made g (trace lb n) → made g (trace lb m).
    Proof. intros Hle Hm. destruct (trace_split n m Hle) as [tr ->]. by apply made_app. Qed.
    Lemma all_calm n1 : lb n1 = MTask TCache → no_start_from lb (S n1) → (∀ n g, made g (trace lb n) → made g (trace lb n1)) →
      ∃ N, n1 ≤ N ∧ ∀ n, N ≤ n → ∀ g, is_Some (dget g (im_infs (m_cache (σ n)))) → synced g (im_infs (m_cache (σ n))) = true.
    Proof.
      intros Hl Hns Hm. pose proof (Hruns n1) as Hs. rewrite Hl in Hs.
      assert (imstep (m_cache (σ n1)) IStart (m_cache (σ (S n1)))) as Hc. { pose proof (step_cache _ _ _ Hs) as H. by apply reach_one_inv in H. }
      pose proof (started_allrun _ _ Hc) as Hall.
      destruct (syncs_all (dkeys (im_infs (m_cache (σ (S n1))))) (S n1) Hns) as (N&HN&Hsy).
      { intros g Hg. apply Hall. by apply elem_of_dkeys. }
      exists N. split; [lia|]. intros n Hn g Hg. specialize (Hsy n Hn). unfold all_synced in Hsy. rewrite forallb_forall in Hsy. apply Hsy, elem_of_list_In, elem_of_dkeys.
      apply (made_ids _ _ g (at_reach n)) in Hg. apply Hm in Hg. apply (made_ids _ _ g (at_reach (S n1))). by apply (made_split g n1 (S n1)); [lia|].
    Qed.
    Lemma inevitable n1 : lb n1 = MTask TCache → no_start_from lb (S n1) → (∀ n g, made g (trace lb n) → made g (trace lb n1)) → (∀ n k g, lb n = MWatch k g → made g (trace lb n1)) →
      ∀ i k ph n, m_runs (σ n) !! i = Some (CR k ph) → ∃ m, n ≤ m ∧ m_runs (σ m) !! i = Some (CR k CUp).
    Proof.
      intros Hl Hns Hm Hw i k ph n Hi. destruct (all_calm n1 Hl Hns Hm) as (N&HN&Hcalm).
      assert (Hknown : ∀ n g, N ≤ n → watched (trace lb n) g → is_Some (dget g (im_infs (m_cache (σ n))))).
      { intros n' g Hn' [k' Hin]. apply (made_ids _ _ g (at_reach n')). apply (made_split g n1 n'); [lia|]. unfold trace in Hin. apply elem_of_list_fmap in Hin as (j&Hj&_). by apply (Hw j k'). }
      assert (Hlater : ∀ d, ∃ ph', m_runs (σ (n + d)) !! i = Some (CR k ph')).
      { intros d. induction d as [|d [ph' IH]]; [rewrite Nat.add_0_r; by exists ph|]. rewrite Nat.add_succ_r. pose proof (Hruns (n + d)) as Hs. remember (σ (S (n + d))) as s' eqn:Es.
        destruct (run_stable _ _ _ _ _ Hs IH) as [Hb|?]; [|by exists ph'].
        destruct (lb (n + d)) eqn:El; simpl in Hb; try done; subst; inversion Hs; subst; simplify_eq; rewrite lookup_set_run, decide_True by done; simpl; rewrite IH; by eexists. }
      destruct (Hlater (N - n)) as [ph' Hi']. destruct (comes N Hcalm Hknown i k ph' (n + (N - n))) as (m&?&?); [lia|done|]. exists m. split; [lia|done].
    Qed.
    Lemma launched_begins n c ks k : lb n = MLaunch c ks ∨ lb n = MRelaunch c ks → k ∈ ks → ∃ m, n < m ∧ lb m = MTask (TRun k).
    Proof.
      intros Hln Hk.
      assert (TRun k ∈ m_ready (σ (S n))) as Hin. { pose proof (Hruns n) as Hs. remember (σ (S n)) as s' eqn:Es. destruct Hln as [Hln|Hln]; rewrite Hln in Hs; inversion Hs; subst; simpl; apply elem_of_app; right; by apply elem_of_list_fmap_1. }
      destruct (in_ready (S n) _ Hin) as (j&Hj&Hlj). by exists j.
    Qed.
    Lemma launched_up n1 : lb n1 = MTask TCache → no_start_from lb (S n1) → (∀ n g, made g (trace lb n) → made g (trace lb n1)) → (∀ n k g, lb n = MWatch k g → made g (trace lb n1)) →
      ∀ n c ks k, lb n = MLaunch c ks ∨ lb n = MRelaunch c ks → k ∈ ks → ∃ m i, n ≤ m ∧ length (m_runs (σ n)) ≤ i ∧ m_runs (σ m) !! i = Some (CR k CUp).
    Proof.
      intros Hl Hns Hm Hw n c ks k Hln Hk.
      destruct (launched_begins n c ks k Hln Hk) as (j&Hj&Hlj).
      assert (m_runs (σ (S j)) !! length (m_runs (σ j)) = Some (CR k CLock)) as Hi. { pose proof (Hruns j) as Hs. rewrite Hlj in Hs. remember (σ (S j)) as s' eqn:Es. inversion Hs; subst. simpl. by rewrite list_lookup_middle. }
      destruct (inevitable n1 Hl Hns Hm Hw _ _ _ _ Hi) as (m&?&?). exists m, (length (m_runs (σ j))). split; [lia|]. split; [|done].
      assert (∀ d, length (m_runs (σ n)) ≤ length (m_runs (σ (n + d)))) as Hlen.
      { intros d. induction d as [|d IH]; [by rewrite Nat.add_0_r|]. rewrite Nat.add_succ_r. etrans; [exact IH|]. pose proof (Hruns (n + d)) as Hs. remember (σ (S (n + d))) as s' eqn:Es. destruct Hs; simpl; rewrite ?app_length, ?alter_length; simpl; lia. }
      specialize (Hlen (j - n)). by replace (n + (j - n)) with j in Hlen by lia.
    Qed.
  End run.
End live.

(** a case: [built ++ up], then synced informers for ever *)
Lemma prefixed {G : Type} `{EqDecision G} (s0 : mgr G) tr s : reach mstep s0 tr s → ∀ σ' lb', σ' 0 = s → runs σ' lb' →
  ∃ σ lb, σ 0 = s0 ∧ runs σ lb ∧ trace lb (length tr) = tr ∧ ∀ n, σ (length tr + n) = σ' n ∧ lb (length tr + n) = lb' n.
Proof.
  intros Hr. induction Hr as [|tr s1 l s2 Hr IH Hs]; intros σ' lb' H0 Hru.
  - by exists σ', lb'.
  - destruct (IH (λ n, match n with 0 => s1 | S n => σ' n end) (λ n, match n with 0 => l | S n => lb' n end)) as (σ&lb&Hσ&Hσr&Ht&Hn); [done|intros [|n]; simpl; [by rewrite H0|apply Hru]|].
    exists σ, lb. split; [done|]. split; [done|]. rewrite app_length. simpl. split.
    + unfold trace in *. rewrite seq_app, fmap_app, Ht. simpl. destruct (Hn 0) as [_ Hl]. rewrite Nat.add_0_r in Hl. by rewrite Hl.
    + intros n. destruct (Hn (S n)) as [H1 H2]. by replace (length tr + 1 + n) with (length tr + S n) by lia.
Qed.
Lemma forever {G : Type} `{EqDecision G} (s0 : mgr G) tr s l : reach mstep s0 tr s → mstep s l s →
  ∃ σ lb, σ 0 = s0 ∧ runs σ lb ∧ trace lb (length tr) = tr ∧ ∀ n, length tr ≤ n → σ n = s ∧ lb n = l.
Proof.
  intros Hr Hl. destruct (prefixed s0 tr s Hr (λ _, s) (λ _, l)) as (σ&lb&?&?&?&Hn); [done|by intros n|]. exists σ, lb. split_and!; [done..|].
  intros n Hle. specialize (Hn (n - length tr)). by replace (length tr + (n - length tr)) with n in Hn by lia.
Qed.
#[local] Transparent dget dset.
Lemma up_able a : able a up_st → a = ASync 7.
Proof.
  intros (l&s'&Hb&Hs). unfold up_st in Hs.
  assert (Hg : ∀ (g : nat) x, dget g [(7, MInf 0 0 1 true)] = Some x → g = 7 ∧ x = MInf 0 0 1 true). { intros g x. simpl. case_decide; [|done]. by intros [= <-]. }
  assert (Hq : ∀ r p, [GDone 7 0 false; GDone 7 0 true] !! r = Some p → ∃ st, p = GDone 7 0 st). { intros [|[|r]] p; simpl; intros [= <-]; eauto. }
  destruct a as [r|g|g|i|c|]; destruct l as [| | | | | | | |t| | | | | |cl]; simpl in Hb; try done.
  - destruct cl; try done; inversion Hs as [| | | | | | | | | | | | | | |? ? Hc]; subst; inversion Hc; subst; cbn [im_infs m_cache im_gets] in *;
      match goal with H : _ !! _ = Some _ |- _ => apply Hq in H as [? ?]; done end.
  - destruct cl; try done; inversion Hs as [| | | | | | | | | | | | | | |? ? Hc]; subst; inversion Hc; subst; cbn [im_infs m_cache im_gets] in *.
    match goal with H : dget _ _ = Some _ |- _ => apply Hg in H as [-> ->] end. done.
  - destruct cl; try done; inversion Hs as [| | | | | | | | | | | | | | |? ? Hc]; subst; inversion Hc; subst; cbn [im_infs m_cache im_gets] in *.
    match goal with H : dget _ _ = Some _ |- _ => apply Hg in H as [-> ->] end. done.
  - inversion Hs; subst; simpl in *. destruct i as [|[]]; done.
  - inversion Hs; subst; simpl in *. destruct i as [|[]]; done.
  - inversion Hs; subst; simpl in *. destruct i as [|[]]; done.
  - inversion Hs; subst; simpl in *. destruct i as [|[]]; done.
  - inversion Hs; subst; simpl in *. destruct i as [|[]]; done.
  - inversion Hs; subst; simpl in *. destruct c as [|[]]; done.
  - inversion Hs; subst; simpl in *. destruct c as [|[]]; done.
  - inversion Hs; subst; simpl in *. destruct c as [|[]]; done.
  - inversion Hs; subst; simpl in *; done.
Qed.
Lemma live_case : ∃ (σ : nat → mgr nat) lb, σ 0 = m_init ∧ runs σ lb ∧ fair σ lb ∧ lb 7 = MTask TCache ∧ no_start_from lb 8 ∧ (∀ n g, made g (trace lb n) → made g (trace lb 7)) ∧
  (∀ n k g, lb n = MWatch k g → made g (trace lb 7)) ∧ (∀ n c, lb n ≠ MCancel c) ∧ lb 5 = MStart ∧ lb 10 = MLaunch 0 [0] ∧ m_runs (σ 12) !! 0 = Some (CR 0 CLock).
Proof.
  destruct (forever m_init (built ++ up) up_st (MCache (ISync 7)) built_case) as (σ&lb&H0&Hru&Ht&Hn).
  { refine (ms_env up_st (ISync 7) _ (im_sync _ 7 (MInf 0 0 1 true) _ _) _); done. }
  assert (Hlen : length (built ++ up) = 19) by done. rewrite Hlen in *.
  assert (Hlb : ∀ n, n < 19 → (built ++ up) !! n = Some (lb n)). { intros n Hlt. rewrite <-Ht. unfold trace. rewrite list_lookup_fmap, lookup_seq_lt by done. done. }
  assert (Hall : ∀ n, lb n ∈ built ++ up ∨ lb n = MCache (ISync 7)). { intros n. destruct (decide (n < 19)) as [Hlt|Hge]; [left; by eapply elem_of_list_lookup_2, Hlb|right; apply Hn; lia]. }
  assert (H7 : ∀ g, g = 7 → made g (trace lb 7)). { intros g ->. exists 0. unfold trace, cache_labels. apply elem_of_list_bind. exists (lb 3). split; [|apply elem_of_list_fmap_1, elem_of_seq; lia]. assert (lb 3 = MCache (IAdd 0 7 true)) as -> by (specialize (Hlb 3 ltac:(lia)); by injection Hlb). by left. }
  destruct built_hyps as (B1&B2&B3). exists σ, lb. split; [done|]. split; [done|]. split; [|split; [|split; [|split; [|split; [|split; [|split; [|split]]]]]]].
  - intros a n. assert (a = ASync 7 ∨ a ≠ ASync 7) as [->|Hne]. { destruct a as [r|g|g|i|c|]; try (by right). destruct (decide (g = 7)) as [->|]; [by left|right; by intros [=]]. }
    + left. exists (n `max` 19). split; [lia|]. destruct (Hn (n `max` 19)) as [_ ->]; [lia|done].
    + right. exists (n `max` 19). split; [lia|]. intros k Hk. destruct (Hn k) as [-> _]; [lia|]. by intros ?%up_able.
  - specialize (Hlb 7 ltac:(lia)). by injection Hlb.
  - intros m Hm. destruct (decide (m < 19)) as [Hlt|Hge]; [|destruct (Hn m) as [_ ->]; [lia|]; simpl; by intros [?|?%elem_of_nil]%elem_of_cons].
    specialize (Hlb m Hlt). do 8 (destruct m as [|m]; [lia|]). do 11 (destruct m as [|m]; [injection Hlb as <-; simpl; rewrite ?elem_of_cons, ?elem_of_nil; naive_solver|]). lia.
  - intros n g [r Hin]. apply H7. unfold cache_labels in Hin. apply elem_of_list_bind in Hin as (l&Hl&Hin). unfold trace in Hin. apply elem_of_list_fmap in Hin as (j&->&_).
    destruct (Hall j) as [Hj|Hj]; [|rewrite Hj in Hl; simpl in Hl; by apply elem_of_list_singleton in Hl]. apply B3. exists r. unfold cache_labels. apply elem_of_list_bind. by exists (lb j).
  - intros n k g Hw. apply H7. destruct (Hall n) as [Hj|Hj]; [|congruence]. rewrite Hw in Hj. by apply (B2 k).
  - intros n c Hc. destruct (Hall n) as [Hj|Hj]; [|congruence]. rewrite Hc in Hj. unfold built, up in Hj. simpl in Hj. repeat (apply elem_of_cons in Hj as [?|Hj]; [done|]). by apply elem_of_nil in Hj.
  - specialize (Hlb 5 ltac:(lia)). by injection Hlb.
  - specialize (Hlb 10 ltac:(lia)). by injection Hlb.
  - assert (lb 11 = MTask (TRun 0)) as Hl by (specialize (Hlb 11 ltac:(lia)); by injection Hlb). pose proof (Hru 11) as Hs. rewrite Hl in Hs.
    assert (length (m_runs (σ 11)) = 0) as Hlen0; [|remember (σ 12) as s' eqn:Es; inversion Hs; subst; simpl; apply nil_length_inv in Hlen0; by rewrite Hlen0].
    assert (∀ n, n ≤ 11 → m_runs (σ n) = []) as H; [|by rewrite H by lia]. intros n. induction n as [|n IH]; [by rewrite H0|]. intros Hle.
    specialize (IH ltac:(lia)). pose proof (Hru n) as Hs'. specialize (Hlb n ltac:(lia)). clear -IH Hs' Hlb Hle.
    do 11 (destruct n as [|n]; [injection Hlb as Hl; rewrite <-Hl in Hs'; match type of Hs' with mstep ?a _ ?b => remember a as s1 eqn:E1; remember b as s2 eqn:E2 end; inversion Hs'; subst s2; simpl; exact IH|]). lia.
Qed.
