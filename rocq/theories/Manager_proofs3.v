From Verif Require Import Base InformersMap_model InformersMap_spec InformersMap_proofs Manager_model Manager_spec Manager_proofs Manager_proofs2.

Section proofs.
  Context {G : Type} `{EqDecision G}.
  Implicit Types (tr ls : list (mlabel G)) (l : mlabel G) (g : G) (s : mgr G) (c i k r : nat) (m : imap G) (ws : list G).
  Notation mst := mstep.

  (** what the cache can do on its own *)
  Definition qc (cl : ilabel G) : Prop := match cl with IStart | ICancel _ | IAdd _ _ true => False | _ => True end.
  Definition keep m m' : Prop := (∀ g, runnable g m → runnable g m') ∧ (∀ g, is_Some (dget g (im_infs m')) ↔ is_Some (dget g (im_infs m))).
  Lemma keep_trans m1 m2 m3 : keep m1 m2 → keep m2 m3 → keep m1 m3.
  Proof. intros [H1 H2] [H3 H4]. split; [by eauto|]. intros g. by rewrite H4. Qed.
  Lemma keep_step m cl m' : imstep m cl m' → qc cl → keep m m'.
  Proof.
    intros Hs Hq. split; [intros g; by eapply runnable_step|]. intros g. pose proof (ids_step _ _ _ g Hs) as H. unfold ids in H.
    destruct (dget g (im_infs m)) as [x|] eqn:E1; simpl in H.
    - destruct H as [H _]. destruct (dget g (im_infs m')); [|done]. by split.
    - destruct H as [[H _]|[[r ->] _]]; [|done]. by destruct (dget g (im_infs m')).
  Qed.
  Lemma keep_reach m cls m' : reach imstep m cls m' → Forall qc cls → keep m m'.
  Proof.
    intros Hr. apply (reach_trace_inv imstep (λ cls m', Forall qc cls → keep m m') m cls m'); [|clear cls m' Hr|done].
    - intros _. split; [done|done].
    - intros cls m1 cl m2 _ IH Hs [H1 H2]%Forall_app. eapply keep_trans; [by apply IH|]. eapply keep_step; [done|]. by inversion H2.
  Qed.
  Lemma sync_kind m g : runnable g m → ∃ cls m', reach imstep m cls m' ∧ Forall qc cls ∧ im_gets m' = im_gets m ∧ synced g (im_infs m') = true ∧
    ∀ g', synced g' (im_infs m) = true → synced g' (im_infs m') = true.
  Proof.
    intros (i&Hi&Hor).
    assert (Hgo : ∀ m1 (i1 : minf), dget g (im_infs m1) = Some i1 → mi_runs i1 ≠ 0 → ∃ m', imstep m1 (ISync g) m' ∧ im_gets m' = im_gets m1 ∧ synced g (im_infs m') = true ∧
      ∀ g', g' ≠ g → synced g' (im_infs m') = synced g' (im_infs m1)).
    { intros m1 i1 H1 H2. eexists. split; [by eapply im_sync|]. unfold synced. simpl. rewrite dget_dset, decide_True by done. split; [done|]. split; [done|].
      intros g' Hne. by rewrite dget_dset, decide_False. }
    destruct (decide (mi_runs i = 0)) as [H0|H0].
    - destruct Hor as [Ht|]; [|done]. destruct (mi_todo i) as [|n] eqn:Et; [done|].
      pose proof (im_begin m g i n Hi Et) as Hb. match type of Hb with imstep _ _ ?m1 => destruct (Hgo m1 (MInf (mi_id i) n (S (mi_runs i)) false)) as (m'&Hs&Hg&Hsy&Hne) end.
      + simpl. by rewrite dget_dset, decide_True.
      + done.
      + eexists [_; _], m'. split; [eapply reach_cons; [exact Hb|]; by apply reach_one|]. split; [by repeat constructor|]. split; [done|]. split; [done|].
        intros g' Hg'. destruct (decide (g' = g)) as [->|]; [done|]. rewrite Hne by done. unfold synced in *. simpl. by rewrite dget_dset, decide_False.
    - destruct (Hgo m i Hi H0) as (m'&Hs&Hg&Hsy&Hne). exists [ISync g], m'. split; [by apply reach_one|]. split; [by repeat constructor|]. split; [done|]. split; [done|].
      intros g' Hg'. destruct (decide (g' = g)) as [->|]; [done|]. by rewrite Hne.
  Qed.
  Lemma sync_all snap m : (∀ g, g ∈ snap → runnable g m) → ∃ cls m', reach imstep m cls m' ∧ Forall qc cls ∧ im_gets m' = im_gets m ∧ all_synced snap m' = true ∧
    ∀ g', synced g' (im_infs m) = true → synced g' (im_infs m') = true.
  Proof.
    revert m. induction snap as [|g snap IH]; intros m Hrun.
    - exists [], m. split; [constructor|]. by split; [constructor|].
    - destruct (sync_kind m g) as (cls1&m1&Hr1&Hq1&Hg1&Hs1&Ho1); [apply Hrun; by left|].
      destruct (IH m1) as (cls2&m2&Hr2&Hq2&Hg2&Hs2&Ho2). { intros g' Hg'. apply (keep_reach _ _ _ Hr1 Hq1). apply Hrun. by right. }
      exists (cls1 ++ cls2), m2. split; [by eapply reach_app|]. split; [by apply Forall_app|]. split; [congruence|]. split.
      + simpl. rewrite Ho2 by done. done.
      + eauto.
  Qed.
  Lemma qc_reach1 m cl m' : imstep m cl m' → qc cl → reach imstep m [cl] m' ∧ Forall qc [cl].
  Proof. intros. split; [by apply reach_one|by repeat constructor]. Qed.
  Lemma drive_wait m g r id : im_gets m !! r = Some (GWait g id) → runnable g m → ∃ cls m', reach imstep m cls m' ∧ Forall qc cls ∧ ∃ id st, im_gets m' !! r = Some (GDone g id st).
  Proof.
    intros Hg Hrun. destruct (sync_kind m g Hrun) as (cls&m'&Hr&Hq&Hge&Hsy&_). eexists (cls ++ [IWake r]), _. split; [eapply reach_snoc; [done|]; eapply im_wake; [by rewrite Hge|done]|].
    split; [apply Forall_app; split; [done|by repeat constructor]|]. exists id, true. simpl. apply list_lookup_insert. rewrite Hge. by eapply lookup_lt_Some.
  Qed.
  Lemma drive_found m g r found st : im_gets m !! r = Some (GFound g found st) → runnable g m → ∃ cls m', reach imstep m cls m' ∧ Forall qc cls ∧ ∃ id st, im_gets m' !! r = Some (GDone g id st).
  Proof.
    intros Hg Hrun. destruct (find_or_add g found m) as [[[infs next] id] cr] eqn:E. pose proof (im_add m r g found st infs next id cr Hg E) as Hs.
    assert (cr = false) as ->. { unfold find_or_add in E. destruct Hrun as (x&Hx&_). rewrite Hx in E. destruct found; by injection E. }
    match type of Hs with imstep _ _ ?x => set (m1 := x) in * end.
    assert (Hl : im_gets m1 !! r = Some (after_find g id st infs)) by (apply list_lookup_insert; by eapply lookup_lt_Some). unfold after_find in Hl. destruct (_ && _) eqn:Ea.
    - destruct (drive_wait m1 g r id Hl) as (cls&m'&Hr&Hq&Hd); [by eapply runnable_step|]. exists (IAdd r g false :: cls), m'. split; [by eapply reach_cons|]. split; [by constructor|done].
    - exists [IAdd r g false], m1. split; [by apply reach_one|]. split; [by repeat constructor|]. eauto.
  Qed.
  Lemma drive_get m g r p : im_gets m !! r = Some p → asks_for g p → runnable g m → ∃ cls m', reach imstep m cls m' ∧ Forall qc cls ∧ ∃ id st, im_gets m' !! r = Some (GDone g id st).
  Proof.
    intros Hg Ha Hrun. destruct p as [g'|g' found st|g' id|g' id st|]; simpl in Ha; try done; subst g'.
    - pose proof (im_read m r g Hg) as Hs. match type of Hs with imstep _ _ ?x => set (m1 := x) in * end.
      destruct (drive_found m1 g r (mi_id <$> dget g (im_infs m)) (im_started m)) as (cls&m'&Hr&Hq&Hd); [apply list_lookup_insert; by eapply lookup_lt_Some|by eapply runnable_step|].
      exists (IRead r :: cls), m'. split; [by eapply reach_cons|]. split; [by constructor|done].
    - by eapply drive_found.
    - by eapply drive_wait.
    - exists [], m. split; [constructor|]. split; [constructor|]. eauto.
  Qed.
  Lemma lift_cache s cls m' : reach imstep (m_cache s) cls m' → Forall qc cls → reach mst s (MCache <$> cls) (with_cache m' s).
  Proof.
    intros Hr. apply (reach_trace_inv imstep (λ cls m', Forall qc cls → reach mst s (MCache <$> cls) (with_cache m' s)) (m_cache s) cls m'); [|clear cls m' Hr|done].
    - intros _. destruct s. constructor.
    - intros cls m1 cl m2 _ IH Hs [H1 H2]%Forall_app. rewrite fmap_app. eapply reach_snoc; [by apply IH|]. apply (ms_env (with_cache m1 s) cl m2); [done|]. intros r ->. by inversion H2.
  Qed.
  Lemma goes_on_cache cls : Forall qc cls → Forall (goes_on (G:=G)) (MCache <$> cls).
  Proof. intros Hq. apply Forall_fmap. eapply Forall_impl; [done|]. intros []; simpl; done. Qed.

  Lemma set_run_insert i p s x : m_runs s !! i = Some x → m_runs (set_run i p s) = <[i:=CR (c_ctl x) p]> (m_runs s).
  Proof.
    intros Hx. apply list_eq. intros j. rewrite lookup_set_run. destruct (decide (i = j)) as [->|].
    - rewrite list_lookup_insert by (by eapply lookup_lt_Some). by rewrite Hx.
    - by rewrite list_lookup_insert_ne.
  Qed.
  Definition goes i k (ph : cphase G) s s' ls : Prop :=
    reach mst s ls s' ∧ Forall goes_on ls ∧ m_runs s' = <[i:=CR k ph]> (m_runs s) ∧ m_ctls s' = m_ctls s ∧ keep (m_cache s) (m_cache s').
  Lemma goes_trans i k ph1 ph2 s1 s2 s3 ls1 ls2 : goes i k ph1 s1 s2 ls1 → goes i k ph2 s2 s3 ls2 → goes i k ph2 s1 s3 (ls1 ++ ls2).
  Proof.
    intros (H1&H2&H3&H4&H5) (K1&K2&K3&K4&K5). split; [by eapply reach_app|]. split; [by apply Forall_app|]. split; [by rewrite K3, H3, list_insert_insert|]. split; [congruence|].
    by eapply keep_trans.
  Qed.
  Lemma goes_lookup i k ph s s' ls x : m_runs s !! i = Some x → goes i k ph s s' ls → m_runs s' !! i = Some (CR k ph).
  Proof. intros Hx (_&_&->&_). apply list_lookup_insert. by eapply lookup_lt_Some. Qed.
  (** the cache moves, then the run does *)
  Lemma goes_step i k ph0 ph s cls m' l : m_runs s !! i = Some (CR k ph0) → reach imstep (m_cache s) cls m' → Forall qc cls → goes_on l →
    mst (with_cache m' s) l (set_run i ph (with_cache m' s)) → goes i k ph s (set_run i ph (with_cache m' s)) ((MCache <$> cls) ++ [l]).
  Proof.
    intros Hi Hr Hq Hl Hs. split; [eapply reach_snoc; [by apply lift_cache|done]|]. split; [apply Forall_app; split; [by apply goes_on_cache|by repeat constructor]|].
    split; [by rewrite (set_run_insert i ph (with_cache m' s) _ Hi)|]. split; [done|]. by eapply keep_reach.
  Qed.
  Definition allrun m : Prop := ∀ g, is_Some (dget g (im_infs m)) → runnable g m.
  Lemma allrun_keep m m' : allrun m → keep m m' → allrun m'.
  Proof. intros H [H1 H2] g Hg. apply H1, H, H2, Hg. Qed.
  Lemma fin_sync i k s snap : m_runs s !! i = Some (CR k (CSync snap)) → (∀ g, g ∈ snap → runnable g (m_cache s)) → ∃ ls s', goes i k CUp s s' ls.
  Proof.
    intros Hi Hrun. destruct (sync_all snap (m_cache s) Hrun) as (cls&m'&Hr&Hq&_&Hsy&_). eexists _, _. eapply (goes_step i k _ CUp s cls m' (MUp i)); [done..|]. by eapply ms_up.
  Qed.
  Lemma fin_loop i k ws : ∀ s, m_runs s !! i = Some (CR k (CLoop ws)) → allrun (m_cache s) → (∀ g, g ∈ ws → is_Some (dget g (im_infs (m_cache s)))) → ∃ ls s', goes i k CUp s s' ls.
  Proof.
    induction ws as [|g ws IH]; intros s Hi Ha Hk.
    - assert (goes i k (CSync (kinds (m_cache s))) s (set_run i (CSync (kinds (m_cache s))) s) [MSync i (kinds (m_cache s))]) as H1.
      { split; [apply reach_one; by eapply ms_sync|]. split; [by repeat constructor|]. split; [by rewrite (set_run_insert _ _ _ _ Hi)|]. split; [done|]. by split. }
      destruct (fin_sync i k (set_run i (CSync (kinds (m_cache s))) s) (kinds (m_cache s))) as (ls&s'&H2).
      + by eapply goes_lookup.
      + intros g Hg. simpl. apply Ha. by apply elem_of_dkeys.
      + eexists _, s'. by eapply goes_trans.
    - pose proof (im_get (m_cache s) g) as Hget. match type of Hget with imstep _ _ ?x => set (m1 := x) in * end.
      set (r := length (im_gets (m_cache s))). set (s1 := set_run i (CGet g r ws) (with_cache m1 s)).
      assert (goes i k (CGet g r ws) s s1 [MGet i g]) as H1.
      { split; [apply reach_one; by eapply ms_get|]. split; [by repeat constructor|]. split; [exact (set_run_insert i _ (with_cache m1 s) _ Hi)|]. split; [done|]. by eapply keep_step. }
      assert (Hi1 : m_runs s1 !! i = Some (CR k (CGet g r ws))) by (by eapply goes_lookup). pose proof H1 as (_&_&_&_&Hk1).
      destruct (drive_get (m_cache s1) g r (GLook g)) as (cls&m2&Hr2&Hq2&id&st&Hd).
      { subst r. simpl. by rewrite list_lookup_middle. }
      { done. }
      { apply Hk1, Ha, Hk. by left. }
      assert (goes i k (CLoop ws) s1 (set_run i (CLoop ws) (with_cache m2 s1)) ((MCache <$> cls) ++ [MGot i g])) as H2.
      { eapply (goes_step i k); [done..|]. eapply (ms_got (with_cache m2 s1)); [exact Hi1|exact Hd]. }
      pose proof H2 as (_&_&_&_&Hk2). destruct (IH (set_run i (CLoop ws) (with_cache m2 s1))) as (ls&s'&H3).
      + by eapply goes_lookup.
      + eapply allrun_keep; [done|]. by eapply keep_trans.
      + intros g' Hg'. apply Hk2, Hk1, Hk. by right.
      + eexists _, s'. eapply goes_trans; [exact H1|]. by eapply goes_trans.
  Qed.
  Lemma fin_get i k g r ws s p : m_runs s !! i = Some (CR k (CGet g r ws)) → im_gets (m_cache s) !! r = Some p → asks_for g p → allrun (m_cache s) →
    (∀ g', g' ∈ g :: ws → is_Some (dget g' (im_infs (m_cache s)))) → ∃ ls s', goes i k CUp s s' ls.
  Proof.
    intros Hi Hp Hask Ha Hk. destruct (drive_get (m_cache s) g r p) as (cls&m2&Hr2&Hq2&id&st&Hd); [done|done|apply Ha, Hk; by left|].
    assert (goes i k (CLoop ws) s (set_run i (CLoop ws) (with_cache m2 s)) ((MCache <$> cls) ++ [MGot i g])) as H2.
    { eapply (goes_step i k); [done..|]. by eapply (ms_got (with_cache m2 s)). }
    pose proof H2 as (_&_&_&_&Hk2). destruct (fin_loop i k ws (set_run i (CLoop ws) (with_cache m2 s))) as (ls&s'&H3).
    - by eapply goes_lookup.
    - by eapply allrun_keep.
    - intros g' Hg'. apply Hk2, Hk. by right.
    - eexists _, s'. by eapply goes_trans.
  Qed.

  (** what holds of the runs *)
  Definition wanted (ph : cphase G) : list G := match ph with CLoop ws => ws | CGet g _ ws => g :: ws | CSync snap => snap | _ => [] end.
  Lemma asks_step m cl m' g r p : imstep m cl m' → im_gets m !! r = Some p → asks_for g p → cl ≠ ICancel r → ∃ p', im_gets m' !! r = Some p' ∧ asks_for g p'.
  Proof.
    intros Hs Hp Ha Hn.
    assert (Hins : ∀ r' p', (r' = r → asks_for g p') → ∃ p'', <[r':=p']> (im_gets m) !! r = Some p'' ∧ asks_for g p'').
    { intros r' p' H. destruct (decide (r' = r)) as [->|]; [exists p'; split; [apply list_lookup_insert; by eapply lookup_lt_Some|by apply H]|]. exists p. by rewrite list_lookup_insert_ne. }
    destruct Hs as [g'|r' g' Hr'|r' g' found st infs next id c Hr' Hfa|r' g' id Hr' Hsy|r' p' Hr' Hp'| |g' i n Hi Ht|g' i Hi Hn']; simpl; try (by exists p); try apply Hins; intros; subst.
    - exists p. split; [by apply lookup_app_l_Some|done].
    - rewrite Hp in Hr'. by injection Hr' as ->.
    - rewrite Hp in Hr'. injection Hr' as ->. unfold after_find. by destruct (_ && _).
    - rewrite Hp in Hr'. by injection Hr' as ->.
    - done.
  Qed.
  Definition bounded (n : nat) s : Prop :=
    Forall (λ x, c_ctl x < n) (m_runs s) ∧ Forall (λ t, match t with TRun k => k < n | TCache => True end) (m_ready s) ∧ Forall (λ k, k < n) (m_runnables s).
  Lemma forall_alter {X} (P : X → Prop) f (xs : list X) i : Forall P xs → (∀ x, P x → P (f x)) → Forall P (alter f i xs).
  Proof. intros Hl Hf. apply Forall_alter; [done|]. intros x _ ?. by apply Hf. Qed.
  Lemma bounded_mono n n' s : n ≤ n' → bounded n s → bounded n' s.
  Proof. intros Hle (H1&H2&H3). split; [|split]; (eapply Forall_impl; [done|]); simpl; try lia. intros []; [done|lia]. Qed.
  Lemma bounded_reach tr s : reach mst m_init tr s → bounded (length (m_ctls s)) s.
  Proof.
    intros Hr. apply (reach_inv mst (λ s, bounded (length (m_ctls s)) s) m_init tr s); [|by repeat split; constructor|done].
    clear tr s Hr. intros s l s' HI Hs.
    assert (Hl : length (m_ctls s) ≤ length (m_ctls s')). { destruct Hs; simpl; rewrite ?app_length, ?insert_length; simpl; lia. }
    apply (bounded_mono _ _ _ Hl) in HI. destruct HI as (H1&H2&H3). revert H1 H2 H3 Hl. generalize (length (m_ctls s)) as n0. intros n0 H1 H2 H3 Hl.
    destruct Hs as [|k Hk|k g ws Hk Hf| |c Hc1 Hho Hst|c snap Hc1 Hsy|c Hc1 Hho Hst|c p Hc1 Hp|ready' c' Hre Hc|k' ready' Hre|i' k' ws' Hi|i' k' g' ws' c' Hi Hc|i' k' g' r' ws' id st Hi Hd|i' k' Hi|i' k' snap Hi|];
      unfold bounded; cbn [m_runs m_cache m_ctls m_ready m_runnables set_run with_cache] in *; try done; rewrite ?Hre in *.
    - split; [done|]. split; [done|]. apply Forall_app. split; [done|]. repeat constructor. rewrite app_length. simpl. lia.
    - split; [done|]. split; [done|]. apply Forall_app. split; [done|]. by repeat constructor.
    - split; [done|]. split; [|done]. apply Forall_app. split; [done|]. by repeat constructor.
    - split; [done|]. split; [|done]. apply Forall_app. split; [done|]. by apply Forall_fmap.
    - split; [done|]. split; [|done]. apply Forall_app. split; [done|]. by apply Forall_fmap.
    - split; [done|]. split; [|done]. by inversion H2.
    - inversion H2; subst. split; [|done]. apply Forall_app. split; [done|]. by repeat constructor.
    - split; [|done]. by apply forall_alter.
    - split; [|done]. by apply forall_alter.
    - split; [|done]. by apply forall_alter.
    - split; [|done]. by apply forall_alter.
    - split; [|done]. by apply forall_alter.
  Qed.

  Definition asked (m : imap G) (x : crun G) : Prop := match c_phase x with CGet g r _ => ∃ p, im_gets m !! r = Some p ∧ asks_for g p | _ => True end.
  Lemma asked_reach tr s : reach mst m_init tr s → Forall (asked (m_cache s)) (m_runs s).
  Proof.
    intros Hr. apply (reach_inv mst (λ s, Forall (asked (m_cache s)) (m_runs s)) m_init tr s); [|constructor|done].
    clear tr s Hr. intros s l s' HI Hs.
    assert (Hreq : Forall (asked (m_cache s')) (m_runs s)).
    { apply Forall_lookup. intros i [k ph] Hi. rewrite Forall_lookup in HI. specialize (HI _ _ Hi). unfold asked in *. simpl in *. destruct ph as [| |g r ws| |]; try done.
      destruct HI as (p&Hp&Ha). pose proof (step_cache _ _ _ Hs) as Hc. destruct (in_cache l) as [|cl [|]] eqn:E.
      - inversion Hc; subst; [eauto|]. by destruct ls.
      - apply reach_one_inv in Hc. eapply asks_step; [done..|]. intros ->. assert (l = MCache (ICancel r)) as ->. { destruct l as [| | | | | | | |[]| | | | | |]; simpl in E; congruence. }
        inversion Hs as [| | | | | | | | | | | | | | |? ? ? Ho]; subst. specialize (Ho r eq_refl). unfold owned in Ho.
        assert (existsb (λ x : crun G, match c_phase x with CGet _ r' _ => bool_decide (r' = r) | _ => false end) (m_runs s) = true) as Ht; [|congruence].
        apply existsb_exists. eexists. split; [apply elem_of_list_In; by eapply elem_of_list_lookup_2|]. simpl. by apply bool_decide_eq_true_2.
      - exfalso. by destruct l as [| | | | | | | |[]| | | | | |]. }
    clear HI.
    destruct Hs as [|k Hk|k g ws Hk Hf| |c Hc1 Hho Hst|c snap Hc1 Hsy|c Hc1 Hho Hst|c p Hc1 Hp|ready' c' Hre Hc|k' ready' Hre|i' k' ws' Hi|i' k' g' ws' c' Hi Hc|i' k' g' r' ws' id st Hi Hd|i' k' Hi|i' k' snap Hi|];
      cbn [m_runs m_cache m_ctls m_ready m_runnables set_run with_cache] in *; try done.
    - apply Forall_app. split; [done|]. by repeat constructor.
    - by apply forall_alter.
    - apply forall_alter; [done|]. intros x _. unfold asked. simpl. inversion Hc; subst. simpl. exists (GLook g'). split; [by rewrite list_lookup_middle|done].
    - by apply forall_alter.
    - by apply forall_alter.
    - by apply forall_alter.
  Qed.

  (** every kind wanted by a run was watched by its controller, or known to the cache *)
  Definition watched tr g : Prop := ∃ k, MWatch k g ∈ tr.
  Definition wantok tr s : Prop :=
    (∀ ws g, ws ∈ m_ctls s → g ∈ ws → watched tr g) ∧ (∀ x g, x ∈ m_runs s → g ∈ wanted (c_phase x) → watched tr g ∨ made g tr).
  Lemma elem_alter {X} f (xs : list X) i x : x ∈ alter f i xs → x ∈ xs ∨ ∃ y, xs !! i = Some y ∧ x = f y.
  Proof.
    intros [j Hj]%elem_of_list_lookup. destruct (decide (i = j)) as [->|].
    - rewrite list_lookup_alter in Hj. destruct (xs !! j) eqn:E; [|done]. injection Hj as <-. eauto.
    - rewrite list_lookup_alter_ne in Hj by done. left. by eapply elem_of_list_lookup_2.
  Qed.
  Lemma made_app g tr tr' : made g tr → made g (tr ++ tr').
  Proof. intros [r Hr]. exists r. rewrite cache_labels_app. apply elem_of_app. by left. Qed.
  Lemma wantok_reach tr s : reach mst m_init tr s → wantok tr s.
  Proof.
    intros Hr. apply (reach_trace_inv mst wantok m_init tr s); [split; simpl; intros ? ? H%elem_of_nil; done|clear tr s Hr|done].
    intros tr s l s' Hr [H1 H2] Hs.
    assert (Hw : ∀ g, watched tr g → watched (tr ++ [l]) g) by (intros g [k Hk]; exists k; apply elem_of_app; by left).
    assert (H1' : ∀ ws g, ws ∈ m_ctls s → g ∈ ws → watched (tr ++ [l]) g) by eauto.
    assert (H2' : ∀ x g, x ∈ m_runs s → g ∈ wanted (c_phase x) → watched (tr ++ [l]) g ∨ made g (tr ++ [l])). { intros x g Hx Hg. destruct (H2 _ _ Hx Hg); [left; eauto|right; by apply made_app]. }
    assert (H3' : ∀ g, g ∈ kinds (m_cache s) → made g (tr ++ [l])). { intros g Hg. apply made_app. apply (made_ids tr s g Hr). by apply elem_of_dkeys. }
    clear H1 H2. split.
    - intros ws g Hws Hg. destruct Hs; simpl in *; try (by eapply H1').
      + apply elem_of_app in Hws as [?| ->%elem_of_list_singleton]; [by eapply H1'|by apply elem_of_nil in Hg].
      + apply elem_of_list_lookup in Hws as [j Hj]. apply list_lookup_insert_Some in Hj as [(->&<-&_)|[_ Hj]]; [|eapply H1'; [by eapply elem_of_list_lookup_2|done]].
        apply elem_of_app in Hg as [Hg| ->%elem_of_list_singleton]; [eapply H1'; [by eapply elem_of_list_lookup_2|done]|]. exists j. apply elem_of_app. right. by left.
    - intros x g Hx Hg.
      destruct Hs as [|k Hk|k g0 ws Hk Hf| |c Hc1 Hho Hst|c snap Hc1 Hsy|c Hc1 Hho Hst|c p Hc1 Hp|ready' c' Hre Hc|k' ready' Hre|i' k' ws' Hi Hws Hf|i' k' g' ws' c' Hi Hc|i' k' g' r' ws' id st Hi Hd|i' k' Hi|i' k' snap Hi|];
        cbn [m_runs m_cache m_ctls m_ready m_runnables set_run with_cache] in *; try (by eapply H2').
      + apply elem_of_app in Hx as [?| ->%elem_of_list_singleton]; [by eapply H2'|by apply elem_of_nil in Hg].
      + apply elem_alter in Hx as [?|(y&Hy&->)]; [by eapply H2'|]. left. eapply H1'; [by eapply elem_of_list_lookup_2|done].
      + apply elem_alter in Hx as [?|(y&Hy&->)]; [by eapply H2'|]. apply (H2' (CR k' (CLoop (g' :: ws')))); [by eapply elem_of_list_lookup_2|done].
      + apply elem_alter in Hx as [?|(y&Hy&->)]; [by eapply H2'|]. apply (H2' (CR k' (CGet g' r' ws'))); [by eapply elem_of_list_lookup_2|]. simpl. by right.
      + apply elem_alter in Hx as [?|(y&Hy&->)]; [by eapply H2'|]. right. by apply H3'.
      + apply elem_alter in Hx as [?|(y&Hy&->)]; [by eapply H2'|]. by apply elem_of_nil in Hg.
  Qed.

  (** all informers were made before a start of the cache, and every watched kind has one *)
  Lemma early_allrun tr1 tr2 s : reach mst m_init (tr1 ++ MTask TCache :: tr2) s → (∀ g, made g (tr1 ++ MTask TCache :: tr2) → made g tr1) → allrun (m_cache s).
  Proof.
    intros Hr Hm g Hg. apply (made_ids _ _ g Hr) in Hg. apply Hm in Hg as [r Hin]. pose proof (reach_cache _ _ _ Hr) as Hrc. rewrite cache_labels_app in Hrc.
    by eapply (known_runnable (cache_labels tr1) (cache_labels tr2)).
  Qed.
  Lemma fin_any tr s i k ph : reach mst m_init tr s → allrun (m_cache s) → (∀ g, watched tr g → made g tr) → m_runs s !! i = Some (CR k ph) → ph ≠ CLock → ph ≠ CUp → ∃ ls s', goes i k CUp s s' ls.
  Proof.
    intros Hr Ha Hw Hi H1 H2. destruct (wantok_reach _ _ Hr) as [_ Hwant]. specialize (Hwant (CR k ph)). simpl in Hwant.
    assert (Hk : ∀ g, g ∈ wanted ph → is_Some (dget g (im_infs (m_cache s)))). { intros g Hg. apply (made_ids _ _ g Hr). destruct (Hwant g); [by eapply elem_of_list_lookup_2|done|by apply Hw|done]. }
    destruct ph as [|ws|g r ws|snap|]; try done; simpl in Hk.
    - by apply (fin_loop i k ws).
    - pose proof (asked_reach _ _ Hr) as Hq. rewrite Forall_lookup in Hq. destruct (Hq _ _ Hi) as (p&Hp&Hask). by eapply fin_get.
    - apply (fin_sync i k s snap); [done|]. intros g Hg. apply Ha. by apply Hk.
  Qed.
End proofs.
