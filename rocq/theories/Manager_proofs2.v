From Verif Require Import Base InformersMap_model InformersMap_spec InformersMap_proofs Manager_model Manager_spec Manager_proofs.

Section proofs.
  Context {G : Type} `{EqDecision G}.
  Implicit Types (tr ls : list (mlabel G)) (l : mlabel G) (g : G) (s : mgr G) (c i k r : nat) (m : imap G) (ws : list G).
  Notation mst := mstep.

  (** runnables begin after the cache's start did *)
  Definition fifo (tr : list (mlabel G)) s : Prop :=
    MTask TCache ∈ tr ∨ (∃ ready, m_ready s = TCache :: ready ∧ m_runs s = []) ∨
    (m_ready s = [] ∧ m_runs s = [] ∧ m_started s = false ∧ ∀ c snap, m_starts s !! c ≠ Some (SWait snap)).
  Lemma fifo_reach tr s : reach mst m_init tr s → fifo tr s.
  Proof.
    intros Hr. apply (reach_trace_inv mst fifo m_init tr s); [by right; right|clear tr s Hr|done].
    intros tr s l s' Hr IH Hs. unfold fifo in *. rewrite elem_of_app.
    destruct IH as [IH|[(ready&IH1&IH2)|(IH1&IH2&IH3&IH4)]]; [by left; left| |].
    - destruct Hs as [| | | |c Hc1 Hho Hst|c snap Hc1 Hsy|c Hc1 Hho Hst|c p Hc1 Hp|ready' c' Hre Hc|k ready' Hre|i k ws Hi|i k g ws c' Hi|i k g r ws id st Hi|i k Hi|i k snap Hi|];
        simpl; try (right; left; rewrite IH1; eauto; done); try (by rewrite IH2 in Hi); try congruence.
      left. right. by left.
    - destruct Hs as [| | | |c Hc1 Hho Hst|c snap Hc1 Hsy|c Hc1 Hho Hst|c p Hc1 Hp|ready' c' Hre Hc|k ready' Hre|i k ws Hi|i k g ws c' Hi|i k g r ws id st Hi|i k Hi|i k snap Hi|];
        simpl; try (right; right; done); try (by rewrite IH2 in Hi); try congruence.
      + right; right. repeat split; try done. intros c snap [H|[_ H]]%lookup_app_Some; [by eapply IH4|]. by apply list_lookup_singleton_Some in H as [_ ?].
      + right; left. rewrite IH1, IH2. by eexists.
      + by destruct (IH4 c snap).
      + right; right. repeat split; try done. intros c' snap [(->&?&_)|[Hne Hl]]%list_lookup_insert_Some; [done|]. by eapply IH4.
  Qed.
  Lemma runs_after_cache tr s k s' : reach mst m_init tr s → mst s (MTask (TRun k)) s' → MTask TCache ∈ tr.
  Proof.
    intros Hr Hs. inversion Hs; subst. destruct (fifo_reach _ _ Hr) as [?|[(ready'&?&_)|(?&_)]]; [done|congruence..].
  Qed.

  Lemma cache_labels_app tr tr' : cache_labels (tr ++ tr') = cache_labels tr ++ cache_labels tr'.
  Proof. apply bind_app. Qed.
  Lemma elem_cache_labels (cl : ilabel G) tr : cl ∈ cache_labels tr ↔ ∃ l, l ∈ tr ∧ cl ∈ in_cache l.
  Proof. unfold cache_labels. rewrite elem_of_list_bind. naive_solver. Qed.
  Lemma made_ids tr s g : reach mst m_init tr s → made g tr ↔ is_Some (dget g (im_infs (m_cache s))).
  Proof.
    intros Hr%reach_cache. unfold made. revert Hr. generalize (cache_labels tr). generalize (m_cache s). clear tr s. intros m tr Hr. simpl in Hr.
    enough ((∃ r, IAdd r g true ∈ tr) ↔ is_Some (ids m g)) as -> by (unfold ids; by rewrite fmap_is_Some).
    apply (reach_trace_inv imstep (λ (tr : list (ilabel G)) m, (∃ r, IAdd r g true ∈ tr) ↔ is_Some (ids m g)) im_init tr m); [|clear m tr Hr|done].
    { split; [by intros [? ?%elem_of_nil]|by intros [? ?]]. }
    intros tr m l m' _ IH Hs. pose proof (ids_step _ _ _ g Hs) as H. destruct (ids m g) as [id|].
    - destruct H as [-> _]. split; [done|]. intros _. destruct IH as [_ [r Hin]]; [done|]. exists r. apply elem_of_app. by left.
    - destruct H as [[-> H]|[[r ->] ->]].
      + rewrite <- IH. split; intros [r Hin]; exists r; [|apply elem_of_app; by left]. apply elem_of_app in Hin as [?|?%elem_of_list_singleton]; [done|]. by destruct (H r).
      + split; [done|]. intros _. exists r. apply elem_of_app. right. by left.
  Qed.

  (** C75: a controller whose kind has no informer when the cache has started *)
  Definition stuck g i k ws s : Prop :=
    im_started (m_cache s) = true ∧ unrun g (m_cache s) ∧ (∀ r id, ¬ returned r g id true (m_cache s)) ∧
    (m_runs s !! i = Some (CR k (CLoop (g :: ws))) ∨ ∃ r, m_runs s !! i = Some (CR k (CGet g r ws)) ∧ late g (im_gets (m_cache s) !! r)).
  Lemma stuck_cache g i k ws s l s' : mst s l s' → IStart ∉ in_cache l → im_started (m_cache s) = true → unrun g (m_cache s) → (∀ r id, ¬ returned r g id true (m_cache s)) →
    im_started (m_cache s') = true ∧ unrun g (m_cache s') ∧ (∀ r id, ¬ returned r g id true (m_cache s')) ∧
    ∀ r, late g (im_gets (m_cache s) !! r) → late g (im_gets (m_cache s') !! r).
  Proof.
    intros Hs%step_cache Hni H1 H2 H3. destruct (in_cache l) as [|cl [|]] eqn:E.
    - inversion Hs; subst; [done|]. by destruct ls.
    - apply reach_one_inv in Hs. assert (cl ≠ IStart) by (intros ->; apply Hni; by left).
      assert (im_started (m_cache s') = true) by (by destruct Hs). split; [done|]. split; [by eapply unrun_step|]. split; [by eapply never_done_step|].
      intros r Hl. by eapply late_step.
    - exfalso. by destruct l as [| | | | | | | |[]| | | | | |].
  Qed.
  Lemma lookup_set_run i j p s : m_runs (set_run i p s) !! j = if decide (i = j) then (λ x : crun G, CR (c_ctl x) p) <$> m_runs s !! j else m_runs s !! j.
  Proof. simpl. destruct (decide (i = j)) as [->|]; [by rewrite list_lookup_alter|by rewrite list_lookup_alter_ne]. Qed.
  Lemma stuck_step g i k ws s l s' : mst s l s' → IStart ∉ in_cache l → stuck g i k ws s → stuck g i k ws s'.
  Proof.
    intros Hs Hni (H1&H2&H3&H4). destruct (stuck_cache g i k ws _ _ _ Hs Hni H1 H2 H3) as (H1'&H2'&H3'&H4'). split; [done|]. split; [done|]. split; [done|]. clear H1' H2' H3' Hni.
    assert (Hsame : m_runs s' !! i = m_runs s !! i → m_runs s' !! i = Some (CR k (CLoop (g :: ws))) ∨ (∃ r, m_runs s' !! i = Some (CR k (CGet g r ws)) ∧ late g (im_gets (m_cache s') !! r))).
    { intros ->. destruct H4 as [?|(r&?&?)]; [by left|right]. eauto. }
    destruct Hs as [| | | |c Hc1 Hho Hst|c snap Hc1 Hsy|c Hc1 Hho Hst|c p Hc1 Hp|ready' c' Hre Hc|k' ready' Hre|i' k' ws' Hi|i' k' g' ws' c' Hi Hc|i' k' g' r' ws' id st Hi Hd|i' k' Hi|i' k' snap Hi|]; try (by apply Hsame).
    - apply Hsame. simpl. apply lookup_app_l. destruct H4 as [?|(?&?&_)]; by eapply lookup_lt_Some.
    - rewrite lookup_set_run in *. destruct (decide (i' = i)) as [->|]; [|by apply Hsame]. destruct H4 as [H4|(r&H4&_)]; congruence.
    - rewrite lookup_set_run in *. destruct (decide (i' = i)) as [->|]; [|by apply Hsame]. right. destruct H4 as [H4|(r&H4&_)]; [|congruence].
      rewrite Hi in H4. injection H4 as -> -> ->. simpl. rewrite Hi. eexists. split; [done|]. inversion Hc; subst. simpl. by rewrite list_lookup_middle.
    - rewrite lookup_set_run in *. destruct (decide (i' = i)) as [->|]; [|by apply Hsame]. exfalso. destruct H4 as [H4|(r&H4&Hl)]; [congruence|].
      rewrite Hi in H4. injection H4 as -> -> -> ->. rewrite Hd in Hl. destruct st; [|done]. by apply (H3 r id).
    - rewrite lookup_set_run in *. destruct (decide (i' = i)) as [->|]; [|by apply Hsame]. destruct H4 as [H4|(r&H4&_)]; congruence.
    - rewrite lookup_set_run in *. destruct (decide (i' = i)) as [->|]; [|by apply Hsame]. destruct H4 as [H4|(r&H4&_)]; congruence.
  Qed.
  Lemma unbuilt_hangs tr s i k g ws : reach mst m_init tr s → ¬ made g tr → m_runs s !! i = Some (CR k (CLoop (g :: ws))) →
    ∀ ls s', reach mst s ls s' → IStart ∉ cache_labels ls → MGot i g ∉ ls ∧ MUp i ∉ ls.
  Proof.
    intros Hr Hm Hi ls s' Hr'.
    assert (Hst : stuck g i k ws s).
    { assert (Hg : dget g (im_infs (m_cache s)) = None). { destruct (dget g _) eqn:E; [|done]. destruct Hm. apply (made_ids tr s g Hr). by rewrite E. }
      pose proof (reach_cache _ _ _ Hr) as Hrc. simpl in Hrc. split; [|split; [|split]].
      - apply (started_iff _ _ g Hrc). apply elem_cache_labels. destruct (fifo_reach _ _ Hr) as [?|[(?&_&Hn)|(_&Hn&_)]]; [|by rewrite Hn in Hi..].
        eexists. split; [done|]. by left.
      - unfold unrun. by rewrite Hg.
      - by apply (late_never_returns _ _ _ Hrc Hg).
      - by left. }
    enough (IStart ∉ cache_labels ls → stuck g i k ws s' ∧ MGot i g ∉ ls ∧ MUp i ∉ ls) as H by (intros Hn; destruct (H Hn); done).
    apply (reach_trace_inv mst (λ ls s', IStart ∉ cache_labels ls → stuck g i k ws s' ∧ MGot i g ∉ ls ∧ MUp i ∉ ls) s ls s'); [intros _; split; [done|]; split; apply not_elem_of_nil|clear ls s' Hr'|done].
    intros ls s1 l s2 _ IH Hs Hn. rewrite cache_labels_app in Hn. apply not_elem_of_app in Hn as [Hn1 Hn2]. destruct (IH Hn1) as (IH1&IH2&IH3).
    assert (Hn3 : IStart ∉ in_cache l) by (unfold cache_labels in Hn2; simpl in Hn2; by rewrite app_nil_r in Hn2).
    split; [by eapply stuck_step|]. destruct IH1 as (H1&_&Hnr&H4). rewrite !not_elem_of_app, !elem_of_list_singleton. split; (split; [done|]); intros <-; inversion Hs as [| | | | | | | | | | | |? ? ? r ? id st Hi' Hd| |? ? ? Hi'|]; subst.
    - destruct H4 as [H4|(r'&H4&Hl)]; [congruence|]. rewrite Hi' in H4. injection H4 as -> -> ->. rewrite Hd in Hl. destruct st; [|done]. by apply (Hnr r' id).
    - destruct H4 as [H4|(r'&H4&Hl)]; congruence.
  Qed.
End proofs.
