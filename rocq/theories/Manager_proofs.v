From Verif Require Import Base InformersMap_model InformersMap_spec InformersMap_proofs Manager_model Manager_spec.

Section proofs.
  Context {G : Type} `{EqDecision G}.
  Implicit Types (tr ls : list (mlabel G)) (l : mlabel G) (g : G) (s : mgr G) (c i k r : nat) (m : imap G).
  Notation mst := mstep.

  Lemma step_cache s l s' : mst s l s' → reach imstep (m_cache s) (in_cache l) (m_cache s').
  Proof. intros Hs. destruct Hs as [| | | | | | | |ready c' Hre Hc| | |i k g ws c' Hi Hc| | | |l c' Hc Ho]; simpl; try constructor; by apply reach_one. Qed.
  Lemma reach_cache s ls s' : reach mst s ls s' → reach imstep (m_cache s) (cache_labels ls) (m_cache s').
  Proof.
    intros Hr. apply (reach_trace_inv mst (λ ls s', reach imstep (m_cache s) (cache_labels ls) (m_cache s')) s ls s'); [constructor| |done].
    intros tr1 s1 l s2 _ IH Hs. unfold cache_labels in *. rewrite bind_app. simpl. rewrite app_nil_r. eapply reach_app; [done|]. by apply step_cache.
  Qed.

  (** C71 *)
  Lemma added_app n tr tr' : added n (tr ++ tr') = added n tr ++ added (n + countb (λ l, match l with MNew => true | _ => false end) tr) tr'.
  Proof.
    revert n. induction tr as [|l tr IH]; intros n; simpl; [by rewrite Nat.add_0_r|]. rewrite countb_cons.
    destruct l; simpl; rewrite ?IH; try done; f_equal; f_equal; f_equal; lia.
  Qed.
  Lemma runnables_added tr s : reach mst m_init tr s → m_runnables s = added 0 tr ∧ length (m_ctls s) = countb (λ l, match l with MNew => true | _ => false end) tr.
  Proof.
    intros Hr. apply (reach_trace_inv mst (λ tr s, m_runnables s = added 0 tr ∧ length (m_ctls s) = countb (λ l, match l with MNew => true | _ => false end) tr) m_init tr s); [done| |done].
    intros tr1 s1 l s2 _ [IH1 IH2] Hs. rewrite added_app, countb_app, countb_cons, countb_nil. simpl.
    destruct Hs; simpl; rewrite ?app_nil_r, ?app_length, ?insert_length; simpl; rewrite ?IH1, ?IH2; split; done || lia.
  Qed.

  (** who holds the lock, and what was done so far *)
  Record mok (tr : list (mlabel G)) s : Prop := {
    mk_holder (c : nat) : m_holder s = Some c ↔ ∃ snap, m_starts s !! c = Some (SWait snap);
    mk_wait (c : nat) snap : m_starts s !! c = Some (SWait snap) → m_started s = false ∧ ∃ tr1 tr2 s1, tr = tr1 ++ MWait c snap :: tr2 ∧ reach mst m_init tr1 s1 ∧ snap = kinds (m_cache s1);
    mk_good : good_launches tr = if m_started s then 1 else 0;
    mk_calls : length (m_starts s) = start_calls tr
  }.
  Lemma mok_reach tr s : reach mst m_init tr s → mok tr s.
  Proof.
    intros Hr. apply (reach_trace_inv mst mok m_init tr s); [|clear tr s Hr|done].
    { split; try done; simpl; intros; try done. split; [done|by intros [? ?]]. }
    intros tr s l s' Hr [Hh Hw Hg Hc] Hs.
    assert (Hmore : ∀ c snap, (∃ tr1 tr2 s1, tr = tr1 ++ MWait c snap :: tr2 ∧ reach mst m_init tr1 s1 ∧ snap = kinds (m_cache s1)) →
      ∃ tr1 tr2 s1, tr ++ [l] = tr1 ++ MWait c snap :: tr2 ∧ reach mst m_init tr1 s1 ∧ snap = kinds (m_cache s1)).
    { intros c snap (tr1&tr2&s1&->&?&?). exists tr1, (tr2 ++ [l]), s1. split; [|done]. by rewrite <- app_assoc. }
    assert (Hsame : m_starts s' = m_starts s → m_holder s' = m_holder s → m_started s' = m_started s → good_launches [l] = 0 → start_calls [l] = 0 → mok (tr ++ [l]) s').
    { intros H1 H2 H3 H4 H5. split.
      - rewrite H1, H2. done.
      - rewrite H1, H3. intros c snap H. destruct (Hw _ _ H). eauto.
      - unfold good_launches in *. rewrite countb_app, H4, H3. lia.
      - unfold start_calls in *. rewrite countb_app, H5, H1. lia. }
    destruct Hs as [| | | |c Hc1 Hho Hst|c snap Hc1 Hsy|c Hc1 Hho Hst|c p Hc1 Hp| | | | | | | | ]; try (by apply Hsame); clear Hsame;
      split; simpl; unfold good_launches, start_calls in *; rewrite ?countb_app, ?countb_cons, ?countb_nil, ?app_length, ?insert_length; simpl; rewrite ?Hg, ?Nat.add_0_r; try (done || lia).
    - intros c. rewrite Hh. split; intros [snap Hl]; exists snap.
      + by apply lookup_app_l_Some.
      + apply lookup_app_Some in Hl as [Hl|[_ Hl]]; [done|]. by apply list_lookup_singleton_Some in Hl as [_ ?].
    - intros c snap [Hl|[_ Hl]]%lookup_app_Some; [destruct (Hw _ _ Hl); eauto|]. by apply list_lookup_singleton_Some in Hl as [_ ?].
    - intros c'. split.
      + intros [= <-]. eexists. apply list_lookup_insert. by eapply lookup_lt_Some.
      + intros [snap [(->&_&_)|[Hne Hl]]%list_lookup_insert_Some]; [done|]. assert (m_holder s = Some c') by (apply Hh; eauto). congruence.
    - intros c' snap [(->&[= <-]&_)|[Hne Hl]]%list_lookup_insert_Some.
      + split; [done|]. exists tr, [], s. done.
      + assert (m_holder s = Some c') by (apply Hh; eauto). congruence.
    - by rewrite Hst.
    - intros c'. split; [done|]. intros [snap' [(->&?&_)|[Hne Hl]]%list_lookup_insert_Some]; [done|].
      assert (m_holder s = Some c') by (apply Hh; eauto). assert (m_holder s = Some c) by (apply Hh; eauto). congruence.
    - intros c' snap' [(->&?&_)|[Hne Hl]]%list_lookup_insert_Some; [done|].
      assert (m_holder s = Some c') by (apply Hh; eauto). assert (m_holder s = Some c) by (apply Hh; eauto). congruence.
    - destruct (Hw _ _ Hc1) as [Hf _]. by rewrite Hf.
    - intros c'. split; [done|]. intros [snap' [(->&?&_)|[Hne Hl]]%list_lookup_insert_Some]; [done|].
      assert (m_holder s = Some c') by (apply Hh; eauto). congruence.
    - intros c' snap' [(->&?&_)|[Hne Hl]]%list_lookup_insert_Some; [done|]. assert (m_holder s = Some c') by (apply Hh; eauto). congruence.
    - by rewrite Hst.
    - intros c'. destruct Hp as [->|[snap ->]].
      + rewrite Hh. split; intros [snap Hl]; exists snap.
        * rewrite list_lookup_insert_ne; [done|]. intros ->. congruence.
        * by apply list_lookup_insert_Some in Hl as [(->&?&_)|[Hne Hl]].
      + split; [done|]. intros [snap' [(->&?&_)|[Hne Hl]]%list_lookup_insert_Some]; [done|].
        assert (m_holder s = Some c') by (apply Hh; eauto). assert (m_holder s = Some c) by (apply Hh; eauto). congruence.
    - intros c' snap' [(->&?&_)|[Hne Hl]]%list_lookup_insert_Some; [done|]. destruct (Hw _ _ Hl); eauto.
  Qed.
  Lemma launch_spec tr s c ks s' : reach mst m_init tr s → mst s (MLaunch c ks) s' →
    ks = added 0 tr ∧ ∃ tr1 tr2 s1, tr = tr1 ++ MWait c (kinds (m_cache s1)) :: tr2 ∧ reach mst m_init tr1 s1 ∧ ∀ g, g ∈ kinds (m_cache s1) → synced g (im_infs (m_cache s)) = true.
  Proof.
    intros Hr Hs. destruct (runnables_added _ _ Hr) as [Ha _]. inversion Hs as [| | | | |? snap Hc Hsy| | | | | | | | | |]; subst. split; [done|].
    destruct (mk_wait _ _ (mok_reach _ _ Hr) _ _ Hc) as (_&tr1&tr2&s1&->&Hr1&->). exists tr1, tr2, s1. split; [done|]. split; [done|].
    intros g Hg. unfold all_synced in Hsy. rewrite forallb_forall in Hsy. apply Hsy. by apply elem_of_list_In.
  Qed.
  Lemma relaunch_spec tr s c ks s' : reach mst m_init tr s → mst s (MRelaunch c ks) s' → ks = added 0 tr ∧ good_launches tr = 1 ∧ m_starts s' !! c = Some SRaised.
  Proof.
    intros Hr Hs. destruct (runnables_added _ _ Hr) as [Ha _]. inversion Hs as [| | | | | |? Hc Hh Hst| | | | | | | | |]; subst. split; [done|]. split.
    - rewrite (mk_good _ _ (mok_reach _ _ Hr)). by rewrite Hst.
    - simpl. apply list_lookup_insert. by eapply lookup_lt_Some.
  Qed.
  Lemma launch_once tr s : reach mst m_init tr s → good_launches tr ≤ 1.
  Proof. intros Hr. rewrite (mk_good _ _ (mok_reach _ _ Hr)). destruct (m_started s); lia. Qed.
  Lemma started_gathers tr s : reach mst m_init tr s → m_started s = true → ∃ c, m_starts s !! c = Some SGather.
  Proof.
    intros Hr. apply (reach_inv mst (λ s, m_started s = true → ∃ c, m_starts s !! c = Some SGather) m_init tr s); [|done|done].
    clear tr s Hr. intros s l s' IH Hs.
    destruct Hs as [| | | |c Hc1 Hho Hst|c snap Hc1 Hsy|c Hc1 Hho Hst|c p Hc1 Hp| | | | | | | | ]; simpl; try done.
    - intros [c Hc]%IH. exists c. by apply lookup_app_l_Some.
    - intros _. exists c. apply list_lookup_insert. by eapply lookup_lt_Some.
    - intros _. destruct (IH Hst) as [c' Hc']. exists c'. rewrite list_lookup_insert_ne; [done|]. intros ->. congruence.
    - intros Hst. destruct (IH Hst) as [c' Hc']. exists c'. rewrite list_lookup_insert_ne; [done|]. intros ->. rewrite Hc1 in Hc'. injection Hc' as ->. by destruct Hp as [?|[? ?]].
  Qed.
  Lemma launched_app k tr tr' : launched k (tr ++ tr') = launched k tr + launched k tr'.
  Proof. unfold launched. rewrite fmap_app. by rewrite sum_list_with_app || (induction (_ <$> tr); simpl; lia). Qed.
  Lemma launched_le tr s k : reach mst m_init tr s → start_calls tr ≤ 1 → launched k tr ≤ countb (λ k', bool_decide (k' = k)) (added 0 tr).
  Proof.
    intros Hr Hle. enough (launched k tr ≤ if m_started s then countb (λ k', bool_decide (k' = k)) (added 0 tr) else 0) as H by (destruct (m_started s); lia).
    revert Hle. apply (reach_trace_inv mst (λ tr s, start_calls tr ≤ 1 → launched k tr ≤ if m_started s then countb (λ k', bool_decide (k' = k)) (added 0 tr) else 0) m_init tr s); [done| |done].
    clear tr s Hr. intros tr s l s' Hr IH Hs Hle.
    assert (start_calls tr ≤ 1) as Hle1 by (unfold start_calls in *; rewrite countb_app in Hle; lia). specialize (IH Hle1).
    rewrite launched_app, added_app, countb_app.
    destruct Hs as [| | | |c Hc1 Hho Hst|c snap Hc1 Hsy|c Hc1 Hho Hst|c p Hc1 Hp| | | | | | | | ]; simpl; unfold launched at 2; csimpl; try (destruct (m_started s); simpl; rewrite ?countb_nil; lia).
    - destruct (mk_wait _ _ (mok_reach _ _ Hr) _ _ Hc1) as [Hf _]. rewrite Hf in IH. destruct (runnables_added _ _ Hr) as [-> _]. rewrite countb_nil. lia.
    - exfalso. destruct (started_gathers _ _ Hr Hst) as [c' Hc']. pose proof (mk_calls _ _ (mok_reach _ _ Hr)) as Hlen.
      pose proof (lookup_lt_Some _ _ _ Hc'). assert (c < length (m_starts s)) by (by eapply lookup_lt_Some). assert (c = c') as -> by lia. congruence.
  Qed.
End proofs.
