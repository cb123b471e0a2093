From Verif Require Import Base WaitPQ_model WaitPQ_spec.
From Coq Require Import ZArith Lia ZifyBool Sorted.
Open Scope Z_scope.

Section proofs.
  Context {A : Type} `{EqDecision A}.
  Notation entry := (Z * nat * option A)%type.
  Implicit Types (s : pq A) (h : list entry) (ms : list (A * Z * nat)).

  Definition elt (e1 e2 : entry) : Prop := entry_lt e1 e2 = true.
  Lemma elt_iff e1 e2 : elt e1 e2 ↔
    e1.1.1 < e2.1.1 ∨ (e1.1.1 = e2.1.1 ∧ (e1.1.2 < e2.1.2)%nat).
  Proof. unfold elt, entry_lt. lia. Qed.

  Lemma elem_of_heappush e e' h : e' ∈ heappush e h ↔ e' = e ∨ e' ∈ h.
  Proof.
    induction h as [|e1 h IH]; simpl; [set_solver|].
    destruct (entry_lt e e1); set_solver.
  Qed.
  Lemma heappush_sorted e h :
    StronglySorted elt h → (∀ e', e' ∈ h → e'.1.2 ≠ e.1.2) → StronglySorted elt (heappush e h).
  Proof.
    induction h as [|e1 h IH]; simpl; intros Hs Hne; [repeat constructor|].
    inversion Hs as [|? ? Hs1 Hf]; subst. destruct (entry_lt e e1) eqn:Hlt.
    - constructor; [done|]. constructor; [done|].
      rewrite Forall_forall in *. intros e2 He2. specialize (Hf e2 He2).
      rewrite elt_iff in *. assert (elt e e1) as Hlt' by done. rewrite elt_iff in Hlt'. lia.
    - constructor; [apply IH; [done|]; set_solver|].
      rewrite Forall_forall in *. intros e2 [->|He2]%elem_of_heappush; [|by apply Hf].
      assert (¬ elt e e1) as Hlt' by (unfold elt; congruence). rewrite elt_iff in *.
      specialize (Hne e1 ltac:(left)). lia.
  Qed.

  Lemma tombstone_sorted c h : StronglySorted elt h → StronglySorted elt (tombstone c h).
  Proof.
    unfold tombstone. induction 1 as [|e h Hs IH Hf]; csimpl; constructor; [done|].
    rewrite Forall_fmap. eapply Forall_impl; [exact Hf|].
    intros e2. simpl. rewrite !elt_iff. repeat case_decide; simpl; lia.
  Qed.
  Lemma tombstone_keys c h : (tombstone c h).*1 = h.*1.
  Proof.
    unfold tombstone. induction h as [|e h IH]; csimpl; [done|]. rewrite IH. by case_decide.
  Qed.
  Lemma elem_of_tombstone_live c h p c' d :
    (p, c', Some d) ∈ tombstone c h ↔ (p, c', Some d) ∈ h ∧ c' ≠ c.
  Proof.
    unfold tombstone. rewrite elem_of_list_fmap. split.
    - intros ([[p1 c1] o] & Heq & He). simpl in *. case_decide; by simplify_eq.
    - intros [??]. exists (p, c', Some d). simpl. by rewrite decide_False.
  Qed.

  Definition counts h : list nat := (λ e, e.1.2) <$> h.
  Lemma counts_tombstone c h : counts (tombstone c h) = counts h.
  Proof.
    unfold counts. change (λ e : entry, e.1.2) with (snd ∘ (fst (A:=Z*nat) (B:=option A))).
    by rewrite !list_fmap_compose, tombstone_keys.
  Qed.
  Lemma elem_of_counts c h : c ∈ counts h ↔ ∃ p o, (p, c, o) ∈ h.
  Proof.
    unfold counts. rewrite elem_of_list_fmap. split.
    - intros ([[p c'] o] & -> & ?). eauto.
    - intros (p & o & ?). by exists (p, c, o).
  Qed.
  Lemma counts_heappush e h : ∀ c, c ∈ counts (heappush e h) ↔ c = e.1.2 ∨ c ∈ counts h.
  Proof.
    intros c. rewrite !elem_of_counts. setoid_rewrite elem_of_heappush.
    destruct e as [[p1 c1] o1]; simpl. naive_solver.
  Qed.
  Lemma nodup_counts_heappush e h : NoDup (counts h) → e.1.2 ∉ counts h → NoDup (counts (heappush e h)).
  Proof.
    unfold counts. induction h as [|e1 h IH]; csimpl; [intros; apply NoDup_singleton|].
    intros Hn Hni. destruct (entry_lt e e1); csimpl.
    - apply NoDup_cons. done.
    - apply NoDup_cons in Hn as [??]. apply NoDup_cons. split; [|apply IH; set_solver].
      intros [?|?]%counts_heappush; [|done]. set_solver.
  Qed.

  (** ghost list of live entries in insertion order *)
  Record R (ms : list (A * Z * nat)) (s : pq A) : Prop := {
    r_sorted : StronglySorted elt (pq_heap s);
    r_counts : NoDup (counts (pq_heap s));
    r_bound c : c ∈ counts (pq_heap s) → (c < pq_count s)%nat;
    r_live d p c : (p, c, Some d) ∈ pq_heap s ↔ (d, p, c) ∈ ms;
    r_finder d p c : dget d (pq_finder s) = Some (p, c) ↔ (d, p, c) ∈ ms;
    r_nodup : NoDup ((λ e, e.1.1) <$> ms);
    r_stamps : StronglySorted lt ((λ e, e.2) <$> ms);
    r_len : pq_len s = length ms
  }.

  Lemma R_init : R [] pq_init.
  Proof.
    split; simpl; try done.
    - constructor.
    - apply NoDup_nil_2.
    - by intros c ?%elem_of_nil.
    - intros; by rewrite !elem_of_nil.
    - intros; rewrite elem_of_nil. by vm_compute.
    - apply NoDup_nil_2.
    - constructor.
  Qed.

  Lemma sorted_snoc (l : list nat) x : StronglySorted lt l → Forall (λ y, (y < x)%nat) l → StronglySorted lt (l ++ [x]).
  Proof.
    induction 1 as [|y l Hs IH Hf]; simpl; [repeat constructor|].
    inversion 1; subst. constructor; [by apply IH|]. apply Forall_app. split; [done|]. by repeat constructor.
  Qed.
  Lemma sorted_app_lr (l1 : list nat) x l2 :
    StronglySorted lt (l1 ++ x :: l2) →
    StronglySorted lt (l1 ++ l2) ∧ Forall (λ y, (y < x)%nat) l1 ∧ Forall (λ y, (x < y)%nat) l2.
  Proof.
    induction l1 as [|y l1 IH]; simpl.
    - inversion 1; subst. by repeat split.
    - inversion 1 as [|?? Hs Hf]; subst. destruct (IH Hs) as (? & ? & ?).
      apply Forall_app in Hf as [Hf1 Hf2]. inversion Hf2; subst.
      repeat split; [|by constructor|done]. constructor; [done|]. by apply Forall_app.
  Qed.

  Lemma R_stamp_bound ms s d p c : R ms s → (d, p, c) ∈ ms → (c < pq_count s)%nat.
  Proof.
    intros HR Hin. apply (r_bound _ _ HR). apply elem_of_counts. exists p, (Some d). by apply (r_live _ _ HR).
  Qed.
  Lemma R_unique ms s d p c p' c' : R ms s → (d, p, c) ∈ ms → (d, p', c') ∈ ms → (p, c) = (p', c').
  Proof. intros HR H1%(r_finder _ _ HR) H2%(r_finder _ _ HR). congruence. Qed.

  (** lines 141-144 on a state where [d] is not live *)
  Lemma R_push ms s d p n :
    R ms s → d ∉ (λ e, e.1.1) <$> ms →
    n = S (length ms) →
    R (ms ++ [(d, p, pq_count s)]) (pq_push d p (PQ (pq_heap s) (pq_finder s) (pq_count s) n)).
  Proof.
    intros HR Hd ->.
    assert (pq_count s ∉ counts (pq_heap s)) as Hfresh.
    { intros Hc%(r_bound _ _ HR). lia. }
    split; simpl.
    - apply heappush_sorted; [apply HR|]. intros [[p' c'] o'] He; simpl. intros ->.
      apply Hfresh. apply elem_of_counts. eauto.
    - apply nodup_counts_heappush; [apply HR|done].
    - intros c [->|Hc%(r_bound _ _ HR)]%counts_heappush; simpl; lia.
    - intros d' p' c'. rewrite elem_of_heappush, elem_of_app, elem_of_list_singleton, (r_live _ _ HR). naive_solver.
    - intros d' p' c'. rewrite dget_dset, elem_of_app, elem_of_list_singleton.
      case_decide as Hdd; subst.
      + split; [intros; simplify_eq; by right|]. intros [Hin|?]; [|by simplify_eq].
        exfalso. apply Hd. apply elem_of_list_fmap. by exists (d, p', c').
      + rewrite (r_finder _ _ HR). naive_solver.
    - rewrite fmap_app. apply NoDup_app. split; [apply HR|]. split; [|apply NoDup_singleton].
      intros x Hx ->%elem_of_list_singleton. done.
    - rewrite fmap_app. apply sorted_snoc; [apply HR|]. rewrite Forall_fmap, Forall_forall.
      intros [[d' p'] c'] Hin; simpl. by eapply R_stamp_bound.
    - rewrite app_length; simpl. lia.
  Qed.

  Lemma R_remove ms1 ms2 s d p c :
    R (ms1 ++ (d, p, c) :: ms2) s →
    ∀ h' n, StronglySorted elt h' → NoDup (counts h') → (∀ c, c ∈ counts h' → c ∈ counts (pq_heap s)) →
      (∀ d' p' c', (p', c', Some d') ∈ h' ↔ (p', c', Some d') ∈ pq_heap s ∧ d' ≠ d) →
      n = length (ms1 ++ ms2) →
    R (ms1 ++ ms2) (PQ h' (ddel d (pq_finder s)) (pq_count s) n) ∧ d ∉ (λ e, e.1.1) <$> (ms1 ++ ms2).
  Proof.
    intros HR h' n Hs Hn Hc Hl ->.
    pose proof (r_nodup _ _ HR) as Hnd. rewrite fmap_app in Hnd. csimpl in Hnd.
    assert (d ∉ (λ e, e.1.1) <$> (ms1 ++ ms2)) as Hd.
    { rewrite fmap_app. apply NoDup_app in Hnd as (_ & H1 & H2). apply NoDup_cons in H2 as [H2 _].
      rewrite not_elem_of_app. split; [|done]. intros Hin. apply (H1 _ Hin). left. }
    assert (∀ d' p' c', (d', p', c') ∈ ms1 ++ ms2 ↔ (d', p', c') ∈ ms1 ++ (d, p, c) :: ms2 ∧ d' ≠ d) as Hmem.
    { intros d' p' c'. split.
      - intros Hin. split; [set_solver|]. intros ->. apply Hd. apply elem_of_list_fmap. by exists (d, p', c').
      - intros [Hin Hne]. rewrite elem_of_app, elem_of_cons in Hin. rewrite elem_of_app. naive_solver. }
    split; [|done]. split; simpl; try done.
    - intros c0 Hc0. apply (r_bound _ _ HR). by apply Hc.
    - intros. by rewrite Hl, Hmem, (r_live _ _ HR).
    - intros d' p' c'. rewrite dget_ddel, Hmem. case_decide; [split; [done|naive_solver]|].
      rewrite (r_finder _ _ HR). naive_solver.
    - rewrite fmap_app. apply NoDup_app in Hnd as (H0 & H1 & H2). apply NoDup_cons in H2 as [H2 H3].
      apply NoDup_app. split; [done|]. split; [|done]. intros x Hx Hx2. apply (H1 x Hx). by right.
    - pose proof (r_stamps _ _ HR) as Hst. rewrite fmap_app in Hst. csimpl in Hst.
      rewrite fmap_app. by apply sorted_app_lr in Hst as [? _].
  Qed.

  (** [peek]/[pop] skip the tombstones *)
  Lemma skip_tombstones h : StronglySorted elt h →
    (peek_heap h = ([], None) ∧ pop_heap h = ([], None) ∧ ∀ p c d, (p, c, Some d) ∉ h) ∨
    (∃ p c d h', peek_heap h = ((p, c, Some d) :: h', Some p) ∧ pop_heap h = (h', Some d) ∧
       (∃ pre, h = pre ++ (p, c, Some d) :: h') ∧ StronglySorted elt ((p, c, Some d) :: h') ∧
       (∀ p' c' d', (p', c', Some d') ∈ h ↔ (p', c', Some d') ∈ (p, c, Some d) :: h')).
  Proof.
    induction 1 as [|[[p c] [d|]] h Hs IH Hf]; simpl.
    - left. split_and!; try done. intros ???; apply not_elem_of_nil.
    - right. exists p, c, d, h. split_and!; try done; [by exists []|by constructor].
    - destruct IH as [(H1 & H2 & H3)|(p1 & c1 & d1 & h' & H1 & H2 & (pre & ->) & H4 & H5)].
      + left. split_and!; try done. intros ??? [?|?]%elem_of_cons; [done|]. by eapply H3.
      + right. exists p1, c1, d1, h'. split_and!; try done.
        * by exists ((p, c, None) :: pre).
        * intros p' c' d'. rewrite elem_of_cons, H5. naive_solver.
  Qed.

  Definition abs ms : list (A * Z) := (λ e, e.1) <$> ms.

  Lemma R_step ms s o : R ms s → ∃ ms', R ms' (pqstep s o).1 ∧ pspec (abs ms) o (abs ms') (pqstep s o).2.
  Proof.
    intros HR. destruct o as [d p| | |]; simpl.
    - unfold pq_insert. destruct (dget d (pq_finder s)) as [[p0 c0]|] eqn:Hg.
      + pose proof (proj1 (r_finder _ _ HR _ _ _) Hg) as Hin.
        unfold pq_remove; simpl. destruct (p0 >? p) eqn:Hgt.
        * apply elem_of_list_split in Hin as (ms1 & ms2 & ->).
          edestruct (R_remove ms1 ms2 s d p0 c0 HR (tombstone c0 (pq_heap s)) (length (ms1 ++ ms2))) as [HR' Hd'].
          { apply tombstone_sorted, HR. }
          { rewrite counts_tombstone. apply HR. }
          { by rewrite counts_tombstone. }
          { intros d' p' c'. rewrite elem_of_tombstone_live, (r_live _ _ HR).
            split; intros [Hin' Hne]; (split; [done|]).
            - intros ->. apply Hne. eapply (R_unique _ _ d p' c' p0 c0) in HR; [|done|set_solver]. by simplify_eq.
            - intros ->. apply Hne. 
              pose proof (r_stamps _ _ HR) as Hst. rewrite fmap_app in Hst. csimpl in Hst.
              apply sorted_app_lr in Hst as (_ & Hf1 & Hf2).
              apply elem_of_app in Hin' as [Hin'|[Hin'|Hin']%elem_of_cons].
              + rewrite Forall_fmap, Forall_forall in Hf1. specialize (Hf1 _ Hin'). simpl in Hf1. lia.
              + by simplify_eq.
              + rewrite Forall_fmap, Forall_forall in Hf2. specialize (Hf2 _ Hin'). simpl in Hf2. lia. }
          { done. }
          exists ((ms1 ++ ms2) ++ [(d, p, pq_count s)]). split.
          -- pose proof (R_push _ _ d p (length (ms1 ++ (d, p0, c0) :: ms2)) HR' Hd') as HP.
             rewrite (r_len _ _ HR). apply HP. rewrite !app_length. simpl. lia.
          -- unfold abs. rewrite !fmap_app. csimpl. rewrite <-app_assoc.
             apply (ps_insert_earlier _ _ _ d p p0); [done|lia].
        * exists ms. split; [done|]. apply (ps_insert_later _ d p p0); [|lia].
          unfold abs. apply elem_of_list_fmap. by exists (d, p0, c0).
      + exists (ms ++ [(d, p, pq_count s)]).
        assert (d ∉ (λ e, e.1.1) <$> ms) as Hd.
        { intros ([[d' p'] c'] & -> & Hin)%elem_of_list_fmap. simpl in *.
          apply (r_finder _ _ HR) in Hin. congruence. }
        split.
        * apply R_push; [done..|]. by rewrite (r_len _ _ HR).
        * unfold abs. rewrite fmap_app. apply ps_insert_new.
          rewrite <-list_fmap_compose. done.
    - unfold pq_peek. destruct (skip_tombstones (pq_heap s) (r_sorted _ _ HR))
        as [(Hpeek & _ & Hnone)|(p & c & d & h' & Hpeek & _ & (pre & Hpre) & Hs & Hiff)]; rewrite Hpeek; simpl.
      + exists ms. assert (ms = []) as ->.
        { destruct ms as [|[[d p] c] ms]; [done|]. exfalso. apply (Hnone p c d), (r_live _ _ HR). left. }
        split; [|apply ps_peek_empty]. destruct HR as [H1 H2 H3 H4 H5 H6 H7 H8]. split; simpl; try done.
        * constructor.
        * apply NoDup_nil_2.
        * by intros ? ?%elem_of_nil.
        * intros. by rewrite !elem_of_nil.
      + exists ms. split.
        * destruct HR as [H1 H2 H3 H4 H5 H6 H7 H8]. rewrite Hpre in H2, H3.
          unfold counts in *. rewrite fmap_app in *.
          split; simpl; try done.
          -- by apply NoDup_app in H2 as (_ & _ & ?).
          -- intros c0 Hc0. apply H3. apply elem_of_app. by right.
          -- intros. by rewrite <-Hiff.
        * assert ((d, p, c) ∈ ms) as Hin by (apply (r_live _ _ HR), Hiff; left).
          apply elem_of_list_split in Hin as (ms1 & ms2 & ->).
          unfold abs. rewrite fmap_app. csimpl. eapply ps_peek. split; [done|].
          pose proof (r_stamps _ _ HR) as Hst. rewrite fmap_app in Hst. csimpl in Hst.
          apply sorted_app_lr in Hst as (_ & Hf1 & Hf2).
          inversion Hs as [|?? Hs' Hfs]; subst. rewrite Forall_forall in Hfs.
          rewrite !Forall_fmap, !Forall_forall in *. split.
          -- intros [[d1 p1] c1] Hin1; simpl. specialize (Hf1 _ Hin1); simpl in Hf1.
             assert ((p1, c1, Some d1) ∈ (p, c, Some d) :: h') as [?|Hin2]%elem_of_cons.
             { apply Hiff, (r_live _ _ HR). set_solver. }
             { simplify_eq. lia. }
             specialize (Hfs _ Hin2). rewrite elt_iff in Hfs. simpl in Hfs. lia.
          -- intros [[d1 p1] c1] Hin1; simpl. specialize (Hf2 _ Hin1); simpl in Hf2.
             assert ((p1, c1, Some d1) ∈ (p, c, Some d) :: h') as [?|Hin2]%elem_of_cons.
             { apply Hiff, (r_live _ _ HR). set_solver. }
             { simplify_eq. lia. }
             specialize (Hfs _ Hin2). rewrite elt_iff in Hfs. simpl in Hfs. lia.
    - unfold pq_pop. destruct (skip_tombstones (pq_heap s) (r_sorted _ _ HR))
        as [(_ & Hpop & Hnone)|(p & c & d & h' & _ & Hpop & (pre & Hpre) & Hs & Hiff)]; rewrite Hpop; simpl.
      + exists ms. assert (ms = []) as ->.
        { destruct ms as [|[[d p] c] ms]; [done|]. exfalso. apply (Hnone p c d), (r_live _ _ HR). left. }
        split; [|apply ps_pop_empty]. destruct HR as [H1 H2 H3 H4 H5 H6 H7 H8]. split; simpl; try done.
        * constructor.
        * apply NoDup_nil_2.
        * by intros ? ?%elem_of_nil.
        * intros. by rewrite !elem_of_nil.
      + assert ((d, p, c) ∈ ms) as Hin by (apply (r_live _ _ HR), Hiff; left).
        apply elem_of_list_split in Hin as (ms1 & ms2 & ->).
        exists (ms1 ++ ms2).
        pose proof (r_stamps _ _ HR) as Hst. rewrite fmap_app in Hst. csimpl in Hst.
        apply sorted_app_lr in Hst as (_ & Hf1 & Hf2).
        inversion Hs as [|?? Hs' Hfs]; subst. rewrite Forall_forall in Hfs.
        pose proof (r_counts _ _ HR) as Hcn. rewrite Hpre in Hcn. unfold counts in Hcn. rewrite fmap_app in Hcn.
        apply NoDup_app in Hcn as (_ & _ & Hcn). csimpl in Hcn. apply NoDup_cons in Hcn as [Hcd Hcn].
        split.
        * apply (R_remove ms1 ms2 s d p c HR); try done.
          -- intros c0 Hc0. rewrite Hpre. unfold counts. rewrite fmap_app. apply elem_of_app. right. by right.
          -- intros d' p' c'. split.
             ++ intros Hin'. split; [apply Hiff; by right|]. intros ->.
                assert ((d, p', c') ∈ ms1 ++ (d, p, c) :: ms2) as Hi by (apply (r_live _ _ HR), Hiff; by right).
                eapply (R_unique _ _ d p' c' p c) in HR; [|done|set_solver]. simplify_eq.
                apply Hcd. apply elem_of_counts. eauto.
             ++ intros [[?|?]%Hiff%elem_of_cons Hne]; [by simplify_eq|done].
          -- rewrite (r_len _ _ HR), !app_length. simpl. lia.
        * unfold abs. rewrite !fmap_app. csimpl. eapply ps_pop. split; [done|].
          rewrite !Forall_fmap, !Forall_forall in *. split.
          -- intros [[d1 p1] c1] Hin1; simpl. specialize (Hf1 _ Hin1); simpl in Hf1.
             assert ((p1, c1, Some d1) ∈ (p, c, Some d) :: h') as [?|Hin2]%elem_of_cons.
             { apply Hiff, (r_live _ _ HR). set_solver. }
             { simplify_eq. lia. }
             specialize (Hfs _ Hin2). rewrite elt_iff in Hfs. simpl in Hfs. lia.
          -- intros [[d1 p1] c1] Hin1; simpl. specialize (Hf2 _ Hin1); simpl in Hf2.
             assert ((p1, c1, Some d1) ∈ (p, c, Some d) :: h') as [?|Hin2]%elem_of_cons.
             { apply Hiff, (r_live _ _ HR). set_solver. }
             { simplify_eq. lia. }
             specialize (Hfs _ Hin2). rewrite elt_iff in Hfs. simpl in Hfs. lia.
    - exists ms. split; [done|]. rewrite (r_len _ _ HR).
      replace (length ms) with (length (abs ms)) by apply fmap_length. apply ps_len.
  Qed.

  Lemma pq_refines (h : list (pqop A * pqres A)) s : exec pqstep pq_init h s → ∃ ms, R ms s ∧ pspecs [] h (abs ms).
  Proof.
    apply (exec_trace_inv pqstep (λ (h : list (pqop A * pqres A)) s, ∃ ms, R ms s ∧ pspecs [] h (abs ms))).
    - exists []. split; [apply R_init|]. constructor.
    - clear. intros h s' o _ (ms & HR & Hsp). destruct (R_step ms s' o HR) as (ms' & HR' & Hp).
      exists ms'. split; [done|]. by econstructor.
  Qed.

  (** ** the abstract list against the history *)
  Lemma pspec_nodup (m m' : list (A * Z)) o r : pspec m o m' r → NoDup m.*1 → NoDup m'.*1.
  Proof.
    destruct 1 as [m d p Hd|m d p p0|m m1 m2 d p p0 ->|m m1 m2 d p|  |m m1 m2 d p [-> _]| |m]; try done; intros Hn.
    - rewrite fmap_app. apply NoDup_app. split; [done|]. split; [|apply NoDup_singleton].
      intros x Hx ->%elem_of_list_singleton. done.
    - rewrite fmap_app in *. csimpl in *. rewrite fmap_app. rewrite app_assoc.
      apply NoDup_app in Hn as (H1 & H2 & H3). apply NoDup_cons in H3 as [H3 H4].
      apply NoDup_app. split; [|split; [|apply NoDup_singleton]].
      + apply NoDup_app. split; [done|]. split; [|done]. intros x Hx Hx2. apply (H2 x Hx). by right.
      + intros x [Hx|Hx]%elem_of_app ->%elem_of_list_singleton; [|done]. apply (H2 d Hx). left.
    - rewrite fmap_app in *. csimpl in *.
      apply NoDup_app in Hn as (H1 & H2 & H3). apply NoDup_cons in H3 as [H3 H4].
      apply NoDup_app. split; [done|]. split; [|done]. intros x Hx Hx2. apply (H2 x Hx). by right.
  Qed.

  Lemma key_unique (m : list (A * Z)) d p p' : NoDup m.*1 → (d, p) ∈ m → (d, p') ∈ m → p = p'.
  Proof.
    intros Hn H1 H2. pose proof (elem_of_dget _ _ _ Hn H1). pose proof (elem_of_dget _ _ _ Hn H2). congruence.
  Qed.

  Lemma requests_snoc d (h : list (pqop A * pqres A)) e :
    requests d (reverse (h ++ [e])) = requests d (e :: reverse h).
  Proof. by rewrite reverse_app, reverse_singleton. Qed.

  Lemma least_cons p q l : least_of p (q :: l) ↔
    (p = q ∧ (∀ p', p' ∈ l → p ≤ p')) ∨ (least_of p l ∧ p ≤ q).
  Proof.
    unfold least_of. rewrite elem_of_cons, Forall_cons, Forall_forall. split.
    - intros [[->|Hin] [Hle Hf]]; [by left|by right].
    - intros [[-> Hf]|[[Hin Hf] Hle]].
      + split; [by left|]. split; [lia|done].
      + split; [by right|]. done.
  Qed.

  Lemma tracked_is_least (h : list (pqop A * pqres A)) m :
    pspecs [] h m → NoDup m.*1 ∧
    ∀ d, (requests d (reverse h) = [] ↔ d ∉ m.*1) ∧ (∀ p, (d, p) ∈ m ↔ least_of p (requests d (reverse h))).
  Proof.
    remember [] as m0 eqn:Hm0. induction 1 as [m|m h m1 o r m2 Hsp IH Hp]; subst.
    - split; [apply NoDup_nil_2|]. intros d. split.
      + split; [intros _; apply not_elem_of_nil|done].
      + intros p. unfold least_of. simpl. rewrite !elem_of_nil. naive_solver.
    - destruct (IH eq_refl) as [Hn Hd]. clear IH. split; [by eapply pspec_nodup|].
      intros d. rewrite requests_snoc. pose proof (Hd d) as [Hd1 Hd2].
      assert (Hkey : ∀ p, (d, p) ∈ m1 → d ∈ m1.*1).
      { intros p Hin. apply elem_of_list_fmap. by exists (d, p). }
      destruct Hp as [m1 d' p Hnew|m1 d' p p0 Hin Hle|m1 ma mb d' p p0 -> Hlt|m1 ma mb d' p Hfl| |m1 ma mb d' p (-> & Hf1 & Hf2)| |m1]; simpl; try done.
      + case_decide as Hdd; subst.
        * split.
          -- split; [done|]. intros Hno. exfalso. apply Hno. rewrite fmap_app. set_solver.
          -- intros q. rewrite least_cons. assert (requests d (reverse h) = []) as -> by by apply Hd1.
             rewrite elem_of_app, elem_of_list_singleton. unfold least_of. rewrite elem_of_nil.
             split.
             ++ intros [Hin|?]; [exfalso; by apply Hnew, (Hkey q)|]. simplify_eq. left. split; [done|]. by intros ? ?%elem_of_nil.
             ++ intros [[-> _]|[[? _] _]]; [by right|done].
        * rewrite fmap_app. csimpl. split; [rewrite Hd1; set_solver|].
          intros q. rewrite elem_of_app, elem_of_list_singleton, Hd2. naive_solver.
      + case_decide as Hdd; subst; [|done]. split.
        * split; [done|]. intros Hno. exfalso. by apply Hno, (Hkey p0).
        * intros q. rewrite least_cons. split.
          -- intros Hin'. assert (q = p0) as -> by by eapply (key_unique m1).
             right. split; [by apply Hd2|done].
          -- intros [[-> Hall]|[Hl Hle']]; [|by apply Hd2].
             apply Hd2 in Hin as Hl0. destruct Hl0 as [Hl0 _]. specialize (Hall _ Hl0).
             assert (p = p0) as -> by lia. done.
      + case_decide as Hdd; subst.
        * split.
          -- split; [done|]. intros Hno. exfalso. apply Hno. rewrite !fmap_app. set_solver.
          -- intros q. rewrite least_cons.
             assert (least_of p0 (requests d (reverse h))) as [Hl0 Hl1] by (apply Hd2; set_solver).
             rewrite Forall_forall in Hl1. split.
             ++ intros Hin. assert (q = p) as ->.
                { assert (NoDup (ma ++ mb ++ [(d, p)]).*1) as Hn'.
                  { eapply pspec_nodup; [|exact Hn]. by eapply ps_insert_earlier. }
                  eapply key_unique; [exact Hn'|exact Hin|set_solver]. }
                left. split; [done|]. intros p' Hp'. specialize (Hl1 p' Hp'). lia.
             ++ intros [[-> _]|[[Hq1 Hq2] Hle]]; [set_solver|]. specialize (Hl1 _ Hq1). lia.
        * rewrite !fmap_app in *. csimpl in *. split; [rewrite Hd1; set_solver|].
          intros q. rewrite <-Hd2. rewrite !elem_of_app, !elem_of_cons, elem_of_nil. naive_solver.
      + rewrite fmap_app in Hn. csimpl in Hn. apply NoDup_app in Hn as (H1 & H2 & H3). apply NoDup_cons in H3 as [H3 H4].
        case_decide as Hdd; subst.
        * assert (d ∉ (ma ++ mb).*1) as Hno.
          { rewrite fmap_app, not_elem_of_app. split; [|done]. intros Hx. apply (H2 d Hx). left. }
          split; [done|]. intros q. unfold least_of. rewrite elem_of_nil. split; [|naive_solver].
          intros Hin. exfalso. apply Hno. apply elem_of_list_fmap. by exists (d, q).
        * rewrite !fmap_app in *. csimpl in *. split; [rewrite Hd1; set_solver|].
          intros q. rewrite <-Hd2. rewrite !elem_of_app, elem_of_cons. naive_solver.
  Qed.

  (** the specification determines the answers *)
  Lemma pspec_det (m : list (A * Z)) o m1 r1 m2 r2 :
    NoDup m.*1 → pspec m o m1 r1 → pspec m o m2 r2 → m1 = m2 ∧ r1 = r2.
  Proof.
    intros Hn.
    assert (Hfl : ∀ a1 a2 d p b1 b2 d' p', first_least m a1 a2 d p → first_least m b1 b2 d' p' →
      a1 = b1 ∧ a2 = b2 ∧ d = d' ∧ p = p').
    { intros a1 a2 d p b1 b2 d' p' (E1 & F1 & F2) (E2 & G1 & G2).
      rewrite E1 in E2. apply app_eq_inv in E2 as [(k & Hk1 & Hk2)|(k & Hk1 & Hk2)].
      - destruct k as [|[dk pk] k]; simplify_eq/=; [by rewrite app_nil_r|].
        apply Forall_app in F1 as [_ F1]. inversion F1; subst.
        apply Forall_app in G2 as [_ G2]. inversion G2; subst. simpl in *. lia.
      - destruct k as [|[dk pk] k]; simplify_eq/=; [by rewrite app_nil_r|].
        apply Forall_app in G1 as [_ G1]. inversion G1; subst.
        apply Forall_app in F2 as [_ F2]. inversion F2; subst. simpl in *. lia. }
    assert (Hsplit : ∀ a1 a2 (d : A) (p : Z) b1 b2 p', m = a1 ++ (d, p) :: a2 → m = b1 ++ (d, p') :: b2 → a1 = b1 ∧ a2 = b2).
    { intros a1 a2 d p b1 b2 p' E1 E2. rewrite E1 in E2, Hn. rewrite fmap_app in Hn. csimpl in Hn.
      apply NoDup_app in Hn as (N1 & N2 & N3). apply NoDup_cons in N3 as [N3 N4].
      apply app_eq_inv in E2 as [(k & Hk1 & Hk2)|(k & Hk1 & Hk2)].
      - destruct k as [|[dk pk] k]; simplify_eq/=; [by rewrite app_nil_r|].
        exfalso. eapply N2; [|left]. rewrite fmap_app; csimpl; set_solver.
      - destruct k as [|[dk pk] k]; simplify_eq/=; [by rewrite app_nil_r|].
        exfalso. apply N3. rewrite fmap_app. csimpl. set_solver. }
    assert (Hm : ∀ a1 a2 (d : A) (p : Z), m = a1 ++ (d, p) :: a2 → (d, p) ∈ m ∧ d ∈ m.*1).
    { intros a1 a2 d p ->. split; [set_solver|]. rewrite fmap_app. csimpl. set_solver. }
    intros H1 H2. destruct H1 as [m d p Hnew|m d p p0 Hin Hle|m ma mb d p p0 Hm1 Hlt|m ma mb d p H1| |m ma mb d p H1| |m];
      inversion H2; clear H2; subst; try done;
      try (match goal with Ha : first_least ?m _ _ _ _, Hb : first_least ?m _ _ _ _ |- _ =>
        destruct (Hfl _ _ _ _ _ _ _ _ Ha Hb) as (-> & -> & -> & ->); done end);
      try (match goal with H : first_least [] ?l _ _ _ |- _ => destruct H as [H _]; by destruct l end);
      try (match goal with Ha : (?d, ?p) ∈ ?m, Hb : ?d ∉ ?m.*1 |- _ => exfalso; apply Hb; apply elem_of_list_fmap; by exists (d, p) end);
      try (match goal with Hb : ?d ∉ (_ ++ (?d, _) :: _).*1 |- _ => exfalso; apply Hb; rewrite fmap_app; csimpl; set_solver end).
    - assert (p0 = p2); [|lia]. eapply key_unique; [exact Hn|exact Hin|set_solver].
    - match goal with Ha : (d, ?p1) ∈ _ |- _ => assert (p0 = p1); [|lia]; eapply key_unique; [exact Hn| |exact Ha] end. set_solver.
    - match goal with Ha : _ ++ _ :: _ = _ ++ _ :: _ |- _ => first [destruct (Hsplit _ _ _ _ _ _ _ eq_refl Ha) as [-> ->] | destruct (Hsplit _ _ _ _ _ _ _ Ha eq_refl) as [-> ->]] end. done.
  Qed.

  Lemma heap_refines_map (h : list (pqop A * pqres A)) s :
    exec pqstep pq_init h s → ∃ m, NoDup m.*1 ∧ pspecs [] h m.
  Proof.
    intros (ms & HR & Hsp)%pq_refines. exists (abs ms). split; [|done]. by apply (tracked_is_least _ _ Hsp).
  Qed.

  Lemma deadline_is_least (h : list (pqop A * pqres A)) m :
    pspecs [] h m → ∀ d, (d ∉ m.*1 ↔ requests d (reverse h) = []) ∧
      ∀ p, (d, p) ∈ m ↔ least_of p (requests d (reverse h)).
  Proof.
    intros Hsp d. destruct (tracked_is_least _ _ Hsp) as [_ Ht]. destruct (Ht d) as [H1 H2].
    split; [by symmetry|done].
  Qed.

  Lemma first_least_least (m m1 m2 : list (A * Z)) d p : first_least m m1 m2 d p →
    (d, p) ∈ m ∧ ∀ d' p', (d', p') ∈ m → p ≤ p'.
  Proof.
    intros (-> & F1 & F2). rewrite Forall_forall in *. split; [set_solver|].
    intros d' p'. rewrite elem_of_app, elem_of_cons. intros [Hin|[?|Hin]].
    - specialize (F1 _ Hin); simpl in F1. lia.
    - simplify_eq. lia.
    - specialize (F2 _ Hin); simpl in F2. lia.
  Qed.

  Lemma pop_and_peek (h : list (pqop A * pqres A)) s :
    exec pqstep pq_init h s → ∃ m, pspecs [] h m ∧
      (pqstep s PLen).2 = QLen (length m) ∧
      (m = [] ∧ (pqstep s PPop).2 = QKeyError ∧ (pqstep s PPeek).2 = QKeyError ∨
       ∃ d p, (pqstep s PPop).2 = QData d ∧ (pqstep s PPeek).2 = QPrio p ∧
         (d, p) ∈ m ∧ ∀ d' p', (d', p') ∈ m → p ≤ p').
  Proof.
    intros (ms & HR & Hsp)%pq_refines. exists (abs ms). split; [done|].
    destruct (R_step ms s PLen HR) as (ms1 & _ & H1).
    destruct (R_step ms s PPop HR) as (ms2 & _ & H2).
    destruct (R_step ms s PPeek HR) as (ms3 & _ & H3).
    revert H1 H2 H3. generalize (pqstep s PLen).2 (pqstep s PPop).2 (pqstep s PPeek).2. intros r1 r2 r3 H1 H2 H3.
    split; [by inversion H1|].
    inversion H2 as [| | | | |? m1 m2 d p Hf| |]; inversion H3 as [| | |? m1' m2' d' p' Hf'| | | |]; subst.
    - right. exists d, p'. split; [done|]. split; [done|].
      destruct (first_least_least _ _ _ _ _ Hf) as [Hi Hl]. destruct (first_least_least _ _ _ _ _ Hf') as [Hi' Hl'].
      pose proof (Hl _ _ Hi'). pose proof (Hl' _ _ Hi). assert (p = p') as -> by lia. done.
    - match goal with H : [] = abs ms |- _ => rewrite <-H in * end. destruct Hf as [Hf _]. by destruct m1.
    - match goal with H : [] = abs ms |- _ => rewrite <-H in * end. destruct Hf' as [Hf' _]. by destruct m1'.
    - left. done.
  Qed.
End proofs.
