From Verif Require Import Base DeltaFifo_model DeltaFifo_spec DeltaFifo_proofs DeltaFifo_proofs2 Store_model Store_spec Store_proofs
  Reflector_model Reflector_spec Informer_model Informer_spec Informer_proofs Informer_proofs2 Informer_proofs3 SharedInformer_model SharedInformer_spec.

Lemma lookup_snoc_Some {A} (l : list A) x i y : (l ++ [x]) !! i = Some y ↔ l !! i = Some y ∨ i = length l ∧ y = x.
Proof.
  rewrite lookup_app_Some, list_lookup_singleton_Some. split; [intros [?|(? & ? & <-)]; [by left|right; split; [lia|done]]|].
  intros [?|[-> ->]]; [by left|right; split; [lia|]; by rewrite Nat.sub_diag].
Qed.

Section proofs.
  Context {K O V N : Type} `{EqDecision K} `{EqDecision V} `{EqDecision N} (keyf : O → option K) (second dflt : Z).
  Notation dobj := (dobj K O).
  Notation notif := (notif K O).
  Notation shared := (shared K O V N).
  Notation hstep := (hstep (V:=V) (N:=N) keyf second dflt).
  Notation init := (shared_init (V:=V) (N:=N) dflt).
  Notation hist := (list (hop K O * hres K O)).
  Implicit Types (s : shared) (k : K) (p : proc notif) (l : lst notif) (h : hist).

  (** ** What a step does to the processor *)
  Lemma hinf_step s c s' r : hstep s (HInf c) = (s', r) →
    (s' = s ∧ r = HNone ∧ allowed s c = false) ∨
    ∃ i r1, allowed s c = true ∧ istep keyf (h_inf s) c = (i, r1) ∧ r = HI r1 ∧ h_inf s' = i ∧
      ((∃ n, r1 = ICallback n ∧ h_proc s' = distribute (h_proc s) n (is_sync n)) ∨ (∀ n, r1 ≠ ICallback n) ∧ h_proc s' = h_proc s).
  Proof.
    simpl. destruct (allowed s c); simpl; [|intros [= <- <-]; by left]. destruct (istep keyf (h_inf s) c) as [i r1] eqn:Hi. intros Hst. right. exists i, r1.
    destruct r1; injection Hst as <- <-; simpl; (split; [done|]); (split; [done|]); (split; [done|]); (split; [done|]); first [by right|left; by eexists].
  Qed.

  (** ** C49 *)
  Context (Hsec : (0 < second)%Z).
  Definition well (started : bool) (check : Z) l : Prop :=
    (l_req l = 0 ∨ second ≤ l_req l)%Z ∧ (started = false → l_period l = determine_resync_period (l_req l) check ∧ (check ≠ 0 → l_req l ≠ 0 → check ≤ l_req l)%Z).
  (** two versions of one listener *)
  Definition kept l l' : Prop := l_req l' = l_req l ∧ l_period l' = l_period l.
  Definition PInv p : Prop := (p_stopped p = true → p_started p = true) ∧ ∀ i l, p_ls p !! i = Some l → well (p_started p) (p_check p) l.

  Lemma check_changed_id started check r (ls : list (lst notif)) : started = false → (∀ l, l ∈ ls → well started check l) → (second ≤ r)%Z → (r < check)%Z →
    check_changed r ls = ls.
  Proof.
    intros Hs Hw Hr Hc. unfold check_changed. transitivity ((λ l, l) <$> ls); [|apply list_fmap_id]. apply list_fmap_ext. intros i l Hl%elem_of_list_lookup_2.
    destruct (Hw l Hl) as [H1 H2]. destruct (H2 Hs) as [H3 H4]. destruct l as [req per nx log]. simpl in *. f_equal. rewrite H3. unfold determine_resync_period.
    repeat case_bool_decide; lia.
  Qed.
  Lemma register_spec p req now (b : list notif) : PInv p → p_stopped p = false →
    ∃ r check, register second dflt p req now b = Proc (p_ls p ++ [Lst r (effective second dflt (p_started p) (p_check p) req) (now + effective second dflt (p_started p) (p_check p) req)%Z b])
       (p_syncing p ++ [length (p_ls p)]) check (p_started p) false ∧
     check = (if p_started p then p_check p else if bool_decide (requested dflt req = 0%Z) then p_check p else Z.min (p_check p) (Z.max (requested dflt req) second)) ∧
     well (p_started p) check (Lst r (effective second dflt (p_started p) (p_check p) req) (now + effective second dflt (p_started p) (p_check p) req) b) ∧
     ∀ i l, p_ls p !! i = Some l → well (p_started p) check l.
  Proof.
    intros [Hss Hw] Hns. unfold register. rewrite Hns. fold (requested dflt req). set (r0 := requested dflt req). unfold effective. fold r0.
    destruct (bool_decide_reflect (r0 = 0%Z)) as [H0|H0]; simpl.
    { assert (determine_resync_period r0 (p_check p) = 0%Z) as -> by (unfold determine_resync_period; by rewrite bool_decide_true).
      exists r0, (p_check p). rewrite Z.add_0_r. split; [done|]. split; [by destruct (p_started p)|]. split; [|done].
      split; simpl; [by left|]. intros _. split; [|done]. unfold determine_resync_period. by rewrite bool_decide_true. }
    assert (Hmax : (if bool_decide (r0 < second)%Z then second else r0) = Z.max r0 second) by (case_bool_decide; lia). rewrite Hmax.
    set (r := Z.max r0 second) in *. assert (second ≤ r)%Z by lia.
    destruct (bool_decide_reflect (r < p_check p)%Z) as [Hlt|Hlt]; [destruct (p_started p) eqn:Hst|].
    - assert (p_check p ≠ 0)%Z by lia. exists (p_check p), (p_check p).
      assert (determine_resync_period (p_check p) (p_check p) = Z.max r (p_check p)) as ->.
      { unfold determine_resync_period. repeat case_bool_decide; lia. }
      rewrite bool_decide_false by done. split; [done|]. split; [done|]. split; [|done]. split; simpl; [right; lia|done].
    - exists r, r. assert (p_check p ≠ 0)%Z by lia. assert (determine_resync_period r r = r) as Hd by (unfold determine_resync_period; repeat case_bool_decide; lia).
      rewrite (check_changed_id false (p_check p)), Hd; [|done| |done|done].
      2:{ intros l [i Hl]%elem_of_list_lookup. by apply (Hw i l). }
      rewrite bool_decide_false by done. split; [done|]. split; [lia|]. split.
      + split; simpl; [by right|]. by rewrite Hd.
      + intros i l Hl. destruct (Hw i l Hl) as [Hw1 Hw2]. split; [done|]. intros _. destruct (Hw2 eq_refl) as [Hw3 Hw4].
        split; [|intros; lia]. rewrite Hw3. unfold determine_resync_period. repeat case_bool_decide; lia.
    - exists r, (p_check p). assert (determine_resync_period r (p_check p) = if bool_decide (p_check p = 0%Z) then 0%Z else if p_started p then Z.max r (p_check p) else r) as Hd.
      { unfold determine_resync_period. rewrite (bool_decide_false (r = 0%Z)) by lia. destruct (bool_decide_reflect (p_check p = 0%Z)); [done|]. rewrite bool_decide_false by lia. destruct (p_started p); lia. }
      rewrite Hd. split; [done|]. split; [destruct (p_started p); lia|]. split; [|done]. split; simpl; [by right|]. intros Hst. rewrite Hst in *. split; [by rewrite Hd|]. lia.
  Qed.

  (** every listener stays, with its period; a new one is the last *)
  Lemma proc_step s c s' r : PInv (h_proc s) → hstep s c = (s', r) →
    PInv (h_proc s') ∧ (∀ i l, p_ls (h_proc s) !! i = Some l → ∃ l', p_ls (h_proc s') !! i = Some l' ∧ kept l l').
  Proof.
    intros HP Hst. assert (Hsame : ∀ p, p_ls p = p_ls (h_proc s) → ∀ i l, p_ls (h_proc s) !! i = Some l → ∃ l', p_ls p !! i = Some l' ∧ kept l l').
    { intros p -> i l Hl. by exists l. }
    destruct c as [c|req now| | |now].
    - apply hinf_step in Hst as [(-> & _)|(i & r1 & _ & _ & _ & _ & [(n & _ & Hp)|[_ Hp]])]; [by auto| |rewrite Hp; by auto].
      rewrite Hp. destruct HP as [Hss Hw]. split.
      + split; [done|]. simpl. intros j l. rewrite list_lookup_imap. intros (l0 & Hl & ->)%fmap_Some. specialize (Hw _ _ Hl). by destruct (negb _ || _).
      + intros j l Hl. simpl. rewrite list_lookup_imap, Hl. simpl. eexists. split; [done|]. by destruct (negb _ || _).
    - simpl in Hst. assert (∃ b, h_proc s' = h_proc s ∨ h_proc s' = register second dflt (h_proc s) req now b) as (b & [Hp|Hp]).
      { destruct (p_started (h_proc s) && negb (p_stopped (h_proc s))); [destruct (d_busy (i_q (h_inf s)))|]; injection Hst as <- <-; [by exists []; left|eexists; by right|eexists; by right]. }
      { rewrite Hp. by auto. }
      rewrite Hp. destruct (p_stopped (h_proc s)) eqn:Hstop; [unfold register; rewrite Hstop; by auto|].
      destruct (register_spec _ req now b HP Hstop) as (r1 & check & -> & Hc & Hw1 & Hw2). split; [split|]; simpl.
      + done.
      + intros i l [Hl|[-> Hl]]%lookup_snoc_Some; [by eapply Hw2|]. by subst l.
      + intros i l Hl. exists l. split; [|done]. by apply lookup_app_l_Some.
    - injection Hst as <- <-. simpl. destruct HP as [Hss Hw]. split; [|by apply Hsame]. split; [done|]. simpl. intros i l Hl. destruct (Hw i l Hl) as [? _]. split; done.
    - simpl in Hst. destruct (p_started (h_proc s)) eqn:Hs; injection Hst as <- <-; [|by auto]. simpl. destruct HP as [Hss Hw]. split; [|by apply Hsame]. split; [done|]. simpl. by rewrite Hs in Hw.
    - simpl in Hst. injection Hst as <- <-. simpl. destruct HP as [Hss Hw]. split; [split; [done|]|]; simpl.
      + intros i l. rewrite list_lookup_fmap. intros (l0 & Hl & ->)%fmap_Some. specialize (Hw i l0 Hl). by destruct (due now l0).
      + intros i l Hl. rewrite list_lookup_fmap, Hl. simpl. eexists. split; [done|]. by destruct (due now l).
  Qed.
  Lemma PInv_exec fs h s : exec hstep (init fs) h s → PInv (h_proc s).
  Proof.
    apply (exec_inv hstep (λ s, PInv (h_proc s))); [|by split]. intros s1 c H1. destruct (hstep s1 c) as [s2 r] eqn:Hst. simpl. by eapply proc_step.
  Qed.

  Lemma registered_period fs h0 s0 req now s1 h s : exec hstep (init fs) h0 s0 → p_stopped (h_proc s0) = false →
    hstep s0 (HRegister req now) = (s1, HNone) → exec hstep s1 h s →
    ∃ l, p_ls (h_proc s) !! length (p_ls (h_proc s0)) = Some l ∧ l_period l = effective second dflt (p_started (h_proc s0)) (p_check (h_proc s0)) req ∧
      (l_period l ≠ 0%Z → l_next l = last_resync (l_period l) now (checks h) + l_period l)%Z.
  Proof.
    intros Hex0%PInv_exec Hns Hst Hex. set (P := effective _ _ _ _ _).
    assert (H1 : p_ls (h_proc s1) !! length (p_ls (h_proc s0)) = Some (Lst (default 0%Z (l_req <$> p_ls (h_proc s1) !! length (p_ls (h_proc s0)))) P (now + P)%Z
      (default [] (l_log <$> p_ls (h_proc s1) !! length (p_ls (h_proc s0)))))).
    { simpl in Hst. assert (∃ b, h_proc s1 = register second dflt (h_proc s0) req now b) as [b ->].
      { rewrite Hns in Hst. simpl in Hst. rewrite andb_true_r in Hst. destruct (p_started (h_proc s0)); [destruct (d_busy (i_q (h_inf s0)))|]; simplify_eq/=; by eexists. }
      destruct (register_spec _ req now b Hex0 Hns) as (r1 & check & -> & _). simpl. rewrite lookup_app_r, Nat.sub_diag by done. done. }
    assert (HP1 : PInv (h_proc s1)) by (by eapply proc_step).
    revert H1. generalize (length (p_ls (h_proc s0))) as i, (default 0%Z (l_req <$> p_ls (h_proc s1) !! length (p_ls (h_proc s0)))) as rq,
      (default [] (l_log <$> p_ls (h_proc s1) !! length (p_ls (h_proc s0)))) as lg. clearbody P. clear Hst Hex0 Hns. intros i rq lg H1.
    enough (PInv (h_proc s) ∧ ∃ l, p_ls (h_proc s) !! i = Some l ∧ l_period l = P ∧ (l_period l ≠ 0%Z → l_next l = last_resync (l_period l) now (checks h) + l_period l)%Z) by naive_solver.
    revert Hex. apply (exec_trace_inv hstep (λ h s, PInv (h_proc s) ∧ ∃ l, p_ls (h_proc s) !! i = Some l ∧ l_period l = P ∧
      (l_period l ≠ 0%Z → l_next l = last_resync (l_period l) now (checks h) + l_period l)%Z)).
    { split; [done|]. by eexists. }
    clear h s. intros h s c _ [HP (l & Hl & Hper & Hnx)]. destruct (hstep s c) as [s' r] eqn:Hst. cbn [fst snd]. destruct (proc_step _ _ _ _ HP Hst) as [HP' Hk]. split; [done|].
    destruct (Hk i l Hl) as (l' & Hl' & _ & Hper'). exists l'. split; [done|]. split; [congruence|]. intros Hnz. rewrite Hper' in *. specialize (Hnx Hnz).
    unfold checks in *. rewrite omap_app. unfold last_resync in *. rewrite foldl_app.
    assert (Hsame : (∀ t, c ≠ HShouldResync t) → l_next l' = l_next l → l_next l' = (foldl (λ t0 t, if bool_decide (t0 + l_period l <= t)%Z then t else t0)
       (foldl (λ t0 t, if bool_decide (t0 + l_period l <= t)%Z then t else t0) now (omap (λ e : hop K O * hres K O, match e.1 with HShouldResync t => Some t | _ => None end) h))
       (omap (λ e : hop K O * hres K O, match e.1 with HShouldResync t => Some t | _ => None end) [(c, r)]) + l_period l)%Z).
    { intros Hc ->. rewrite Hnx. csimpl. destruct c; try done. by destruct (Hc now0). }
    destruct c as [c|req1 now1| | |t]; try (apply Hsame; [done|]).
    - apply hinf_step in Hst as [(-> & _)|(x & r1 & _ & _ & _ & _ & [(n & _ & Hp)|[_ Hp]])]; [congruence| |rewrite Hp in Hl'; congruence].
      rewrite Hp in Hl'. simpl in Hl'. rewrite list_lookup_imap, Hl in Hl'. simpl in Hl'. injection Hl' as <-. by destruct (negb _ || _).
    - simpl in Hst. assert (∃ b, h_proc s' = h_proc s ∨ h_proc s' = register second dflt (h_proc s) req1 now1 b) as (b & [Hp|Hp]).
      { destruct (p_started (h_proc s) && negb (p_stopped (h_proc s))); [destruct (d_busy (i_q (h_inf s)))|]; injection Hst as <- <-; [by exists []; left|eexists; by right|eexists; by right]. }
      { rewrite Hp in Hl'. congruence. }
      rewrite Hp in Hl'. destruct (p_stopped (h_proc s)) eqn:Hstop; [unfold register in Hl'; rewrite Hstop in Hl'; congruence|].
      destruct (register_spec _ req1 now1 b HP Hstop) as (r1 & check & Hreg & _). rewrite Hreg in Hl'. simpl in Hl'.
      rewrite lookup_app_l in Hl' by (by eapply lookup_lt_Some). congruence.
    - simpl in Hst. injection Hst as <- <-. simpl in Hl'. congruence.
    - simpl in Hst. destruct (p_started (h_proc s)); injection Hst as <- <-; simpl in Hl'; congruence.
    - simpl in Hst. injection Hst as <- <-. simpl in Hl'. rewrite list_lookup_fmap, Hl in Hl'. simpl in Hl'. injection Hl' as <-. clear Hsame. csimpl.
      unfold due. rewrite (bool_decide_false (l_period l = 0%Z)) by done. simpl. rewrite Hnx.
      destruct (bool_decide_reflect (foldl (λ t0 t, if bool_decide (t0 + l_period l <= t)%Z then t else t0) now (omap (λ e : hop K O * hres K O, match e.1 with HShouldResync t => Some t | _ => None end) h) + l_period l <= t)%Z); simpl; [done|by rewrite Hnx].
  Qed.

  Lemma syncing_spec p t i : i ∈ p_syncing (should_resync (A:=notif) p t).1 ↔ ∃ l, p_ls p !! i = Some l ∧ due t l = true.
  Proof.
    unfold should_resync. simpl. rewrite elem_of_list_omap. split.
    - intros ([j l] & Hin & Hd). simpl in Hd. destruct (due t l) eqn:Hdue; [|done]. injection Hd as ->. apply elem_of_list_lookup in Hin as [j Hj].
      rewrite list_lookup_imap in Hj. apply fmap_Some in Hj as (l1 & Hl1 & Heq). simplify_eq. by exists l1.
    - intros (l & Hl & Hd). exists (i, l). simpl. rewrite Hd. split; [|done]. apply elem_of_list_lookup. exists i. by rewrite list_lookup_imap, Hl.
  Qed.
  Lemma resync_exactly fs h0 s0 req now s1 h s t s2 b : exec hstep (init fs) h0 s0 → p_stopped (h_proc s0) = false →
    hstep s0 (HRegister req now) = (s1, HNone) → exec hstep s1 h s → hstep s (HShouldResync t) = (s2, HBool b) →
    let P := effective second dflt (p_started (h_proc s0)) (p_check (h_proc s0)) req in
    length (p_ls (h_proc s0)) ∈ p_syncing (h_proc s2) ↔ (P ≠ 0 ∧ last_resync P now (checks h) + P ≤ t)%Z.
  Proof.
    intros Hex0 Hns Hst Hex Ht P. destruct (registered_period fs h0 s0 req now s1 h s Hex0 Hns Hst Hex) as (l & Hl & Hper & Hnx). fold P in Hper.
    assert (h_proc s2 = (should_resync (h_proc s) t).1) as -> by (simpl in Ht; by injection Ht as <- _). rewrite syncing_spec. unfold due. rewrite Hper in Hnx. split.
    - intros (l1 & Hl1 & Hd). rewrite Hl in Hl1. injection Hl1 as <-. rewrite Hper in Hd. apply andb_true_iff in Hd as [H1 H2].
      apply negb_true_iff, bool_decide_eq_false in H1. apply bool_decide_eq_true in H2. split; [done|]. by rewrite <-Hnx.
    - intros [H1 H2]. exists l. split; [done|]. rewrite Hper, bool_decide_false by done. simpl. apply bool_decide_eq_true. by rewrite Hnx.
  Qed.
  Lemma resync_answer s t s2 b : hstep s (HShouldResync t) = (s2, HBool b) → b = true ↔ p_syncing (h_proc s2) ≠ [].
  Proof. simpl. intros [= <- <-]. rewrite negb_true_iff. by rewrite bool_decide_eq_false. Qed.
  Lemma resync_spacing P t0 ts : (0 < P)%Z → (t0 ≤ last_resync P t0 ts)%Z ∧ (last_resync P t0 ts ≠ t0 → t0 + P ≤ last_resync P t0 ts)%Z.
  Proof.
    intros HP. unfold last_resync. revert t0. induction ts as [|t ts IH]; intros t0; simpl; [done|]. case_bool_decide; [|apply IH]. specialize (IH t). lia.
  Qed.
  Lemma effective_least started check req : (effective second dflt started check req = 0 ∨
    second ≤ effective second dflt started check req ∧ requested dflt req ≤ effective second dflt started check req ∧ (started = true → check ≤ effective second dflt started check req))%Z.
  Proof. unfold effective. repeat case_bool_decide; simpl; try (by left). right. destruct started; lia. Qed.

  Lemma check_minimum fs h s : exec hstep (init fs) h s → p_started (h_proc s) = false → p_check (h_proc s) = foldl Z.min dflt (requests second dflt h).
  Proof.
    intros Hex. assert (PInv (h_proc s) ∧ (p_started (h_proc s) = false → p_check (h_proc s) = foldl Z.min dflt (requests second dflt h))) as [_ H]; [|done]. revert Hex.
    apply (exec_trace_inv hstep (λ h s, PInv (h_proc s) ∧ (p_started (h_proc s) = false → p_check (h_proc s) = foldl Z.min dflt (requests second dflt h)))).
    { by split. }
    clear h s. intros h s c _ [HP IH]. destruct (hstep s c) as [s' r] eqn:Hst. cbn [fst snd]. destruct (proc_step _ _ _ _ HP Hst) as [HP' _]. split; [done|]. intros Hs'. unfold requests in *. rewrite omap_app, foldl_app.
    destruct c as [c|req now| | |t].
    - apply hinf_step in Hst as [(-> & _)|(x & r1 & _ & _ & _ & _ & [(n & _ & Hp)|[_ Hp]])]; [by apply IH|rewrite Hp in *; by apply IH|rewrite Hp in *; by apply IH].
    - simpl in Hst. assert (p_started (h_proc s) = false) as Hs.
      { destruct (p_started (h_proc s)) eqn:Hs; [|done]. destruct (p_stopped (h_proc s)) eqn:Hstop; simpl in Hst; [|destruct (d_busy (i_q (h_inf s)))]; injection Hst as <- <-; simpl in Hs'.
        - unfold register in Hs'. rewrite Hstop in Hs'. congruence.
        - congruence.
        - destruct (register_spec _ req now ((λ o, NAdd o false) <$> dvals (s_items (i_st (h_inf s)))) HP Hstop) as (r1 & check & Hreg & _). rewrite Hreg in Hs'. simpl in Hs'. congruence. }
      assert (Hstop : p_stopped (h_proc s) = false) by (destruct HP as [Hss _]; destruct (p_stopped (h_proc s)); [by rewrite Hss in Hs|done]).
      rewrite Hs in Hst. simpl in Hst. injection Hst as <- <-. cbn [h_proc]. destruct (register_spec _ req now [] HP Hstop) as (r1 & check & -> & Hc & _). rewrite Hs in Hc. cbn [p_check]. subst check.
      csimpl. rewrite <-(IH Hs). by case_bool_decide.
    - by injection Hst as <- <-.
    - simpl in Hst. destruct (p_started (h_proc s)) eqn:Hs; injection Hst as <- <-; simpl in Hs'; [congruence|by apply IH].
    - simpl in Hst. injection Hst as <- <-. simpl in *. by apply IH.
  Qed.
  Lemma check_fixed fs h0 s0 h s : exec hstep (init fs) h0 s0 → p_started (h_proc s0) = true → exec hstep s0 h s → p_check (h_proc s) = p_check (h_proc s0).
  Proof.
    intros HP0%PInv_exec Hs0 Hex. enough (PInv (h_proc s) ∧ p_started (h_proc s) = true ∧ p_check (h_proc s) = p_check (h_proc s0)) by tauto. revert Hex.
    apply (exec_inv hstep (λ s, PInv (h_proc s) ∧ p_started (h_proc s) = true ∧ p_check (h_proc s) = p_check (h_proc s0))); [|done]. clear h s.
    intros s c (HP & Hs & Hc). destruct (hstep s c) as [s' r] eqn:Hst. simpl. destruct (proc_step _ _ _ _ HP Hst) as [HP' _]. split; [done|]. rewrite <-Hc.
    destruct c as [c|req now| | |t].
    - apply hinf_step in Hst as [(-> & _)|(x & r1 & _ & _ & _ & _ & [(n & _ & Hp)|[_ Hp]])]; [done|by rewrite Hp..].
    - simpl in Hst. rewrite Hs in Hst. destruct (p_stopped (h_proc s)) eqn:Hstop; simpl in Hst; [|destruct (d_busy (i_q (h_inf s)))]; injection Hst as <- <-; cbn [h_proc].
      + unfold register. by rewrite Hstop.
      + done.
      + destruct (register_spec _ req now ((λ o, NAdd o false) <$> dvals (s_items (i_st (h_inf s)))) HP Hstop) as (r1 & check & -> & -> & _). by rewrite Hs.
    - by injection Hst as <- <-.
    - simpl in Hst. rewrite Hs in Hst. by injection Hst as <- <-.
    - simpl in Hst. by injection Hst as <- <-.
  Qed.
End proofs.
