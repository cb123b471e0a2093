From Verif Require Import Base Fifo_model Fifo_spec.

Section proofs.
  Context {K O : Type} `{EqDecision K} (keyf : O → option K).
  Notation hist := (list (fop K O * fres K O)).
  Implicit Types (s : fifo K O) (h : hist) (k : K) (o : O).

  Lemma skip_stale_spec (items : dict K O) queue c q' c' found :
    skip_stale items queue c = (q', c', found) →
    ∃ pre, (∀ k, k ∈ pre → dget k items = None) ∧
      match found with
      | None => q' = [] ∧ pre = queue ∧ c' = c - length queue
      | Some (k, o) => queue = pre ++ k :: q' ∧ dget k items = Some o ∧ c' = c - S (length pre)
      end.
  Proof.
    revert c. induction queue as [|k queue IH]; intros c; simpl.
    - intros; simplify_eq. exists []. split; [by intros k ?%elem_of_nil|]. split; [done|]. split; [done|]. simpl. lia.
    - destruct (dget k items) as [o|] eqn:Hk.
      + intros; simplify_eq. exists []. split; [by intros ? ?%elem_of_nil|]. split; [done|]. split; [done|]. simpl. lia.
      + intros (pre & Hpre & Hf)%IH. exists (k :: pre). split.
        { intros k' [->|?]%elem_of_cons; [done|by apply Hpre]. }
        destruct found as [[k' o']|].
        * destruct Hf as (-> & ? & ->). split; [done|]. split; [done|]. simpl. lia.
        * destruct Hf as (-> & -> & ->). split; [done|]. split; [done|]. simpl. lia.
  Qed.

  Lemma last_with_key_snoc k l o :
    last_with_key keyf k (l ++ [o]) = if decide (keyf o = Some k) then Some o else last_with_key keyf k l.
  Proof.
    unfold last_with_key. rewrite filter_app. simpl. case_decide.
    - rewrite filter_cons, decide_True by done. rewrite filter_nil. by rewrite last_snoc.
    - rewrite filter_cons, decide_False by done. rewrite filter_nil. by rewrite app_nil_r.
  Qed.
  Lemma last_with_key_cons k l o :
    last_with_key keyf k (o :: l) = match last_with_key keyf k l with
      | Some o' => Some o' | None => if decide (keyf o = Some k) then Some o else None end.
  Proof.
    unfold last_with_key. rewrite filter_cons. destruct (decide (keyf o = Some k)).
    - rewrite last_cons. done.
    - by destruct (last _).
  Qed.
  Lemma last_with_key_key k l o : last_with_key keyf k l = Some o → keyf o = Some k ∧ o ∈ l.
  Proof.
    unfold last_with_key. intros Hl%last_Some_elem_of. by apply elem_of_list_filter in Hl.
  Qed.
  Lemma last_with_key_None k l : last_with_key keyf k l = None ↔ ∀ o, o ∈ l → keyf o ≠ Some k.
  Proof.
    unfold last_with_key. rewrite last_None. split.
    - intros Hf o Hin Hk. assert (o ∈ filter (λ o, keyf o = Some k) l) as Hx by (by apply elem_of_list_filter).
      rewrite Hf in Hx. by apply elem_of_nil in Hx.
    - intros Hall. destruct (filter _ l) as [|o f] eqn:Hf; [done|].
      assert (o ∈ filter (λ o, keyf o = Some k) l) as Hx by (rewrite Hf; left).
      apply elem_of_list_filter in Hx as [??]. naive_solver.
  Qed.

  Lemma index_items_spec l acc items : index_items keyf l acc = inl items → dwf acc →
    dwf items ∧ ∀ k, dget k items = match last_with_key keyf k l with Some o => Some o | None => dget k acc end.
  Proof.
    revert acc. induction l as [|o l IH]; intros acc; simpl.
    - intros; simplify_eq. split; [done|]. done.
    - destruct (keyf o) as [ko|] eqn:Hko; [|done]. intros Hi Hwf.
      destruct (IH _ Hi (dwf_dset ko o acc Hwf)) as [Hwf' Hg]. split; [done|].
      intros k. rewrite Hg, last_with_key_cons. destruct (last_with_key keyf k l); [done|].
      rewrite dget_dset. destruct (decide (k = ko)) as [->|].
      + by rewrite decide_True.
      + rewrite decide_False; [done|]. congruence.
  Qed.
  Lemma index_items_ok l acc items : index_items keyf l acc = inl items → ∀ o, o ∈ l → is_Some (keyf o).
  Proof.
    revert acc. induction l as [|o l IH]; intros acc; simpl; [by intros _ o ?%elem_of_nil|].
    destruct (keyf o) as [ko|] eqn:Hko; [|done]. intros Hi o' [->|?]%elem_of_cons; [by rewrite Hko|]. by eapply IH.
  Qed.
  Lemma index_items_err l acc o : index_items keyf l acc = inr o → o ∈ l ∧ keyf o = None.
  Proof.
    revert acc. induction l as [|o' l IH]; intros acc; simpl; [done|].
    destruct (keyf o') as [ko|] eqn:Hko.
    - intros [??]%IH. split; [by right|done].
    - intros; simplify_eq. split; [left|done].
  Qed.
  Lemma index_items_keys l items : index_items keyf l [] = inl items → dkeys items ≡ₚ distinct_keys keyf l.
  Proof.
    intros Hi. destruct (index_items_spec _ _ _ Hi dwf_nil) as [Hwf Hg].
    apply NoDup_Permutation; [exact Hwf|apply NoDup_remove_dups|].
    intros k. unfold distinct_keys. rewrite elem_of_remove_dups, elem_of_list_omap, elem_of_dkeys, Hg.
    change (dget k []) with (@None O) at 1.
    destruct (last_with_key keyf k l) as [o|] eqn:Hl.
    - apply last_with_key_key in Hl as [??]. split; [by eexists|by eexists].
    - pose proof (proj1 (last_with_key_None k l) Hl) as Hn. split.
      + intros [? Hx]. by vm_compute in Hx.
      + intros (o & Hin & Hk). by destruct (Hn o Hin).
  Qed.

  Record FI (h : hist) (s : fifo K O) : Prop := {
    fi_wf : dwf (f_items s);
    fi_stored k : dget k (f_items s) = stored keyf k (reverse h);
    fi_key k o : dget k (f_items s) = Some o → keyf o = Some k;
    fi_queue k : k ∈ dkeys (f_items s) → k ∈ f_queue s
  }.

  Lemma FI_init : FI [] fifo_init.
  Proof.
    split; simpl; try done. apply dwf_nil.
  Qed.

  Lemma FI_same h s c r s' : FI h s → f_items s' = f_items s → (∀ k, k ∈ dkeys (f_items s) → k ∈ f_queue s') →
    (∀ k, stored keyf k (reverse (h ++ [(c, r)])) = stored keyf k (reverse h)) → FI (h ++ [(c, r)]) s'.
  Proof.
    intros [H1 H2 H3 H4] Hi Hq Hst. split; rewrite ?Hi; try done. intros k. by rewrite Hst, <-H2.
  Qed.

  Lemma FI_step h s c : FI h s → FI (h ++ [(c, (fstep keyf s c).2)]) (fstep keyf s c).1.
  Proof.
    intros HI. pose proof HI as [H1 H2 H3 H4]. unfold fstep.
    assert (Hrev : ∀ e, reverse (h ++ [e]) = e :: reverse h) by (intros; by rewrite reverse_snoc).
    assert (Hset : ∀ k0 o (q : list K), keyf o = Some k0 → (∀ k, k ∈ dkeys (f_items s) → k ∈ q) → k0 ∈ q →
      dwf (dset k0 o (f_items s)) ∧ (∀ k o', dget k (dset k0 o (f_items s)) = Some o' → keyf o' = Some k) ∧
      (∀ k, k ∈ dkeys (dset k0 o (f_items s)) → k ∈ q)).
    { intros k0 o q Hk Hq1 Hq2. split; [by apply dwf_dset|]. split.
      - intros k o'. rewrite dget_dset. destruct (decide (k = k0)) as [->|]; [intros; by simplify_eq|apply H3].
      - intros k. rewrite elem_of_dkeys, dget_dset. destruct (decide (k = k0)) as [->|]; [done|].
        intros ?%elem_of_dkeys. by apply Hq1. }
    destruct c as [o|o|o| | |o|k|l| |p|o| | |]; simpl.
    1,2: destruct (keyf o) as [k0|] eqn:Hk; simpl; [|by apply FI_same with s; try done; intros k; rewrite Hrev];
      destruct (Hset k0 o (if decide (k0 ∈ dkeys (f_items s)) then f_queue s else f_queue s ++ [k0])) as (? & ? & ?);
        [done|intros k Hin; case_decide; [by apply H4|apply elem_of_app; left; by apply H4]
        |case_decide; [by apply H4|set_solver]|];
      split; simpl; try done; intros k; rewrite Hrev; simpl; rewrite dget_dset, Hk;
      destruct (decide (k = k0)) as [->|]; [by rewrite decide_True|rewrite decide_False by congruence; apply H2].
    - destruct (keyf o) as [k0|] eqn:Hk; simpl; [|by apply FI_same with s; try done; intros k; rewrite Hrev].
      unfold fifo_delete. case_decide as Hin; simpl.
      + split; simpl.
        * by apply dwf_ddel.
        * intros k. rewrite Hrev; simpl. rewrite dget_ddel, Hk.
          destruct (decide (k = k0)) as [->|]; [by rewrite decide_True|rewrite decide_False by congruence; apply H2].
        * intros k o'. rewrite dget_ddel. case_decide; [done|apply H3].
        * intros k. rewrite elem_of_dkeys, dget_ddel. case_decide; [by intros [??]|]. intros ?%elem_of_dkeys. by apply H4.
      + apply FI_same with s; try done. intros k; by rewrite Hrev.
    - apply FI_same with s; try done. intros k; by rewrite Hrev.
    - apply FI_same with s; try done. intros k; by rewrite Hrev.
    - destruct (keyf o); apply FI_same with s; try done; intros ?; by rewrite Hrev.
    - apply FI_same with s; try done. intros k'; by rewrite Hrev.
    - destruct (index_items keyf l []) as [items|o] eqn:Hi; simpl; [|apply FI_same with s; try done; intros k; by rewrite Hrev].
      destruct (index_items_spec _ _ _ Hi dwf_nil) as [Hwf Hg]. split; simpl; try done.
      + intros k. rewrite Hrev; simpl. rewrite Hg. destruct (last_with_key keyf k l); [done|]. by vm_compute.
      + intros k o. rewrite Hg. destruct (last_with_key keyf k l) as [o'|] eqn:Hl; [|by vm_compute].
        intros; simplify_eq. by apply last_with_key_key in Hl as [??].
    - apply FI_same with s; try done.
      + intros k Hk. simpl. apply elem_of_app. left. by apply H4.
      + intros k; by rewrite Hrev.
    - unfold fifo_pop. destruct (skip_stale (f_items s) (f_queue s) (f_count s)) as [[q' c'] found] eqn:Hs.
      destruct (skip_stale_spec _ _ _ _ _ _ Hs) as (pre & Hpre & Hf). destruct found as [[k0 o]|].
      + destruct Hf as (Hq & Hk & ->). pose proof (H3 _ _ Hk) as Hko.
        assert (Hrest : ∀ k, k ≠ k0 → k ∈ dkeys (f_items s) → k ∈ q').
        { intros k Hne Hin. pose proof (H4 k Hin) as Hx. rewrite Hq in Hx. apply elem_of_app in Hx as [Hx|[->|Hx]%elem_of_cons]; try done.
          apply Hpre in Hx. apply elem_of_dkeys in Hin as [? ?]. congruence. }
        assert (Hdel : ∀ c r, (∀ k, stored keyf k (reverse (h ++ [(c, r)])) = if decide (keyf o = Some k) then None else stored keyf k (reverse h)) →
          FI (h ++ [(c, r)]) (FIFO (ddel k0 (f_items s)) q' (f_populated s) (f_count s - S (length pre)) (f_closed s))).
        { intros c r Hst. split; simpl.
          - by apply dwf_ddel.
          - intros k. rewrite dget_ddel, Hst, Hko.
            destruct (decide (k = k0)) as [->|]; [by rewrite decide_True|rewrite decide_False by congruence; apply H2].
          - intros k o'. rewrite dget_ddel. case_decide; [done|apply H3].
          - intros k. rewrite elem_of_dkeys, dget_ddel. case_decide; [by intros [??]|]. intros ?%elem_of_dkeys. by apply Hrest. }
        destruct (p o) as [|cause|] eqn:Hp; simpl.
        * apply Hdel. intros k. rewrite Hrev; simpl. case_decide; [|done]. rewrite decide_False; [done|]. intros [??]; congruence.
        * unfold fifo_add_if_not_present; simpl. rewrite decide_False.
          2: { rewrite elem_of_dkeys, dget_ddel, decide_True by done. by intros [??]. }
          simpl. assert (FI (h ++ [(FPop p, if cause then FProcessError o else FItem o)])
            (FIFO (dset k0 o (ddel k0 (f_items s))) (q' ++ [k0]) true (f_count s - S (length pre)) (f_closed s))) as HF; [|by destruct cause].
          split; simpl.
          -- by apply dwf_dset, dwf_ddel.
          -- intros k. assert (stored keyf k (reverse (h ++ [(FPop p, if cause then FProcessError o else FItem o)])) =
               if decide (keyf o = Some k) then Some o else stored keyf k (reverse h)) as ->.
             { rewrite Hrev. destruct cause; simpl; (case_decide; [|done]); rewrite decide_True; try done; by eexists. }
             rewrite dget_dset, dget_ddel, Hko.
             destruct (decide (k = k0)) as [->|]; [by rewrite decide_True|rewrite decide_False by congruence; apply H2].
          -- intros k o'. rewrite dget_dset, dget_ddel. destruct (decide (k = k0)) as [->|]; [intros; by simplify_eq|apply H3].
          -- intros k. rewrite elem_of_dkeys, dget_dset, dget_ddel, elem_of_app, elem_of_list_singleton.
             destruct (decide (k = k0)) as [->|]; [by right|]. intros ?%elem_of_dkeys. left. by apply Hrest.
        * apply Hdel. intros k. rewrite Hrev; simpl. case_decide; [|done]. rewrite decide_False; [done|]. intros [??]; congruence.
      + destruct Hf as (-> & -> & ->).
        assert (∀ r, r = FClosedError ∨ r = FBlocked → FI (h ++ [(FPop p, r)])
          (FIFO (f_items s) [] (f_populated s) (f_count s - length (f_queue s)) (f_closed s))) as HF.
        { intros r Hr. apply FI_same with s; try done.
          - intros k Hin. pose proof (Hpre k (H4 k Hin)). apply elem_of_dkeys in Hin as [??]. congruence.
          - intros k. rewrite Hrev; simpl. by destruct Hr as [-> | ->]. }
        simpl. apply HF. destruct (f_closed s); auto.
    - destruct (keyf o) as [k0|] eqn:Hk; simpl; [|by apply FI_same with s; try done; intros k; rewrite Hrev].
      unfold fifo_add_if_not_present. case_decide as Hin; simpl.
      + apply FI_same with s; try done. intros k. rewrite Hrev; simpl. rewrite Hk.
        destruct (decide (Some k0 = Some k)) as [Heq|]; [|done]. simplify_eq. apply elem_of_dkeys in Hin as [o' Ho'].
        rewrite H2 in Ho'. by rewrite Ho'.
      + destruct (Hset k0 o (f_queue s ++ [k0])) as (? & ? & ?);
          [done|intros k Hk'; apply elem_of_app; left; by apply H4|set_solver|].
        split; simpl; try done. intros k; rewrite Hrev; simpl; rewrite dget_dset, Hk.
        destruct (decide (k = k0)) as [->|].
        * rewrite decide_True by done. apply not_elem_of_dkeys in Hin. rewrite H2 in Hin. by rewrite Hin.
        * rewrite decide_False by congruence. apply H2.
    - apply FI_same with s; try done. intros k; by rewrite Hrev.
    - apply FI_same with s; try done. intros k; by rewrite Hrev.
    - apply FI_same with s; try done. intros k; by rewrite Hrev.
  Qed.

  Lemma FI_exec h s : exec (fstep keyf) fifo_init h s → FI h s.
  Proof.
    apply (exec_trace_inv (fstep keyf) FI); [apply FI_init|]. intros h' s' c _. apply FI_step.
  Qed.

  (** ** C18 *)
  Lemma fifo_reads h s : exec (fstep keyf) fifo_init h s →
    (∀ k, (fstep keyf s (FGetByKey k)).2 = FOpt (stored keyf k (reverse h))) ∧
    (∃ ks, (fstep keyf s FListKeys).2 = FKeys ks ∧ NoDup ks ∧ ∀ k, k ∈ ks ↔ is_Some (stored keyf k (reverse h))).
  Proof.
    intros HI%FI_exec. destruct HI as [H1 H2 H3 H4]. split; simpl.
    - intros k. by rewrite H2.
    - eexists. split; [done|]. split; [done|]. intros k. by rewrite elem_of_dkeys, H2.
  Qed.

  Lemma fifo_pop_latest h s p o : exec (fstep keyf) fifo_init h s →
    (fstep keyf s (FPop p)).2 = FItem o ∨ (fstep keyf s (FPop p)).2 = FProcessError o →
    ∃ k, keyf o = Some k ∧ stored keyf k (reverse h) = Some o.
  Proof.
    intros HI%FI_exec. destruct HI as [H1 H2 H3 H4]. unfold fstep; simpl. unfold fifo_pop.
    destruct (skip_stale _ _ _) as [[q' c'] found] eqn:Hs.
    destruct (skip_stale_spec _ _ _ _ _ _ Hs) as (pre & Hpre & Hf). destruct found as [[k0 o0]|]; simpl.
    - destruct Hf as (Hq & Hk & ->). intros Hr. assert (o0 = o) as ->.
      { destruct (p o0) as [|cause|]; simpl in Hr; [naive_solver| |naive_solver].
        unfold fifo_add_if_not_present in Hr. case_decide; destruct cause; simpl in Hr; naive_solver. }
      exists k0. split; [by apply H3|]. by rewrite <-H2.
    - destruct (f_closed s); naive_solver.
  Qed.

  #[local] Instance stores_dec k e : Decision (stores keyf k e).
  Proof.
    destruct e as [c r]. destruct c as [o|o|o| | |o|k'|l| |p|o| | |], r; simpl; try (right; tauto); try apply _.
    destruct (decide (Exists (λ o, keyf o = Some k) l)) as [He|He]; [left|right]; by rewrite <-Exists_exists.
  Qed.
  Lemma stored_app k h1 h2 : (∀ e, e ∈ h2 → ¬ stores keyf k e) → stored keyf k (reverse h1) = None →
    stored keyf k (reverse (h1 ++ h2)) = None.
  Proof.
    induction h2 as [|e h2 IH] using rev_ind; intros Hns Hn; [by rewrite app_nil_r|].
    rewrite app_assoc, reverse_snoc.
    assert (stored keyf k (reverse (h1 ++ h2)) = None) as IH' by (apply IH; [intros e' ?; apply Hns; set_solver|done]).
    assert (Hne : ¬ stores keyf k e) by (apply Hns; set_solver).
    destruct e as [c r]. destruct c, r; simpl in *; try done; repeat case_decide; try done.
    - apply last_with_key_None. intros o Hin Ho. apply Hne. by exists o.
    - by destruct Hne.
    - by destruct Hne.
  Qed.

  (** delivered (without being put back), then delivered again *)
  Lemma fifo_once h1 h2 h3 s e1 o1 e2 o2 k :
    exec (fstep keyf) fifo_init (h1 ++ e1 :: h2 ++ e2 :: h3) s →
    hands_out o1 e1 → hands_out o2 e2 → keyf o1 = Some k → keyf o2 = Some k →
    ∃ e, e ∈ e1 :: h2 ∧ stores keyf k e.
  Proof.
    intros Hex [p1 He1] [p2 He2] Hk1 Hk2.
    replace (h1 ++ e1 :: h2 ++ e2 :: h3) with ((h1 ++ [e1] ++ h2) ++ e2 :: h3) in Hex by (by rewrite <-!app_assoc).
    apply exec_app in Hex as (m & Hm & Hex). destruct e2 as [c2 r2]. apply exec_cons_iff in Hex as (m' & Hst & _).
    destruct (fifo_pop_latest _ _ p2 o2 Hm) as (k' & Hk' & Hst').
    { destruct He2 as [He2|He2]; simplify_eq; rewrite Hst; auto. }
    assert (k' = k) as -> by congruence.
    destruct (decide (put_back p1 o1)) as [Hpb|Hpb].
    { exists e1. split; [left|]. destruct He1 as [-> | ->]; simpl; auto. }
    destruct (decide (Exists (stores keyf k) h2)) as [(e & ? & ?)%Exists_exists|Hno].
    { exists e. split; [by right|done]. }
    exfalso. rewrite app_assoc in Hst'.
    rewrite stored_app in Hst'; [done| |].
    - intros e Hin Hse. apply Hno. apply Exists_exists. eauto.
    - rewrite reverse_snoc. destruct He1 as [-> | ->]; simpl; rewrite decide_True by done; by rewrite decide_False.
  Qed.

  (** ** Draining *)
  Record SI (s : fifo K O) : Prop := {
    si_wf : dwf (f_items s);
    si_key k o : dget k (f_items s) = Some o → keyf o = Some k;
    si_queue k : k ∈ dkeys (f_items s) → k ∈ f_queue s
  }.
  Lemma FI_SI h s : FI h s → SI s.
  Proof. by intros []. Qed.

  Lemma drain_from p : (∀ o, ¬ put_back p o) → ∀ n s, length (f_queue s) ≤ n → SI s →
    ∃ l s', exec (fstep keyf) s ((λ o, (FPop p, plain_answer p o)) <$> l) s' ∧ NoDup l ∧
      (∀ o, o ∈ l ↔ ∃ k, dget k (f_items s) = Some o) ∧
      (fstep keyf s' (FPop p)).2 = (if f_closed s then FClosedError else FBlocked) ∧
      (NoDup (f_queue s) → (∀ k, k ∈ f_queue s → k ∈ dkeys (f_items s)) → keyf <$> l = Some <$> f_queue s).
  Proof.
    intros Hp. induction n as [|n IH]; intros s Hlen [H1 H3 H4].
    - exists [], s. assert (f_queue s = []) as Hq by (apply nil_length_inv; lia). split; [constructor|].
      split; [constructor|]. split.
      { intros o. split; [by intros ?%elem_of_nil|]. intros (k & Hk).
        assert (k ∈ dkeys (f_items s)) as Hin by (apply elem_of_dkeys; by rewrite Hk).
        apply H4 in Hin. rewrite Hq in Hin. by apply elem_of_nil in Hin. }
      split; [|by rewrite Hq]. unfold fstep; simpl. unfold fifo_pop. rewrite Hq. by simpl.
    - destruct (skip_stale (f_items s) (f_queue s) (f_count s)) as [[q' c'] found] eqn:Hs.
      destruct (skip_stale_spec _ _ _ _ _ _ Hs) as (pre & Hpre & Hf). destruct found as [[k0 o0]|].
      + destruct Hf as (Hq & Hk & ->).
        set (s1 := FIFO (ddel k0 (f_items s)) q' (f_populated s) (f_count s - S (length pre)) (f_closed s)).
        assert (Hstep : fstep keyf s (FPop p) = (s1, plain_answer p o0)).
        { unfold fstep; simpl. unfold fifo_pop. rewrite Hs. unfold plain_answer.
          specialize (Hp o0). destruct (p o0) as [|c|] eqn:Hpo; try done. by destruct Hp; exists c. }
        destruct (IH s1) as (l & s' & Hex & Hnd & Hl & Hend & Hord).
        { simpl. rewrite Hq, app_length in Hlen. simpl in Hlen. lia. }
        { split; simpl.
          - by apply dwf_ddel.
          - intros k o. rewrite dget_ddel. case_decide; [done|apply H3].
          - intros k. rewrite elem_of_dkeys, dget_ddel. case_decide as Hne; [by intros [??]|]. intros Hin%elem_of_dkeys.
            pose proof (H4 k Hin) as Hx. rewrite Hq in Hx. apply elem_of_app in Hx as [Hx|[->|Hx]%elem_of_cons]; try done.
            apply Hpre in Hx. apply elem_of_dkeys in Hin as [? ?]. congruence. }
        exists (o0 :: l), s'. split; [|split; [|split; [|split]]].
        * csimpl. econstructor; [exact Hstep|done].
        * constructor; [|done]. rewrite Hl. simpl. intros (k & Hkk). rewrite dget_ddel in Hkk. case_decide as Hne; [done|].
          apply Hne. apply H3 in Hkk. apply H3 in Hk. congruence.
        * intros o. rewrite elem_of_cons, Hl. simpl. split.
          -- intros [->|(k & Hkk)]; [eauto|]. rewrite dget_ddel in Hkk. case_decide; [done|eauto].
          -- intros (k & Hkk). destruct (decide (k = k0)) as [->|]; [left; congruence|right].
             exists k. by rewrite dget_ddel, decide_False.
        * done.
        * intros Hnq Hall. assert (pre = []) as ->.
          { destruct pre as [|k1 pre]; [done|]. assert (k1 ∈ dkeys (f_items s)) as Hin by (apply Hall; rewrite Hq; left).
            apply elem_of_dkeys in Hin as [??]. specialize (Hpre k1 ltac:(left)). congruence. }
          simpl in Hq. rewrite Hq. csimpl. rewrite Hq in Hnq. apply NoDup_cons in Hnq as [Hni Hnq].
          f_equal; [by apply H3|]. apply Hord; [done|]. simpl. intros k Hin. rewrite elem_of_dkeys, dget_ddel.
          case_decide; [by subst|]. apply elem_of_dkeys, Hall. rewrite Hq. by right.
      + destruct Hf as (-> & -> & ->). exists [], s. split; [constructor|]. split; [constructor|]. split; [|split].
        * intros o. split; [by intros ?%elem_of_nil|]. intros (k & Hk).
          assert (k ∈ dkeys (f_items s)) as Hin by (apply elem_of_dkeys; by rewrite Hk).
          apply H4, Hpre in Hin. congruence.
        * unfold fstep; simpl. unfold fifo_pop. by rewrite Hs.
        * intros Hnq Hall. destruct (f_queue s) as [|k1 q]; [done|].
          assert (k1 ∈ dkeys (f_items s)) as Hin by (apply Hall; left).
          apply elem_of_dkeys in Hin as [??]. specialize (Hpre k1 ltac:(left)). congruence.
  Qed.

  Lemma closed_step s c : f_closed (fstep keyf s c).1 = match c with FClose => true | _ => f_closed s end.
  Proof.
    unfold fstep. destruct c as [o|o|o| | |o|k|l| |p|o| | |]; simpl; try done; try (by destruct (keyf o)).
    - destruct (keyf o); [|done]. unfold fifo_delete. by case_decide.
    - by destruct (index_items keyf l []).
    - unfold fifo_pop. destruct (skip_stale _ _ _) as [[q c] [[k o]|]]; [|done]. simpl. destruct (p o); try done.
      unfold fifo_add_if_not_present. by case_decide.
    - destruct (keyf o); [|done]. unfold fifo_add_if_not_present. by case_decide.
  Qed.
  Lemma closed_exec s h s' : exec (fstep keyf) s h s' → f_closed s' = true ↔ f_closed s = true ∨ ∃ r, (FClose, r) ∈ h.
  Proof.
    induction 1 as [s|s c r s1 h s2 Hst Hex IH].
    - split; [by left|]. intros [?|[? Hx]]; [done|]. by apply elem_of_nil in Hx.
    - rewrite IH. pose proof (closed_step s c) as Hc. rewrite Hst in Hc. simpl in Hc. rewrite Hc. split.
      + intros [Hx|[r' Hx]]; [|right; exists r'; by right]. destruct c; auto. right. exists r. left.
      + intros [Hx|[r' [Hx|Hx]%elem_of_cons]]; [left; by destruct c|simplify_eq; by left|right; eauto].
  Qed.

  Lemma fifo_drain h s p : exec (fstep keyf) fifo_init h s → (∀ o, ¬ put_back p o) →
    ∃ l s', exec (fstep keyf) s ((λ o, (FPop p, plain_answer p o)) <$> l) s' ∧ NoDup l ∧
      (∀ o, o ∈ l ↔ ∃ k, stored keyf k (reverse h) = Some o) ∧ found_nothing (FPop p, (fstep keyf s' (FPop p)).2).
  Proof.
    intros HI%FI_exec Hp. destruct (drain_from p Hp _ s (Nat.le_refl _) (FI_SI _ _ HI)) as (l & s' & Hex & Hnd & Hl & Hend & _).
    exists l, s'. split; [done|]. split; [done|]. split.
    - intros o. rewrite Hl. by setoid_rewrite (fi_stored _ _ HI).
    - exists p. rewrite Hend. destruct (f_closed s); auto.
  Qed.

  (** ** C19 *)
  Lemma fifo_delete_stops h1 h2 h3 s e1 e2 o k :
    exec (fstep keyf) fifo_init (h1 ++ e1 :: h2 ++ e2 :: h3) s →
    deletes keyf k e1 → hands_out o e2 → keyf o = Some k → ∃ e, e ∈ h2 ∧ stores keyf k e.
  Proof.
    intros Hex (o1 & -> & Ho1) [p2 He2] Hk2.
    replace (h1 ++ (FDelete o1, FNone) :: h2 ++ e2 :: h3) with ((h1 ++ [(FDelete o1, FNone)] ++ h2) ++ e2 :: h3) in Hex by (by rewrite <-!app_assoc).
    apply exec_app in Hex as (m & Hm & Hex). destruct e2 as [c2 r2]. apply exec_cons_iff in Hex as (m' & Hst & _).
    destruct (fifo_pop_latest _ _ p2 o Hm) as (k' & Hk' & Hst').
    { destruct He2 as [He2|He2]; simplify_eq; rewrite Hst; auto. }
    assert (k' = k) as -> by congruence.
    destruct (decide (Exists (stores keyf k) h2)) as [(e & ? & ?)%Exists_exists|Hno]; [by exists e|].
    exfalso. rewrite app_assoc in Hst'. rewrite stored_app in Hst'; [done| |].
    - intros e Hin Hse. apply Hno. apply Exists_exists. eauto.
    - rewrite reverse_snoc. simpl. by rewrite decide_True.
  Qed.
  Lemma fifo_delete_absent h s o k : exec (fstep keyf) fifo_init h s → keyf o = Some k →
    ((fstep keyf s (FDelete o)).2 = FKeyError ↔ stored keyf k (reverse h) = None) ∧
    (stored keyf k (reverse h) = None → ∀ j, (fstep keyf (fstep keyf s (FDelete o)).1 (FGetByKey j)).2 = (fstep keyf s (FGetByKey j)).2).
  Proof.
    intros HI%FI_exec Hk. rewrite <-(fi_stored _ _ HI). unfold fstep; simpl. rewrite Hk. unfold fifo_delete.
    case_decide as Hin; simpl.
    - apply elem_of_dkeys in Hin as [o' Ho']. rewrite Ho'. split; [done|]. done.
    - apply not_elem_of_dkeys in Hin. split; [done|]. done.
  Qed.

  (** ** C21 *)
  Lemma fifo_resync_noop h s : exec (fstep keyf) fifo_init h s → fstep keyf s FResync = (s, FNone).
  Proof.
    intros HI%FI_exec. unfold fstep; simpl. f_equal. unfold fifo_resync.
    assert (filter (λ k, k ∉ f_queue s) (dkeys (f_items s)) = []) as ->.
    { destruct (filter _ (dkeys (f_items s))) as [|k f] eqn:Hf; [done|].
      assert (k ∈ filter (λ k, k ∉ f_queue s) (dkeys (f_items s))) as Hx by (rewrite Hf; left).
      apply elem_of_list_filter in Hx as [Hn Hin]. by apply (fi_queue _ _ HI) in Hin. }
    rewrite app_nil_r. by destruct s.
  Qed.

  (** ** C22 *)
  Lemma fifo_pop_outcome h s p o : exec (fstep keyf) fifo_init h s → hands_out o (FPop p, (fstep keyf s (FPop p)).2) →
    ∃ k, keyf o = Some k ∧ let s' := (fstep keyf s (FPop p)).1 in
      (fstep keyf s (FPop p)).2 = match p o with POk | PRequeue false => FItem o | _ => FProcessError o end ∧
      (fstep keyf s' (FGetByKey k)).2 = FOpt (match p o with PRequeue _ => Some o | _ => None end) ∧
      (∀ j, j ≠ k → (fstep keyf s' (FGetByKey j)).2 = (fstep keyf s (FGetByKey j)).2).
  Proof.
    intros HI%FI_exec [p' Hh]. destruct HI as [H1 H2 H3 H4].
    unfold fstep in *; simpl in *. unfold fifo_pop in *.
    destruct (skip_stale _ _ _) as [[q' c'] found] eqn:Hs.
    destruct (skip_stale_spec _ _ _ _ _ _ Hs) as (pre & Hpre & Hf). destruct found as [[k0 o0]|]; simpl in *.
    2: { destruct (f_closed s); naive_solver. }
    destruct Hf as (Hq & Hk & ->). assert (o0 = o) as ->.
    { destruct (p o0) as [|cause|]; simpl in Hh; [naive_solver| |naive_solver].
      unfold fifo_add_if_not_present in Hh. case_decide; destruct cause; simpl in Hh; naive_solver. }
    exists k0. split; [by apply H3|]. destruct (p o) as [|cause|]; simpl.
    - split; [done|]. split; [by rewrite dget_ddel_eq|]. intros j Hj. by rewrite dget_ddel_ne.
    - unfold fifo_add_if_not_present; simpl. rewrite decide_False.
      2: { rewrite elem_of_dkeys, dget_ddel, decide_True by done. by intros [??]. }
      simpl. split; [by destruct cause|]. split; [by rewrite dget_dset_eq|]. intros j Hj. by rewrite dget_dset_ne, dget_ddel_ne.
    - split; [done|]. split; [by rewrite dget_ddel_eq|]. intros j Hj. by rewrite dget_ddel_ne.
  Qed.

  (** without deletions the queue holds each stored key exactly once *)
  Definition QI s := NoDup (f_queue s) ∧ (∀ k, k ∈ f_queue s ↔ k ∈ dkeys (f_items s)).
  Lemma QI_step s c r s' : QI s → fstep keyf s c = (s', r) → (∀ o, (c, r) ≠ (FDelete o, FNone)) → QI s'.
  Proof.
    intros [Hnd Hq] Hst Hnot.
    assert (Hadd : ∀ k o b, k ∉ dkeys (f_items s) → QI (FIFO (dset k o (f_items s)) (f_queue s ++ [k]) b (f_count s) (f_closed s))).
    { intros k o b Hn. split; simpl.
      - apply NoDup_app. split; [done|]. split; [|apply NoDup_singleton]. intros j Hj%Hq ->%elem_of_list_singleton. done.
      - intros j. rewrite elem_of_app, elem_of_list_singleton, dkeys_dset, decide_False, elem_of_app, elem_of_list_singleton, Hq; done. }
    unfold fstep in Hst. destruct c as [o|o|o| | |o|k|l| |p|o| | |]; simpl in Hst; simplify_eq; try done.
    - destruct (keyf o) as [k|]; simpl in Hst; simplify_eq; [|done]. unfold fifo_add. case_decide; [|by apply Hadd].
      split; simpl; [done|]. intros j. rewrite dkeys_dset, decide_True; done.
    - destruct (keyf o) as [k|]; simpl in Hst; simplify_eq; [|done]. unfold fifo_add. case_decide; [|by apply Hadd].
      split; simpl; [done|]. intros j. rewrite dkeys_dset, decide_True; done.
    - destruct (keyf o) as [k|]; simpl in Hst; simplify_eq; [|done]. unfold fifo_delete in Hst. case_decide; simpl in Hst; simplify_eq.
      + by destruct (Hnot o).
      + done.
    - by destruct (keyf o); simpl in Hst; simplify_eq.
    - destruct (index_items keyf l []) as [items|] eqn:Hi; simpl in Hst; simplify_eq; [|done].
      destruct (index_items_spec _ _ _ Hi dwf_nil) as [Hwf _]. by split.
    - assert (filter (λ k, k ∉ f_queue s) (dkeys (f_items s)) = []) as Hf.
      { destruct (filter _ (dkeys (f_items s))) as [|k f] eqn:Hf; [done|].
        assert (k ∈ filter (λ k, k ∉ f_queue s) (dkeys (f_items s))) as Hx by (rewrite Hf; left).
        apply elem_of_list_filter in Hx as [Hn Hin]. by apply Hq in Hin. }
      unfold fifo_resync. rewrite Hf, app_nil_r. by split.
    - unfold fifo_pop in Hst. destruct (skip_stale _ _ _) as [[q' c'] found] eqn:Hs.
      destruct (skip_stale_spec _ _ _ _ _ _ Hs) as (pre & Hpre & Hf). destruct found as [[k0 o0]|].
      + destruct Hf as (Hfq & Hk & ->). assert (pre = []) as ->.
        { destruct pre as [|k1 pre]; [done|]. assert (k1 ∈ dkeys (f_items s)) as Hin by (apply Hq; rewrite Hfq; left).
          apply elem_of_dkeys in Hin as [??]. specialize (Hpre k1 ltac:(left)). congruence. }
        simpl in Hfq. rewrite Hfq in Hnd. apply NoDup_cons in Hnd as [Hni Hnd].
        assert (Hd : ∀ j, j ∈ q' ↔ j ∈ dkeys (ddel k0 (f_items s))).
        { intros j. rewrite dkeys_ddel, elem_of_srem, <-Hq, Hfq, elem_of_cons. naive_solver. }
        assert (Hr : QI (FIFO (dset k0 o0 (ddel k0 (f_items s))) (q' ++ [k0]) true (f_count s - 1) (f_closed s))).
        { split; simpl.
          - apply NoDup_app. split; [done|]. split; [|apply NoDup_singleton]. by intros j Hj ->%elem_of_list_singleton.
          - intros j. rewrite elem_of_app, elem_of_list_singleton, dkeys_dset, decide_False, elem_of_app, elem_of_list_singleton, Hd; [done|].
            by rewrite <-Hd. }
        destruct (p o0) as [|cause|]; simpl in Hst; simplify_eq; [by split| |by split].
        unfold fifo_add_if_not_present in Hst. simpl in Hst. rewrite decide_False in Hst by (by rewrite <-Hd).
        simpl in Hst. by simplify_eq.
      + destruct Hf as (-> & -> & ->). simpl in Hst. simplify_eq. split; simpl; [constructor|].
        intros k. rewrite <-Hq. split; [by intros ?%elem_of_nil|]. intros Hin. pose proof (Hpre k Hin) as Hn. apply Hq, elem_of_dkeys in Hin as [??]. congruence.
    - destruct (keyf o) as [k|]; simpl in Hst; simplify_eq; [|done]. unfold fifo_add_if_not_present in Hst.
      case_decide; simpl in Hst; simplify_eq; [by split|by apply Hadd].
  Qed.
  Lemma QI_exec h s s' : QI s → exec (fstep keyf) s h s' → (∀ o, (FDelete o, FNone) ∉ h) → QI s'.
  Proof.
    intros HQ Hex. induction Hex as [s|s c r s1 h s2 Hst Hex IH]; [done|]. intros Hno. apply IH.
    - eapply QI_step; [done..|]. intros o Heq. apply (Hno o). rewrite <-Heq. left.
    - intros o Hin. apply (Hno o). by right.
  Qed.
  Lemma QI_init : QI fifo_init.
  Proof. split; [constructor|]. done. Qed.

  (** an object put back is delivered after everything stored at that time *)
  Lemma fifo_requeue_last h s p o q l s'' : exec (fstep keyf) fifo_init h s → (∀ x, (FDelete x, FNone) ∉ h) →
    hands_out o (FPop p, (fstep keyf s (FPop p)).2) → put_back p o → (∀ x, ¬ put_back q x) →
    exec (fstep keyf) (fstep keyf s (FPop p)).1 ((λ x, (FPop q, plain_answer q x)) <$> l) s'' →
    found_nothing (FPop q, (fstep keyf s'' (FPop q)).2) → last l = Some o.
  Proof.
    intros Hex Hno Hh Hpb Hq Hdr Hnone. pose proof (QI_exec _ _ _ QI_init Hex Hno) as HQ.
    destruct (fifo_pop_outcome _ _ _ _ Hex Hh) as (k & Hk & _ & Hget & _).
    assert (HQ' : QI (fstep keyf s (FPop p)).1).
    { eapply QI_step; [exact HQ|by apply surjective_pairing|]. intros x Heq. done. }
    assert (HS : exec (fstep keyf) fifo_init (h ++ [(FPop p, (fstep keyf s (FPop p)).2)]) (fstep keyf s (FPop p)).1).
    { apply exec_snoc. exists s. split; [done|]. by apply surjective_pairing. }
    pose proof (FI_SI _ _ (FI_exec _ _ HS)) as HSI.
    destruct (drain_from q Hq _ _ (Nat.le_refl _) HSI) as (l' & s3 & Hex' & Hnd & Hl & Hend & Hord).
    assert (l' = l) as ->.
    { assert (Hrel : ∀ (l1 l2 : list O) s0 s1 s2, exec (fstep keyf) s0 ((λ x, (FPop q, plain_answer q x)) <$> l1) s1 →
        exec (fstep keyf) s0 ((λ x, (FPop q, plain_answer q x)) <$> l2) s2 →
        found_nothing (FPop q, (fstep keyf s1 (FPop q)).2) → found_nothing (FPop q, (fstep keyf s2 (FPop q)).2) → l1 = l2).
      { assert (Hpa : ∀ s x s0, fstep keyf s (FPop q) = (s0, plain_answer q x) → ¬ found_nothing (FPop q, (fstep keyf s (FPop q)).2)).
        { intros s0 x s1 -> [? Hx]. unfold plain_answer in Hx. destruct (q x); naive_solver. }
        assert (Hinj : ∀ x y, plain_answer (K:=K) q x = plain_answer q y → x = y).
        { intros x y. unfold plain_answer. destruct (q x), (q y); intros; by simplify_eq. }
        induction l1 as [|x l1 IHl]; intros [|y l2] s0 s1 s2 He1 He2 Hf1 Hf2; csimpl in He1; csimpl in He2; try done.
        - apply exec_nil_iff in He1 as ->. apply exec_cons_iff in He2 as (m & Hm & _). by apply Hpa in Hm.
        - apply exec_nil_iff in He2 as ->. apply exec_cons_iff in He1 as (m & Hm & _). by apply Hpa in Hm.
        - apply exec_cons_iff in He1 as (m & Hm & He1). apply exec_cons_iff in He2 as (m' & Hm' & He2).
          rewrite Hm in Hm'. simplify_eq. f_equal; [by apply Hinj|]. by eapply IHl. }
      eapply Hrel; [done|done| |done]. exists q. rewrite Hend. destruct (f_closed _); auto. }
    destruct HQ' as [HQ1 HQ2]. specialize (Hord HQ1 (λ k, proj1 (HQ2 k))).
    assert (last (f_queue (fstep keyf s (FPop p)).1) = Some k) as Hlast.
    { clear -Hh Hpb Hk Hex. unfold fstep in *; simpl in *. unfold fifo_pop in *.
      destruct (skip_stale _ _ _) as [[q' c'] found] eqn:Hs.
      destruct (skip_stale_spec _ _ _ _ _ _ Hs) as (pre & Hpre & Hf). destruct found as [[k0 o0]|]; simpl in *.
      2: { destruct Hh. destruct (f_closed s); naive_solver. }
      destruct Hf as (Hq & Hk' & ->). assert (o0 = o) as ->.
      { destruct Hh as [p' Hh]. destruct (p o0) as [|cause|]; simpl in Hh; [naive_solver| |naive_solver].
        unfold fifo_add_if_not_present in Hh. case_decide; destruct cause; simpl in Hh; naive_solver. }
      apply (fi_key _ _ (FI_exec _ _ Hex)) in Hk'. simplify_eq. destruct Hpb as [c ->]. simpl.
      unfold fifo_add_if_not_present; simpl. rewrite decide_False.
      2: { rewrite elem_of_dkeys, dget_ddel, decide_True by done. by intros [??]. }
      simpl. by rewrite last_snoc. }
    apply (f_equal last) in Hord. rewrite !fmap_last, Hlast in Hord. simpl in Hord.
    destruct (last l) as [x|] eqn:Hx; [|done]. simpl in Hord. simplify_eq.
    f_equal. assert (x ∈ l) as Hin by (by apply last_Some_elem_of).
    apply Hl in Hin as (k' & Hk'). apply (si_key _ HSI) in Hk' as Hkk.
    destruct Hpb as [c Hpb]. rewrite Hpb in Hget. assert (k' = k) as -> by congruence.
    change (FOpt (dget k (f_items (fstep keyf s (FPop p)).1)) = FOpt (K:=K) (Some o)) in Hget. congruence.
  Qed.

  (** ** C20 *)
  Lemma unpopulated h s : exec (fstep keyf) fifo_init h s → (∀ e, e ∈ h → ¬ populates keyf e) →
    ∃ b, s = FIFO [] [] false 0 b.
  Proof.
    intros Hex. assert (∃ b, fifo_init (K:=K) (O:=O) = FIFO [] [] false 0 b) as H0 by (by exists false).
    induction Hex as [s|s c r s1 h s2 Hst Hex IH]; intros Hno; [done|].
    apply IH; [|intros e He; apply Hno; by right]. clear IH Hex. specialize (Hno (c, r) ltac:(left)).
    destruct H0 as [b ->]. unfold fstep in Hst. unfold populates in Hno. simpl in Hno.
    destruct c as [o|o|o| | |o|k|l| |p|o| | |]; simpl in Hst; try (by simplify_eq; eauto).
    1,2,3,4,6: destruct (keyf o); simpl in Hst; simplify_eq; eauto; by destruct Hno.
    destruct (index_items keyf l []) as [items|o] eqn:Hi; simpl in Hst; simplify_eq; [|by eauto].
    destruct Hno. by eapply index_items_ok.
  Qed.

  (** the batch of the first replace, the calls after it, the ids consumed so far *)
  Record BI (batch : list K) (h : hist) (s : fifo K O) : Prop := {
    bi_pop : f_populated s = true;
    bi_main : ∃ consumed added, batch ++ added = consumed ++ f_queue s ∧ f_count s = length batch - length consumed ∧
      (∀ k, k ∈ batch → k ∈ consumed → ∃ e, e ∈ h ∧ disposes keyf k e) ∧
      (∀ o e k, e ∈ h → hands_out o e → keyf o = Some k → k ∈ consumed);
    bi_live k : k ∈ batch → k ∉ dkeys (f_items s) → ∃ e, e ∈ h ∧ disposes keyf k e
  }.

  Lemma BI_weaken batch h s c r s' app : BI batch h s →
    f_populated s' = true → f_queue s' = f_queue s ++ app → f_count s' = f_count s →
    (∀ k, k ∈ dkeys (f_items s) → k ∈ dkeys (f_items s') ∨ disposes keyf k (c, r)) →
    (∀ o, ¬ hands_out o (c, r)) → BI batch (h ++ [(c, r)]) s'.
  Proof.
    intros [Hp (cs & ad & Heq & Hc & Hd & Hh) Hl] Hp' Hq' Hc' Hk Hno.
    assert (Hx : ∀ k, (∃ e, e ∈ h ∧ disposes keyf k e) → ∃ e, e ∈ h ++ [(c, r)] ∧ disposes keyf k e).
    { intros k (e & ? & ?). exists e. split; [|done]. apply elem_of_app. by left. }
    split; [done| |].
    - exists cs, (ad ++ app). split; [by rewrite Hq', !app_assoc, Heq|]. split; [congruence|]. split.
      + intros k Hb Hcs. apply Hx. by apply Hd.
      + intros o e k [Hin| ->%elem_of_list_singleton]%elem_of_app He; [by eapply Hh|]. by destruct (Hno o).
    - intros k Hb Hn. destruct (decide (k ∈ dkeys (f_items s))) as [Hin|Hin]; [|by apply Hx, Hl].
      destruct (Hk k Hin) as [?|?]; [done|]. exists (c, r). split; [|done]. apply elem_of_app. right. by apply elem_of_list_singleton.
  Qed.

  Lemma BI_noop batch h s c r : BI batch h s → (∀ o, ¬ hands_out o (c, r)) → BI batch (h ++ [(c, r)]) s.
  Proof. intros HB Hno. apply BI_weaken with s []; rewrite ?app_nil_r; try done; [by apply (bi_pop _ _ _ HB)|by left]. Qed.

  Lemma BI_step batch h s c r s' : SI s → BI batch h s → fstep keyf s c = (s', r) → ¬ is_replace (c, r) →
    BI batch (h ++ [(c, r)]) s'.
  Proof.
    intros HS HB Hst Hnr. pose proof HB as [Hp (cs & ad & Heq & Hc & Hd & Hh) Hl].
    assert (Hx : ∀ k e0, (∃ e, e ∈ h ∧ disposes keyf k e) → ∃ e, e ∈ h ++ [e0] ∧ disposes keyf k e).
    { intros k e0 (e & ? & ?). exists e. split; [|done]. apply elem_of_app. by left. }
    assert (Hx' : ∀ k e0, disposes keyf k e0 → ∃ e, e ∈ h ++ [e0] ∧ disposes keyf k e).
    { intros k e0 ?. exists e0. split; [|done]. apply elem_of_app. right. by apply elem_of_list_singleton. }
    unfold fstep in Hst. destruct c as [o|o|o| | |o|k|l| |p|o| | |]; simpl in Hst.
    1,2: destruct (keyf o) as [k0|]; simpl in Hst; simplify_eq;
      [|apply BI_noop; [done|by intros ? [? [?|?]]]];
      unfold fifo_add; destruct (decide (k0 ∈ dkeys (f_items s)));
      [apply BI_weaken with s []; rewrite ?app_nil_r|apply BI_weaken with s [k0]]; try done;
      [|by intros ? [? [?|?]]| |by intros ? [? [?|?]]]; intros k Hk; left; simpl; rewrite dkeys_dset; case_decide; try done; apply elem_of_app; by left.
    - destruct (keyf o) as [k0|] eqn:Hk0; simpl in Hst; simplify_eq;
      [|apply BI_noop; [done|by intros ? [? [?|?]]]].
      unfold fifo_delete in Hst. case_decide; simpl in Hst; simplify_eq.
      + apply BI_weaken with s []; rewrite ?app_nil_r; try done; [|by intros ? [? [?|?]]].
        intros k Hk. simpl. rewrite dkeys_ddel, elem_of_srem. destruct (decide (k = k0)) as [->|]; [right|by left].
        left. by exists o.
      + apply BI_weaken with s []; rewrite ?app_nil_r; try done; [by left|by intros ? [? [?|?]]].
    - simplify_eq. apply BI_noop; [done|by intros ? [? [?|?]]].
    - simplify_eq. apply BI_noop; [done|by intros ? [? [?|?]]].
    - destruct (keyf o); simpl in Hst; simplify_eq; (apply BI_noop; [done|by intros ? [? [?|?]]]).
    - simplify_eq. apply BI_noop; [done|by intros ? [? [?|?]]].
    - destruct (index_items keyf l []); simpl in Hst; simplify_eq; [by destruct Hnr; eexists|].
      apply BI_noop; [done|by intros ? [? [?|?]]].
    - simplify_eq. eapply BI_weaken; [done|done|done|done|by left|by intros ? [? [?|?]]].
    - unfold fifo_pop in Hst. destruct (skip_stale _ _ _) as [[q' c'] found] eqn:Hs.
      destruct (skip_stale_spec _ _ _ _ _ _ Hs) as (pre & Hpre & Hf).
      assert (Hpd : ∀ k, k ∈ batch → k ∈ pre → ∃ e, e ∈ h ∧ disposes keyf k e).
      { intros k Hb Hin. apply Hl; [done|]. apply not_elem_of_dkeys. by apply Hpre. }
      destruct found as [[k0 o0]|].
      + destruct Hf as (Hfq & Hk & ->). pose proof (si_key _ HS _ _ Hk) as Hko.
        assert (∃ items app, s' = FIFO items (q' ++ app) true (f_count s - S (length pre)) (f_closed s) ∧
          (∀ k, k ≠ k0 → k ∈ dkeys (f_items s) → k ∈ dkeys items) ∧ hands_out o0 (FPop p, r)) as (items & app & -> & Hit & Hho).
        { assert (Hrem : ∀ k, k ≠ k0 → k ∈ dkeys (f_items s) → k ∈ dkeys (ddel k0 (f_items s))).
          { intros k ??. rewrite dkeys_ddel, elem_of_srem. done. }
          destruct (p o0) as [|cause|]; simpl in Hst; simplify_eq.
          - exists (ddel k0 (f_items s)), []. rewrite app_nil_r, Hp. split; [done|]. split; [done|]. exists p; by left.
          - unfold fifo_add_if_not_present in Hst. simpl in Hst.
            destruct (decide _); simpl in Hst; simplify_eq.
            + exists (ddel k0 (f_items s)), []. rewrite app_nil_r. split; [done|]. split; [done|]. exists p. destruct cause; auto.
            + exists (dset k0 o0 (ddel k0 (f_items s))), [k0]. split; [done|]. split.
              * intros k ? ?%Hrem; [|done]. rewrite dkeys_dset. case_decide; [done|]. apply elem_of_app. by left.
              * exists p. destruct cause; auto.
          - exists (ddel k0 (f_items s)), []. rewrite app_nil_r, Hp. split; [done|]. split; [done|]. exists p; by right. }
        assert (Hdis : disposes keyf k0 (FPop p, r)) by (right; by exists o0).
        split; simpl; [done| |].
        * exists (cs ++ pre ++ [k0]), (ad ++ app). split.
          { rewrite app_assoc, Heq, Hfq. by rewrite <-!app_assoc. }
          split; [rewrite Hc, !app_length; simpl; lia|]. split.
          -- intros k Hb [Hin|[Hin|Hin%elem_of_list_singleton]%elem_of_app]%elem_of_app; [by apply Hx, Hd|by apply Hx, Hpd|subst; by apply Hx'].
          -- intros o e k [Hin| ->%elem_of_list_singleton]%elem_of_app He Hke; [apply elem_of_app; left; by eapply Hh|].
             destruct He as [p1 He]. destruct Hho as [p2 Hho]. assert (o = o0) as -> by (destruct He, Hho; by simplify_eq).
             assert (k = k0) as -> by congruence. set_solver.
        * intros k Hb Hn. destruct (decide (k = k0)) as [->|]; [by apply Hx'|]. apply Hx, Hl; [done|]. intros ?. by apply Hn, Hit.
      + destruct Hf as (-> & -> & ->). simpl in Hst. simplify_eq. split; simpl; [done| |].
        * exists (cs ++ f_queue s), ad. rewrite app_nil_r. split; [done|]. split; [rewrite app_length, Hc; lia|]. split.
          -- intros k Hb [Hin|Hin]%elem_of_app; [by apply Hx, Hd|by apply Hx, Hpd].
          -- intros o e k [Hin| ->%elem_of_list_singleton]%elem_of_app He Hke; [apply elem_of_app; left; by eapply Hh|].
             destruct He as [? [?|?]]; destruct (f_closed s); done.
        * intros k Hb Hn. by apply Hx, Hl.
    - destruct (keyf o) as [k0|]; simpl in Hst; simplify_eq;
      [|apply BI_noop; [done|by intros ? [? [?|?]]]].
      unfold fifo_add_if_not_present in Hst. case_decide; simpl in Hst; simplify_eq.
      + apply BI_weaken with s []; rewrite ?app_nil_r; try done; [by left|by intros ? [? [?|?]]].
      + apply BI_weaken with s [k0]; try done; [|by intros ? [? [?|?]]].
        intros k Hk; left; simpl; rewrite dkeys_dset; case_decide; try done; apply elem_of_app; by left.
    - simplify_eq. apply BI_noop; [done|by intros ? [? [?|?]]].
    - simplify_eq. apply BI_weaken with s []; rewrite ?app_nil_r; try done; [by left|by intros ? [? [?|?]]].
    - simplify_eq. apply BI_noop; [done|by intros ? [? [?|?]]].
  Qed.

  Lemma BI_exec h0 l h s : exec (fstep keyf) fifo_init (h0 ++ (FReplace l, FNone) :: h) s →
    (∀ e, e ∈ h0 → ¬ populates keyf e) → (∀ e, e ∈ h → ¬ is_replace e) →
    ∃ batch, batch ≡ₚ distinct_keys keyf l ∧ BI batch h s.
  Proof.
    intros Hex H0 Hh. apply exec_app in Hex as (s0 & Hex0 & Hex). pose proof Hex0 as Hex0'.
    apply unpopulated in Hex0 as [b ->]; [|done]. apply exec_cons_iff in Hex as (s1 & Hst & Hex).
    pose proof Hst as Hst'. unfold fstep in Hst'. simpl in Hst'.
    destruct (index_items keyf l []) as [items|] eqn:Hi; simpl in Hst'; simplify_eq.
    exists (dkeys items). split; [by apply index_items_keys|].
    assert (HB : BI (dkeys items) [] (fifo_replace items (FIFO [] [] false 0 b))).
    { split; simpl; [done| |].
      - exists [], []. rewrite app_nil_r. split; [done|]. split; [unfold dkeys; rewrite fmap_length; simpl; lia|]. split.
        + by intros k _ ?%elem_of_nil.
        + by intros o e k ?%elem_of_nil.
      - done. }
    assert (Hpre : exec (fstep keyf) fifo_init (h0 ++ [(FReplace l, FNone)]) (fifo_replace items (FIFO [] [] false 0 b))).
    { apply exec_snoc. eauto. }
    clear Hst Hex0' Hi. revert s Hex Hh. induction h as [|[c r] h IH] using rev_ind; intros s Hex Hh.
    - by apply exec_nil_iff in Hex as <-.
    - apply exec_snoc in Hex as (m & Hm & Hst). eapply BI_step; [|apply IH; [done|]|done|].
      + eapply FI_SI, FI_exec. apply exec_app. eauto.
      + intros e He. apply Hh. apply elem_of_app. by left.
      + apply Hh. apply elem_of_app. right. by apply elem_of_list_singleton.
  Qed.

  Lemma has_synced_count s : (fstep keyf s FHasSynced).2 = FBool true ↔ f_populated s = true ∧ f_count s = 0.
  Proof.
    unfold fstep; simpl. unfold fifo_has_synced. destruct (f_populated s); simpl.
    - destruct (Nat.eqb_spec (f_count s) 0); naive_solver.
    - naive_solver.
  Qed.
  Lemma distinct_keys_elem k l : k ∈ distinct_keys keyf l ↔ ∃ o, o ∈ l ∧ keyf o = Some k.
  Proof. unfold distinct_keys. by rewrite elem_of_remove_dups, elem_of_list_omap. Qed.

  Lemma synced_sound h0 l h s : exec (fstep keyf) fifo_init (h0 ++ (FReplace l, FNone) :: h) s →
    (∀ e, e ∈ h0 → ¬ populates keyf e) → (∀ e, e ∈ h → ¬ is_replace e) →
    (fstep keyf s FHasSynced).2 = FBool true →
    ∀ o k, o ∈ l → keyf o = Some k → ∃ e, e ∈ h ∧ disposes keyf k e.
  Proof.
    intros Hex H0 Hh Hs o k Ho Hk. destruct (BI_exec _ _ _ _ Hex H0 Hh) as (batch & Hb & [Hp (cs & ad & Heq & Hc & Hd & Hho) Hl]).
    apply has_synced_count in Hs as [_ Hz].
    assert (k ∈ batch) as Hkb by (rewrite Hb; apply distinct_keys_elem; eauto).
    apply Hd; [done|]. assert (length batch ≤ length cs) as Hle by lia.
    apply (f_equal (take (length cs))) in Heq. rewrite take_app, take_app_ge in Heq by done. rewrite <-Heq.
    apply elem_of_app. by left.
  Qed.
  Lemma synced_complete h0 l h s : exec (fstep keyf) fifo_init (h0 ++ (FReplace l, FNone) :: h) s →
    (∀ e, e ∈ h0 → ¬ populates keyf e) → (∀ e, e ∈ h → ¬ is_replace e) →
    (∀ o k, o ∈ l → keyf o = Some k → ∃ e o', e ∈ h ∧ hands_out o' e ∧ keyf o' = Some k) →
    (fstep keyf s FHasSynced).2 = FBool true.
  Proof.
    intros Hex H0 Hh Hall. destruct (BI_exec _ _ _ _ Hex H0 Hh) as (batch & Hb & [Hp (cs & ad & Heq & Hc & Hd & Hho) Hl]).
    apply has_synced_count. split; [done|]. assert (Hin : ∀ k, k ∈ batch → k ∈ cs).
    { intros k. rewrite Hb. intros (o & Ho & Hk)%distinct_keys_elem. destruct (Hall o k Ho Hk) as (e & o' & ? & ? & ?). by eapply Hho. }
    assert (NoDup batch) as Hnd by (rewrite Hb; apply NoDup_remove_dups).
    assert (length batch ≤ length cs); [|lia]. apply submseteq_length, NoDup_submseteq; [done|]. exact Hin.
  Qed.
  Lemma synced_drained h0 l h s e : exec (fstep keyf) fifo_init (h0 ++ (FReplace l, FNone) :: h ++ [e]) s →
    (∀ e, e ∈ h0 → ¬ populates keyf e) → (∀ e, e ∈ h → ¬ is_replace e) → found_nothing e →
    (fstep keyf s FHasSynced).2 = FBool true.
  Proof.
    intros Hex H0 Hh [p He].
    assert (Hh' : ∀ e', e' ∈ h ++ [e] → ¬ is_replace e').
    { intros e' [?| ->%elem_of_list_singleton]%elem_of_app; [by apply Hh|]. intros [? ?]. destruct He; by simplify_eq. }
    destruct (BI_exec _ _ _ _ Hex H0 Hh') as (batch & Hb & [Hp (cs & ad & Heq & Hc & Hd & Hho) Hl]).
    apply has_synced_count. split; [done|].
    replace (h0 ++ (FReplace l, FNone) :: h ++ [e]) with ((h0 ++ (FReplace l, FNone) :: h) ++ [e]) in Hex by (by rewrite <-app_assoc).
    destruct e as [c r]. apply exec_snoc in Hex as (m & _ & Hst).
    assert (f_queue s = []) as Hq.
    { assert (c = FPop p) as -> by (destruct He; by simplify_eq). unfold fstep in Hst. simpl in Hst. unfold fifo_pop in Hst.
      destruct (skip_stale _ _ _) as [[q' c'] found] eqn:Hs. destruct (skip_stale_spec _ _ _ _ _ _ Hs) as (pre & Hpre & Hf).
      destruct found as [[k0 o0]|]; [|simpl in Hst; simplify_eq; simpl; tauto].
      exfalso. destruct (p o0) as [|cause|]; simpl in Hst; simplify_eq; [naive_solver| |naive_solver].
      unfold fifo_add_if_not_present in Hst. destruct (decide _), cause; simpl in Hst; naive_solver. }
    rewrite Hq, app_nil_r in Heq. apply (f_equal length) in Heq. rewrite app_length in Heq. lia.
  Qed.
  Lemma synced_never_before h s : exec (fstep keyf) fifo_init h s → (∀ e, e ∈ h → ¬ populates keyf e) →
    (fstep keyf s FHasSynced).2 = FBool false.
  Proof. intros Hex Hno. by destruct (unpopulated _ _ Hex Hno) as [b ->]. Qed.

  (** ** C23 *)
  Lemma fifo_closed_pop h s p : exec (fstep keyf) fifo_init h s → (∃ r, (FClose, r) ∈ h) →
    (fstep keyf s (FPop p)).2 ≠ FBlocked ∧
    ((fstep keyf s (FPop p)).2 = FClosedError ↔ ∀ k, stored keyf k (reverse h) = None).
  Proof.
    intros Hex Hcl. assert (f_closed s = true) as Hc by (apply (closed_exec _ _ _ Hex); by right).
    apply FI_exec in Hex as [H1 H2 H3 H4]. unfold fstep; simpl. unfold fifo_pop.
    destruct (skip_stale _ _ _) as [[q' c'] found] eqn:Hs.
    destruct (skip_stale_spec _ _ _ _ _ _ Hs) as (pre & Hpre & Hf). destruct found as [[k0 o0]|]; simpl.
    - destruct Hf as (Hq & Hk & ->).
      assert (∃ e, ((match p o0 with POk => (FIFO (ddel k0 (f_items s)) q' (f_populated s) (f_count s - S (length pre)) (f_closed s), FItem o0, false)
        | PRequeue cause => let '(s'', n) := fifo_add_if_not_present k0 o0 (FIFO (ddel k0 (f_items s)) q' (f_populated s) (f_count s - S (length pre)) (f_closed s)) in
            (s'', if cause then FProcessError o0 else FItem o0, n)
        | PFail => (FIFO (ddel k0 (f_items s)) q' (f_populated s) (f_count s - S (length pre)) (f_closed s), FProcessError o0, false) end).1).2 = e ∧ (e = FItem o0 ∨ e = FProcessError o0)) as (e & -> & He).
      { destruct (p o0) as [|cause|]; simpl; eauto. unfold fifo_add_if_not_present. destruct (decide _), cause; simpl; eauto. }
      split; [by destruct He as [-> | ->]|]. split; [by destruct He as [-> | ->]|].
      intros Hn. specialize (Hn k0). rewrite <-H2 in Hn. congruence.
    - destruct Hf as (-> & -> & ->). rewrite Hc. split; [done|]. split; [|done]. intros _ k. rewrite <-H2.
      apply not_elem_of_dkeys. intros Hin. pose proof (Hpre k (H4 k Hin)). apply elem_of_dkeys in Hin as [??]. congruence.
  Qed.
End proofs.
