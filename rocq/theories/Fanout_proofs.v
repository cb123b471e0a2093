(** Lemmas for Fanout_props.v. *)
From Verif Require Import Base Listener_model Listener_spec Listener_proofs ListenerTime_proofs Twice_proofs Fanout_model Fanout_spec.

Lemma sublist_NoDup {A} (k l : list A) : NoDup l → k `sublist_of` l → NoDup k.
Proof.
  intros Hl Hs. induction Hs as [|x k l Hs IH|x k l Hs IH]; [done|..]; apply NoDup_cons in Hl as [Hx Hl]; [|by apply IH].
  apply NoDup_cons. split; [|by apply IH]. intros Hin. apply Hx. eapply elem_of_submseteq; [done|by apply sublist_submseteq].
Qed.

Section proofs.
  Context {N : Type}.
  Implicit Types (s : fan N) (tr : list (flabel N)) (n : N).
  Notation fstep := (fstep (N:=N)).
  Notation init := (fan_init (N:=N)).

  (** what a listener does *)
  Definition of_lis i tr : list (llabel N) := omap (λ l, match l with FLis j ll => if decide (i = j) then Some ll else None | _ => None end) tr.
  Lemma of_lis_snoc i tr l : of_lis i (tr ++ [l]) = of_lis i tr ++ match l with FLis j ll => if decide (i = j) then [ll] else [] | _ => [] end.
  Proof. unfold of_lis. rewrite omap_app. f_equal. destruct l; simpl; try done. by case_decide. Qed.
  Lemma calls_snoc i tr l : calls i (tr ++ [l]) = calls i tr ++ match l with FLis j (LCall n) => if decide (i = j) then [n] else [] | _ => [] end.
  Proof. unfold calls. rewrite omap_app. f_equal. destruct l as [| | |j []]; simpl; try done. by case_decide. Qed.
  Lemma calls_app i tr tr' : calls i (tr ++ tr') = calls i tr ++ calls i tr'.
  Proof. apply omap_app. Qed.
  Lemma calls_handled i tr : calls i tr = handled_of (of_lis i tr).
  Proof. induction tr as [|l tr IH] using rev_ind; [done|]. rewrite calls_snoc, of_lis_snoc, IH. unfold handled_of. rewrite omap_app. f_equal. destruct l as [| | |j []]; simpl; try done; by case_decide. Qed.
  Lemma lis_reach tr s : reach fstep init tr s → (∀ i, length (f_ls s) ≤ i → of_lis i tr = []) ∧ ∀ i l, f_ls s !! i = Some l → reach lstep lis_init (of_lis i tr) l.
  Proof.
    induction 1 as [|tr s l s' Hr [IH0 IH] Hst]; [split; [done|]; by intros i l|]. 
    assert (Hset : ∀ ls j ll l1 l2, f_ls s = ls → ls !! j = Some l1 → lstep l1 ll l2 →
      (∀ i, length (<[j:=l2]> ls) ≤ i → of_lis i (tr ++ [FLis j ll]) = []) ∧ ∀ i l, <[j:=l2]> ls !! i = Some l → reach lstep lis_init (of_lis i (tr ++ [FLis j ll])) l).
    { intros ls j ll l1 l2 <- Hj Hl. split.
      - intros i Hi. rewrite insert_length in Hi. rewrite of_lis_snoc, IH0 by done. rewrite decide_False; [done|]. apply lookup_lt_Some in Hj. lia.
      - intros i l0 Hi. rewrite of_lis_snoc. apply list_lookup_insert_Some in Hi as [(-> & <- & _)|[Hne Hi]].
        + rewrite decide_True by done. eapply reach_snoc; [by apply IH|done].
        + rewrite decide_False by done. rewrite app_nil_r. by apply IH. }
    destruct Hst as [ls sy items|ls sy n sync|ls sy job due Hdue|ls sy i n job l l' Hi Hl|ls sy i n job l l' Hi Hl|ls sy job i l lab l' Hi Hin Hl]; simpl in *; try (by eapply Hset).
    - split; [intros i Hi; rewrite app_length in Hi; rewrite of_lis_snoc, IH0; [done|lia]|]. intros i l Hi. rewrite of_lis_snoc, app_nil_r.
      apply lookup_app_Some in Hi as [Hi|[Hge Hi]]; [by apply IH|]. rewrite IH0 by lia. destruct (i - length ls) eqn:E; simplify_eq/=. constructor.
    - split; intros; rewrite of_lis_snoc, app_nil_r; auto.
    - split; intros; rewrite of_lis_snoc, app_nil_r; auto.
  Qed.

  (** ** What is expected *)
  Fixpoint registered tr : nat := match tr with [] => 0 | FRegister _ :: tr => S (registered tr) | _ :: tr => registered tr end.
  Fixpoint syncing k sy tr : list nat :=
    match tr with [] => sy | FRegister _ :: tr => syncing (S k) (sy ++ [k]) tr | FResync due :: tr => syncing k due tr | _ :: tr => syncing k sy tr end.
  Lemma expected_app i k sy tr tr' : expected_from i k sy (tr ++ tr') = expected_from i k sy tr ++ expected_from i (k + registered tr) (syncing k sy tr) tr'.
  Proof.
    revert k sy. induction tr as [|l tr IH]; intros k sy; simpl; [by rewrite Nat.add_0_r|]. destruct l as [items|n []|due|j ll]; simpl; rewrite IH, <-?app_assoc; try done.
    by rewrite Nat.add_succ_r.
  Qed.
  Lemma registered_app tr tr' : registered (tr ++ tr') = registered tr + registered tr'.
  Proof. induction tr as [|[] tr IH]; simpl; lia. Qed.
  Lemma syncing_app k sy tr tr' : syncing k sy (tr ++ tr') = syncing (k + registered tr) (syncing k sy tr) tr'.
  Proof. revert k sy. induction tr as [|[] tr IH]; intros k sy; simpl; rewrite ?Nat.add_0_r, ?IH; try done. by rewrite Nat.add_succ_r. Qed.

  (** the calls of _add whose notification was not put yet *)
  Definition busy s : bool := match f_job s with (i, _) :: _ => match l_adder <$> (f_ls s !! i) with Some AJoining => true | _ => false end | [] => false end.
  Definition todo s : list (nat * N) := if busy s then tail (f_job s) else f_job s.
  Definition mine i (job : list (nat * N)) : list N := omap (λ p, if decide (i = p.1) then Some p.2 else None) job.
  Lemma mine_cons i p job : mine i (p :: job) = (if decide (i = p.1) then [p.2] else []) ++ mine i job.
  Proof. unfold mine. simpl. by case_decide. Qed.
  Definition todo_of i s : list N := mine i (todo s).
  Record FI tr s : Prop := {
    fi_reg : length (f_ls s) = registered tr;
    fi_sync : f_sync s = syncing 0 [] tr;
    fi_nodup : NoDup (f_sync s);
    fi_synclt i : i ∈ f_sync s → i < length (f_ls s);
    fi_joblt i n : (i, n) ∈ f_job s → i < length (f_ls s);
    fi_adder i l : f_ls s !! i = Some l → match l_adder l with AIdle => True | APutting n => ∃ job, f_job s = (i, n) :: job | AJoining => ∃ n job, f_job s = (i, n) :: job end;
    fi_given i l : f_ls s !! i = Some l → l_adder l ≠ AJoining → l_addq l = None;
    fi_stop i l : f_ls s !! i = Some l → l_stop l = false;
    fi_flow i : expected i tr = accepted_of (of_lis i tr) ++ todo_of i s
  }.

  Lemma inner_step l lab l' : lstep l lab l' → inner lab = true →
    l_stop l' = l_stop l ∧ ((∃ n, lab = LPut n ∧ l_adder l = APutting n ∧ l_adder l' = AJoining) ∨
      (∀ n, lab ≠ LPut n) ∧ l_adder l' = l_adder l ∧ (l_addq l = None → l_addq l' = None)).
  Proof. destruct 1; intros Hin; try done; simpl; (split; [by repeat case_match|]); try (right; split; [done|]; repeat case_match; by split). left. by eexists. Qed.
  Lemma idle_busy s : (∀ i l, f_ls s !! i = Some l → l_adder l = AIdle) → busy s = false.
  Proof. intros H. unfold busy. destruct (f_job s) as [|[i n] job]; [done|]. destruct (f_ls s !! i) as [l|] eqn:E; [|done]. simpl. by rewrite (H _ _ E). Qed.
  Lemma empty_idle tr s : FI tr s → f_job s = [] → ∀ i l, f_ls s !! i = Some l → l_adder l = AIdle.
  Proof. intros HF He i l Hi. pose proof (fi_adder _ _ HF _ _ Hi) as H. rewrite He in H. destruct (l_adder l); [done|..]; naive_solver. Qed.
  Lemma job_items i k (items : list N) : mine i ((λ n, (k, n)) <$> items) = if decide (i = k) then items else [].
  Proof. induction items as [|n items IH]; [by case_decide|]. rewrite fmap_cons, mine_cons, IH. simpl. by case_decide. Qed.
  Lemma job_each i (n : N) (L : list nat) : NoDup L → mine i ((λ i, (i, n)) <$> L) = if decide (i ∈ L) then [n] else [].
  Proof.
    induction 1 as [|j L Hj _ IH]; [by rewrite decide_False by (by intros ?%elem_of_nil)|]. rewrite fmap_cons, mine_cons, IH. simpl. destruct (decide (i = j)) as [->|Hne].
    - rewrite decide_False by done. by rewrite decide_True by left.
    - destruct (decide (i ∈ L)); [rewrite decide_True by (by right)|rewrite decide_False; [|intros [?|?]%elem_of_cons]]; done.
  Qed.
  Lemma expected_snoc i tr l : expected i (tr ++ [l]) = expected i tr ++ expected_from i (registered tr) (syncing 0 [] tr) [l].
  Proof. unfold expected. by rewrite expected_app. Qed.

  Lemma FI_init : FI [] init.
  Proof. constructor; simpl; try done; try constructor; try (by intros i ?%elem_of_nil); by intros i n ?%elem_of_nil. Qed.
  Lemma FI_step tr s l s' : FI tr s → fstep s l s' → FI (tr ++ [l]) s'.
  Proof.
    intros HF Hst. destruct Hst as [ls sy items|ls sy n sync|ls sy job due Hdue|ls sy i n job l l' Hi Hl|ls sy i n job l l' Hi Hl|ls sy job i l lab l' Hi Hin Hl].
    - pose proof (empty_idle _ _ HF eq_refl) as Hidle. destruct HF as [H1 H2 H3 H4 H5 H6 H7 H8 H9]. simpl in *.
      assert (Hnew : ∀ i l, (ls ++ [lis_init]) !! i = Some l → l_adder l = AIdle ∧ l_addq l = None ∧ l_stop l = false).
      { intros i l [Hi|[_ Hi]]%lookup_app_Some; [|apply elem_of_list_lookup_2, elem_of_list_singleton in Hi as ->; done].
        rewrite (Hidle _ _ Hi). split; [done|]. split; [|by eapply H8]. eapply H7; [done|]. by rewrite (Hidle _ _ Hi). }
      constructor; simpl.
      + rewrite app_length, registered_app. simpl. lia.
      + rewrite syncing_app, <-H2, <-H1. done.
      + apply NoDup_app. split; [done|]. split; [|apply NoDup_singleton]. intros x Hx%H4 ->%elem_of_list_singleton. lia.
      + intros x [Hx%H4| ->%elem_of_list_singleton]%elem_of_app; rewrite app_length; simpl; lia.
      + intros x n Hx. apply elem_of_list_fmap in Hx as (m & [= -> ->] & _). rewrite app_length; simpl; lia.
      + intros x l Hx. by rewrite (proj1 (Hnew _ _ Hx)).
      + intros x l Hx _. by apply Hnew in Hx as (_ & ? & _).
      + intros x l Hx. by apply Hnew in Hx as (_ & _ & ?).
      + intros x. rewrite expected_snoc, of_lis_snoc, app_nil_r, H9. unfold todo_of, todo. simpl. rewrite !app_nil_r. f_equal. rewrite (idle_busy (Fan (ls ++ _) _ _)) by (intros y l Hy; by apply Hnew in Hy as [? _]). simpl. rewrite job_items. by rewrite H1.
    - pose proof (empty_idle _ _ HF eq_refl) as Hidle. destruct HF as [H1 H2 H3 H4 H5 H6 H7 H8 H9]. simpl in *. constructor; simpl; try done.
      + rewrite registered_app. simpl. lia.
      + rewrite syncing_app. by destruct sync.
      + intros x m Hx. apply elem_of_list_fmap in Hx as (y & [= -> ->] & Hy). destruct sync; [by apply H4|]. apply elem_of_seq in Hy. lia.
      + intros x l Hx. by rewrite (Hidle _ _ Hx).
      + intros x. rewrite expected_snoc, of_lis_snoc, app_nil_r, H9. unfold todo_of, todo. rewrite !idle_busy by done. simpl. rewrite app_nil_r. f_equal.
        rewrite job_each by (destruct sync; [done|apply NoDup_seq]). rewrite <-H1, <-H2. destruct sync; simpl; rewrite app_nil_r; [done|].
        destruct (decide (x < length ls)) as [Hlt|Hge]; [rewrite decide_True by (apply elem_of_seq; lia)|rewrite decide_False by (rewrite elem_of_seq; lia)]; done.
    - destruct HF as [H1 H2 H3 H4 H5 H6 H7 H8 H9]. simpl in *. constructor; simpl; try done.
      + rewrite registered_app. simpl. lia.
      + by rewrite syncing_app.
      + eapply sublist_NoDup; [apply NoDup_seq|done].
      + intros x Hx. eapply elem_of_submseteq in Hx; [|by apply sublist_submseteq]. apply elem_of_seq in Hx. lia.
      + intros x. rewrite expected_snoc, of_lis_snoc, !app_nil_r. apply H9.
    - destruct HF as [H1 H2 H3 H4 H5 H6 H7 H8 H9]. simpl in *. inversion Hl; subst; clear Hl. pose proof (H7 _ _ Hi) as Hq. pose proof (H8 _ _ Hi) as Hs. simpl in *. constructor; simpl; rewrite ?insert_length; try done.
      + rewrite registered_app. simpl. lia.
      + by rewrite syncing_app.
      + intros x l [(-> & <- & _)|[Hne Hx]]%list_lookup_insert_Some; [by eexists|by apply H6].
      + intros x l [(-> & <- & _)|[Hne Hx]]%list_lookup_insert_Some; [simpl; intros _; by apply Hq|by eapply H7].
      + intros x l [(-> & <- & _)|[Hne Hx]]%list_lookup_insert_Some; [done|by eapply H8].
      + intros x. rewrite expected_snoc, of_lis_snoc, H9. simpl. rewrite app_nil_r. f_equal; [case_decide; [by rewrite accepted_snoc, app_nil_r|by rewrite app_nil_r]|].
        unfold todo_of, todo, busy; simpl. rewrite Hi, list_lookup_insert by (by eapply lookup_lt_Some). done.
    - destruct HF as [H1 H2 H3 H4 H5 H6 H7 H8 H9]. simpl in *. inversion Hl; subst; clear Hl. pose proof (H8 _ _ Hi) as Hs. simpl in *.
      assert (Hidle : ∀ x l, <[i:=Lis AIdle None st p pe nq r]> ls !! x = Some l → l_adder l = AIdle).
      { intros x l [(-> & <- & _)|[Hne Hx]]%list_lookup_insert_Some; [done|]. apply H6 in Hx. destruct (l_adder l); [done|..]; naive_solver. }
      constructor; simpl; rewrite ?insert_length; try done.
      + rewrite registered_app. simpl. lia.
      + by rewrite syncing_app.
      + intros x m Hx. apply (H5 x m). by right.
      + intros x l Hx. by rewrite (Hidle _ _ Hx).
      + intros x l [(-> & <- & _)|[Hne Hx]]%list_lookup_insert_Some; [done|by eapply H7].
      + intros x l [(-> & <- & _)|[Hne Hx]]%list_lookup_insert_Some; [done|by eapply H8].
      + intros x. rewrite expected_snoc, of_lis_snoc, H9. simpl. rewrite app_nil_r. f_equal; [case_decide; [by rewrite accepted_snoc, app_nil_r|by rewrite app_nil_r]|].
        unfold todo_of, todo. rewrite (idle_busy (Fan (<[i:=_]> ls) _ _)) by done. unfold busy. simpl. by rewrite Hi.
    - destruct HF as [H1 H2 H3 H4 H5 H6 H7 H8 H9]. simpl in *. destruct (inner_step _ _ _ Hl Hin) as [Hs [(n & -> & Ha & Ha')|(Hnp & Ha & Hq)]].
      + pose proof (H6 _ _ Hi) as Hj. rewrite Ha in Hj. destruct Hj as [rest ->]. constructor; simpl; rewrite ?insert_length; try done.
        * rewrite registered_app. simpl. lia.
        * by rewrite syncing_app.
        * intros x l0 [(-> & <- & _)|[Hne Hx]]%list_lookup_insert_Some; [rewrite Ha'; by eexists _, _|by apply H6].
        * intros x l0 [(-> & <- & _)|[Hne Hx]]%list_lookup_insert_Some; [done|by eapply H7].
        * intros x l0 [(-> & <- & _)|[Hne Hx]]%list_lookup_insert_Some; [rewrite Hs; by eapply H8|by eapply H8].
        * intros x. rewrite expected_snoc, of_lis_snoc, H9. simpl. rewrite app_nil_r. unfold todo_of, todo, busy. simpl. rewrite Hi, list_lookup_insert by (by eapply lookup_lt_Some). simpl. rewrite Ha, Ha'. simpl.
          destruct (decide (x = i)) as [->|Hne]; [|by rewrite app_nil_r]. rewrite accepted_snoc, <-app_assoc. done.
      + constructor; simpl; rewrite ?insert_length; try done.
        * rewrite registered_app. simpl. lia.
        * by rewrite syncing_app.
        * intros x l0 [(-> & <- & _)|[Hne Hx]]%list_lookup_insert_Some; [rewrite Ha; by apply H6|by apply H6].
        * intros x l0 [(-> & <- & _)|[Hne Hx]]%list_lookup_insert_Some; [rewrite Ha; intros; by eapply Hq, H7|by eapply H7].
        * intros x l0 [(-> & <- & _)|[Hne Hx]]%list_lookup_insert_Some; [rewrite Hs; by eapply H8|by eapply H8].
        * intros x. rewrite expected_snoc, of_lis_snoc, H9. simpl. rewrite app_nil_r. f_equal.
          -- case_decide; [|by rewrite app_nil_r]. rewrite accepted_snoc. destruct lab; rewrite ?app_nil_r; try done. by destruct (Hnp n).
          -- unfold todo_of, todo. f_equal. assert (busy (Fan (<[i:=l']> ls) sy job) = busy (Fan ls sy job)) as ->; [|done]. unfold busy. simpl. destruct job as [|[j m] job]; [done|].
             destruct (decide (i = j)) as [->|Hne]; [rewrite Hi, list_lookup_insert by (by eapply lookup_lt_Some); simpl; by rewrite Ha|by rewrite list_lookup_insert_ne].
  Qed.
  Lemma FI_reach tr s : reach fstep init tr s → FI tr s.
  Proof. induction 1; [apply FI_init|by eapply FI_step]. Qed.

  Local Arguments mine : simpl never.
  Lemma calls_none i tr s : reach fstep init tr s → length (f_ls s) ≤ i → calls i tr = [].
  Proof. intros Hr Hi. by rewrite calls_handled, (proj1 (lis_reach _ _ Hr)). Qed.
  Lemma calls_prefix i tr s : reach fstep init tr s → calls i tr `prefix_of` expected i tr.
  Proof.
    intros Hr. rewrite (fi_flow _ _ (FI_reach _ _ Hr) i). destruct (f_ls s !! i) as [l|] eqn:Hi.
    - rewrite calls_handled. apply prefix_app_r. eapply handled_prefix. by apply (lis_reach _ _ Hr).
    - rewrite (calls_none _ _ _ Hr) by (by apply lookup_ge_None). apply prefix_nil.
  Qed.

  (** ** The distribution waits for every handler *)
  Definition once i s : Prop := i < length (f_ls s) ∧ length (mine i (f_job s)) ≤ 1.
  Lemma once_step i s l s' : NoDup (f_sync s) → once i s → fstep s l s' → once i s'.
  Proof.
    unfold once. intros Hn [Hlt Hle] Hst. destruct Hst as [ls sy items|ls sy n sync|ls sy job due Hdue|ls sy j n job l l' Hi Hl|ls sy j n job l l' Hi Hl|ls sy job j l lab l' Hi Hin Hl]; simpl in *; rewrite ?insert_length; try done.
    - rewrite app_length. split; [lia|]. rewrite job_items, decide_False by lia. simpl. lia.
    - split; [done|]. rewrite job_each by (destruct sync; [done|apply NoDup_seq]). case_decide; simpl; lia.
    - split; [done|]. rewrite mine_cons, app_length in Hle. lia.
  Qed.
  Lemma once_reach i tr0 s0 tr s : FI tr0 s0 → once i s0 → reach fstep s0 tr s → FI (tr0 ++ tr) s ∧ once i s.
  Proof.
    intros HF Ho. induction 1 as [|tr s1 l s2 Hr [IH1 IH2] Hst]; [by rewrite app_nil_r|]. rewrite app_assoc. split; [by eapply FI_step|].
    eapply once_step; [apply (fi_nodup _ _ IH1)|done..].
  Qed.
  Lemma behind i tr s : reach fstep init tr s → once i s → length (expected i tr) ≤ length (calls i tr) + 4.
  Proof.
    intros Hr [Hlt Hle]. pose proof (FI_reach _ _ Hr) as HF. destruct (lookup_lt_is_Some_2 _ _ Hlt) as [l Hl]. pose proof (proj2 (lis_reach _ _ Hr) _ _ Hl) as Hlr.
    pose proof (ahead_inv _ _ Hlr) as Ha. rewrite (fi_flow _ _ HF), calls_handled, app_length. unfold room in Ha. pose proof (fi_adder _ _ HF _ _ Hl) as Had.
    assert (length (todo_of i s) ≤ 1).
    { unfold todo_of, todo. destruct (busy s); [|done]. destruct (f_job s) as [|[j m] job]; simpl; [unfold mine; simpl; lia|]. rewrite mine_cons, app_length in Hle. lia. }
    assert (Hc : (∃ n job, f_job s = (i, n) :: job ∧ l_adder l = AJoining) ∨ l_adder l ≠ AJoining).
    { destruct (l_adder l); [by right..|]. left. naive_solver. }
    destruct Hc as [(n & job & Hj & HJ)|Hn].
    - assert (length (todo_of i s) = 0); [|lia]. unfold todo_of, todo, busy. rewrite Hj, Hl. simpl. rewrite HJ. simpl. rewrite Hj, mine_cons, app_length in Hle. simpl in Hle. rewrite decide_True in Hle by done. simpl in Hle. lia.
    - rewrite (fi_given _ _ HF _ _ Hl Hn) in Ha. lia.
  Qed.
  Lemma for_all_cons l tr : for_all (l :: tr) = (match l with FDistribute _ false => 1 | _ => 0 end) + for_all tr.
  Proof. unfold for_all. by destruct l as [|n []| |]. Qed.
  Lemma expected_least i k sy tr : i < k → for_all tr ≤ length (expected_from i k sy tr).
  Proof.
    revert k sy. induction tr as [|l tr IH]; intros k sy Hk; [done|]. rewrite for_all_cons. destruct l as [items|n []|due|j ll]; simpl; rewrite ?app_length.
    - specialize (IH (S k) (sy ++ [k])). lia.
    - specialize (IH k sy Hk). lia.
    - rewrite decide_True by done. specialize (IH k sy Hk). simpl. lia.
    - by apply IH.
    - by apply IH.
  Qed.
  Lemma expected_exact i k sy tr : i < k → (∀ n, FDistribute n true ∉ tr) → length (expected_from i k sy tr) = for_all tr.
  Proof.
    revert k sy. induction tr as [|l tr IH]; intros k sy Hk Hn; [done|]. rewrite for_all_cons.
    assert (Hn' : ∀ n, FDistribute n true ∉ tr) by (intros n ?; apply (Hn n); by right). destruct l as [items|n []|due|j ll]; simpl; rewrite ?app_length.
    - rewrite decide_False by lia. rewrite IH; [done|lia|done].
    - destruct (Hn n). left.
    - rewrite decide_True by done. rewrite IH by done. done.
    - by apply IH.
    - by apply IH.
  Qed.
  Lemma span i tr0 s0 tr s : reach fstep init tr0 s0 → f_job s0 = [] → i < length (f_ls s0) → reach fstep s0 tr s →
    length (expected i tr0) ≤ length (calls i tr0) + 4 ∧ length (expected i (tr0 ++ tr)) ≤ length (calls i tr0) + length (calls i tr) + 4.
  Proof.
    intros Hr0 He Hlt Hr. assert (Ho : once i s0) by (split; [done|]; rewrite He; simpl; lia). split; [by eapply behind|].
    destruct (once_reach i _ _ _ _ (FI_reach _ _ Hr0) Ho Hr) as [_ Ho']. pose proof (behind i _ _ (reach_app _ _ _ _ _ _ Hr0 Hr) Ho') as H. rewrite calls_app, app_length in H. lia.
  Qed.
  Lemma waits_for i tr0 s0 tr s : reach fstep init tr0 s0 → f_job s0 = [] → i < length (f_ls s0) → reach fstep s0 tr s → for_all tr ≤ length (calls i tr) + 4.
  Proof.
    intros Hr0 He Hlt Hr. destruct (span i _ _ _ _ Hr0 He Hlt Hr) as [_ H]. unfold expected in H. rewrite expected_app, app_length in H.
    pose proof (prefix_length _ _ (calls_prefix i _ _ Hr0)) as Hp. unfold expected in Hp.
    pose proof (expected_least i (0 + registered tr0) (syncing 0 [] tr0) tr) as Hl. rewrite <-(fi_reg _ _ (FI_reach _ _ Hr0)) in Hl. rewrite <-(fi_reg _ _ (FI_reach _ _ Hr0)) in H. specialize (Hl Hlt). lia.
  Qed.
  Lemma lockstep i j tr0 s0 tr s : reach fstep init tr0 s0 → f_job s0 = [] → i < length (f_ls s0) → j < length (f_ls s0) → reach fstep s0 tr s →
    (∀ n, FDistribute n true ∉ tr) → length (calls j tr) ≤ length (calls i tr) + 8.
  Proof.
    intros Hr0 He Hi Hj Hr Hn. pose proof (waits_for i _ _ _ _ Hr0 He Hi Hr) as Hw. destruct (span j _ _ _ _ Hr0 He Hj Hr) as [H _].
    pose proof (prefix_length _ _ (calls_prefix j _ _ (reach_app _ _ _ _ _ _ Hr0 Hr))) as Hp. rewrite calls_app, app_length in Hp. unfold expected in Hp, H. rewrite expected_app, app_length in Hp.
    rewrite (expected_exact j (0 + registered tr0)) in Hp; [lia| |done]. rewrite <-(fi_reg _ _ (FI_reach _ _ Hr0)). done.
  Qed.

  (** ** Everything is delivered *)
  Definition idle_at i s : bool := match l_adder <$> (f_ls s !! i) with Some AIdle => true | _ => false end.
  Definition jobw s : nat := match f_job s with [] => 0 | (i, _) :: rest => (if idle_at i s then 14 else 1) + 14 * length rest end.
  Definition fweight s : nat := total weight (f_ls s) + jobw s.
  Lemma fweight_step s l s' : fstep s l s' → ¬ arrives l → fweight s' < fweight s.
  Proof.
    destruct 1 as [ls sy items|ls sy n sync|ls sy job due Hdue|ls sy i n job l l' Hi Hl|ls sy i n job l l' Hi Hl|ls sy job i l lab l' Hi Hin Hl]; intros Hna; try (by destruct Hna); unfold fweight, jobw, idle_at; simpl;
      pose proof (total_insert weight ls i _ l' Hi) as Ht.
    - rewrite Hi, list_lookup_insert by (by eapply lookup_lt_Some). inversion Hl; subst. unfold weight, got_part, cur_part in Ht |- *; simpl in *. lia.
    - pose proof (weight_step _ _ _ Hl I). rewrite Hi. inversion Hl; subst. simpl in *. destruct job as [|[j m] job]; simpl; [lia|]. case_match; lia.
    - assert (task_step lab) as Htk by (by destruct lab). pose proof (weight_step _ _ _ Hl Htk). destruct job as [|[j m] job]; [lia|].
      assert ((match l_adder <$> (<[i:=l']> ls !! j) with Some AIdle => true | _ => false end) = (match l_adder <$> (ls !! j) with Some AIdle => true | _ => false end)) as ->; [|lia].
      destruct (decide (i = j)) as [->|Hne]; [|by rewrite list_lookup_insert_ne]. rewrite Hi, list_lookup_insert by (by eapply lookup_lt_Some). simpl.
      destruct (inner_step _ _ _ Hl Hin) as [_ [(n & _ & -> & ->)|(_ & -> & _)]]; done.
  Qed.
  Lemma ends s : ∃ b, ∀ tr s', reach fstep s tr s' → (∀ l, l ∈ tr → ¬ arrives l) → length tr ≤ b.
  Proof.
    exists (fweight s). intros tr s' Hr. enough ((∀ l, l ∈ tr → ¬ arrives l) → length tr + fweight s' ≤ fweight s) as H by (intros Ht; specialize (H Ht); lia).
    induction Hr as [|tr s1 l s2 Hr IH Hst]; intros Ht; [simpl; lia|]. rewrite app_length. simpl.
    pose proof (fweight_step _ _ _ Hst (Ht l ltac:(apply elem_of_app; right; by left))). assert (length tr + fweight s1 ≤ fweight s) by (apply IH; intros; apply Ht, elem_of_app; by left). lia.
  Qed.
  Lemma delivered tr s : reach fstep init tr s → (∀ l s', fstep s l s' → arrives l) → f_job s = [] ∧ ∀ i, calls i tr = expected i tr.
  Proof.
    intros Hr Hq. pose proof (FI_reach _ _ Hr) as HF. destruct s as [ls sy job].
    assert (Hl : ∀ i l, ls !! i = Some l → inflight l = [] ∧ l_adder l = AIdle ∧ l_pump l ≠ PStopped).
    { intros i l Hi. pose proof (proj2 (lis_reach _ _ Hr) _ _ Hi) as Hlr. pose proof (shape_reach _ _ Hlr) as Hs. pose proof (fi_stop _ _ HF _ _ Hi) as Hst.
      destruct (quiet_empty l Hs Hst) as (H1 & H2 & _).
      - intros lab l' Hstep Htk. destruct (inner lab) eqn:Hin.
        + by destruct (Hq _ _ (f_lis ls sy job _ _ _ _ Hi Hin Hstep)).
        + destruct lab; try done. assert (l_adder l = AJoining) as Ha by (by inversion Hstep). pose proof (fi_adder _ _ HF _ _ Hi) as Hj. rewrite Ha in Hj. destruct Hj as (n & rest & Hj). simpl in Hj. subst job.
          by destruct (Hq _ _ (f_joined ls sy i n rest _ _ Hi Hstep)).
      - split; [done|]. split; [done|]. intros Hp. destruct Hs as [Hs _]. rewrite Hp in Hs. congruence. }
    assert (job = []) as ->.
    { destruct job as [|[i n] job]; [done|]. assert (i < length ls) as Hlt by (apply (fi_joblt _ _ HF i n); simpl; left). destruct (lookup_lt_is_Some_2 _ _ Hlt) as [l Hi].
      destruct (Hl _ _ Hi) as (_ & Ha & _). destruct l as [a q st p pe nq r]. simpl in Ha. subst a. by destruct (Hq _ _ (f_add ls sy i n job _ _ Hi (l_add n q st p pe nq r))). }
    split; [done|]. intros i. rewrite (fi_flow _ _ HF i). unfold todo_of, todo, busy. simpl. rewrite app_nil_r. rewrite calls_handled.
    destruct (ls !! i) as [l|] eqn:Hi.
    - destruct (Hl _ _ Hi) as (H1 & _ & H3). pose proof (proj2 (lis_reach _ _ Hr) _ _ Hi) as Hf%flow_reach. unfold flow in Hf. rewrite H1, app_nil_r in Hf. destruct (l_pump l); done.
    - rewrite (proj1 (lis_reach _ _ Hr)); [done|]. by apply lookup_ge_None.
  Qed.
End proofs.

(** ** Cases: two handlers, the first of which does not return *)
Definition fl i ls : list (flabel nat) := FLis i <$> ls.
Definition boot_tr : list (flabel nat) := [FRegister []; FRegister []] ++ fl 0 [LStartPump; LStartRun] ++ fl 1 [LStartPump; LStartRun].
Definition pass n : list (llabel nat) := [LAdd n; LPut n; LGet; LJoined; LWake; LPutNext; LWake].
Definition take n : list (llabel nat) := [LFetch; LNextJoined; LCall n].
Definition stuck_tr : list (flabel nat) :=
  boot_tr ++ FDistribute 1 false :: fl 0 (pass 1 ++ take 1) ++ fl 1 (pass 1 ++ take 1 ++ [LReturn])
  ++ FDistribute 2 false :: fl 0 (pass 2) ++ fl 1 (pass 2 ++ take 2 ++ [LReturn])
  ++ FDistribute 3 false :: fl 0 [LAdd 3; LPut 3].
Definition stuck_s : fan nat := Fan [Lis AJoining (Some 3) false PJoin [] (Some 2) (RHandling 1); Lis AIdle None false (PWait None None false) [] None RWait] [0; 1] [(0, 3); (1, 3)].
Ltac fgo := eapply reach_do; [econstructor; [try reflexivity..]; try (econstructor; naive_solver)|]; simpl.
Lemma stuck_runs : reach fstep fan_init stuck_tr stuck_s.
Proof.
  unfold stuck_tr, boot_tr, fl, pass, take. simpl. repeat fgo. apply reach_nil.
Qed.
Lemma stuck_holds l s' : fstep stuck_s l s' → returns 0 l ∨ ∃ due, l = FResync due.
Proof.
  intros Hst. inversion Hst as [| |ls sy job due Hdue|ls sy i n job l0 l' Hi Hl|ls sy i n job l0 l' Hi Hl|ls sy job i l0 lab l' Hi Hin Hl]; subst; [right; by eexists|..]; left.
  - simplify_eq/=. inversion Hl.
  - simplify_eq/=. inversion Hl.
  - destruct i as [|[|i]]; simplify_eq/=; inversion Hl; subst; simpl in *; try done; try (by left); try (by right); try naive_solver.
Qed.
Lemma isolation_refuted : ∃ tr (s : fan nat), reach fstep fan_init tr s ∧ expected 1 tr = [1; 2; 3] ∧ calls 1 tr = [1; 2] ∧ calls 0 tr = [1] ∧ ∀ l s', fstep s l s' → returns 0 l ∨ ∃ due, l = FResync due.
Proof. exists stuck_tr, stuck_s. split; [apply stuck_runs|]. do 3 (split; [by vm_compute|]). apply stuck_holds. Qed.
(** a resync is for the handler that is due *)
Definition sync_tr : list (flabel nat) := boot_tr ++ FResync [1] :: FDistribute 7 true :: fl 1 (pass 7 ++ take 7 ++ [LReturn]) ++ FRegister [8] :: fl 2 ([LStartPump; LStartRun] ++ pass 8 ++ take 8 ++ [LReturn]).
Definition rest_l : lis nat := Lis AIdle None false (PWait None None false) [] None RWait.
Lemma sync_runs : reach fstep fan_init sync_tr (Fan [rest_l; rest_l; rest_l] [1; 2] []).
Proof. unfold sync_tr, boot_tr, fl, pass, take. simpl. repeat fgo; try apply reach_nil. Qed.
Lemma sync_case : calls 0 sync_tr = [] ∧ calls 1 sync_tr = [7] ∧ calls 2 sync_tr = [8] ∧ expected 0 sync_tr = [] ∧ expected 1 sync_tr = [7] ∧ expected 2 sync_tr = [8].
Proof. by vm_compute. Qed.
