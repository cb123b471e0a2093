(** Concrete runs of the shared informer. *)
From Verif Require Import Base DeltaFifo_model DeltaFifo_spec Store_model Informer_model Informer_spec SharedInformer_model SharedInformer_spec SharedInformer_proofs2 Informer_proofs5.

Notation sh_state := (shared nat (nat * nat) nat nat).
Notation sh_hist := (list (hop nat (nat * nat) * hres nat (nat * nat))).
Notation sh_step := (hstep (V:=nat) (N:=nat) icase_key 1%Z 10%Z).
Definition sh_init : sh_state := shared_init 10%Z [].
Lemma sh_runs s (l : list (hop nat (nat * nat))) : exec sh_step s (run sh_step s l).2 (run sh_step s l).1.
Proof. pose proof (run_exec sh_step s l) as H. by destruct (run sh_step s l). Qed.

Definition told_b (i : nat) (s : sh_state) (r : hres nat (nat * nat)) : bool :=
  match r with
  | HI (ICallback n) => negb (is_sync n) || bool_decide (i ∈ p_syncing (h_proc s)) || bool_decide (length (p_ls (h_proc s)) <= i) ||
      match n with NUpdate (DObj o) (DObj o') _ => bool_decide (o = o') | _ => false end
  | _ => true
  end.
Lemma told_b_true i s r : told_b i s r = true → told i s r.
Proof.
  intros Hb n -> Hs Hl. simpl in Hb. rewrite Hs in Hb. simpl in Hb. rewrite (bool_decide_false (length _ <= i)) in Hb by lia. rewrite orb_false_r in Hb.
  apply orb_true_iff in Hb as [H%bool_decide_eq_true|Hb]; [by left|right]. destruct n as [|[o|] [o'|] b|]; try done. apply bool_decide_eq_true in Hb as ->. by eexists _, _.
Qed.
Fixpoint told_all (i : nat) (s : sh_state) (l : list (hop nat (nat * nat))) : bool :=
  match l with [] => true | c :: l => told_b i s (sh_step s c).2 && told_all i (sh_step s c).1 l end.
Lemma told_reach i s l : told_all i s l = true → reach (λ s c s', ∃ r, sh_step s c = (s', r) ∧ told i s r) s l (run sh_step s l).1.
Proof.
  revert s. induction l as [|c l IH]; intros s; simpl; [intros _; apply reach_nil|]. intros [H1 H2]%andb_true_iff. destruct (sh_step s c) as [s1 r] eqn:Hst. simpl in *.
  specialize (IH _ H2). destruct (run sh_step s1 l). simpl in *. eapply reach_cons; [|done]. exists r. split; [done|]. by apply told_b_true.
Qed.

Definition PCycle : list (hop nat (nat * nat)) := [HInf PPop; HInf PDelta; HInf PDone].
(** one handler before the start, one after the first list; a watch event, a resync check, a resync *)
Definition join_cs : list (hop nat (nat * nat)) :=
  [HRegister (Some 0%Z) 0%Z; HRun; HInf (QReplace [(1, 10); (2, 20)])] ++ PCycle ++ PCycle ++ [HRegister (Some 5%Z) 1%Z; HInf (QUpdate (2, 21))] ++ PCycle.
Definition join_s : sh_state := (run sh_step sh_init join_cs).1.
Definition later_h : sh_hist := Eval vm_compute in
  (run sh_step join_s ([HShouldResync 11%Z; HInf QResync] ++ PCycle ++ PCycle ++ [HInf (QDelete (1, 12)); HInf (QAdd (3, 30))] ++ PCycle ++ PCycle)).2.
Definition later_s : sh_state := (run sh_step join_s later_h.*1).1.
Lemma join_case : (∀ i, i < 2 → reach (λ s c s', ∃ r, sh_step s c = (s', r) ∧ told i s r) sh_init join_cs join_s) ∧ drained (h_inf join_s) ∧
  l_log <$> p_ls (h_proc join_s) = [[NAdd (obj 1 10) true; NAdd (obj 2 20) true; NUpdate (obj 2 20) (obj 2 21) false];
    [NAdd (obj 1 10) false; NAdd (obj 2 20) false; NUpdate (obj 2 20) (obj 2 21) false]].
Proof.
  split; [|by vm_compute]. intros i Hi. apply told_reach. destruct i as [|[|]]; [by vm_compute..|lia].
Qed.
Lemma later_case : exec sh_step join_s later_h later_s ∧ (∀ c r os, (c, r) ∈ later_h → c ≠ HInf (QReplace os)) ∧ p_syncing (h_proc later_s) = [1] ∧
  l_log <$> p_ls (h_proc later_s) = [[NAdd (obj 1 10) true; NAdd (obj 2 20) true; NUpdate (obj 2 20) (obj 2 21) false; NDelete (obj 1 12); NAdd (obj 3 30) false];
    [NAdd (obj 1 10) false; NAdd (obj 2 20) false; NUpdate (obj 2 20) (obj 2 21) false; NUpdate (obj 1 10) (obj 1 10) true; NUpdate (obj 2 21) (obj 2 21) true;
     NDelete (obj 1 12); NAdd (obj 3 30) false]].
Proof.
  split; [exact (sh_runs join_s later_h.*1)|]. split; [|by vm_compute]. intros c r os He. unfold later_h in He.
  repeat (apply elem_of_cons in He as [[= -> ->]|He]; [done|]). by apply elem_of_nil in He.
Qed.

(** C48: after a check that found no handler due, a relist is announced to no handler *)
Definition silent_h : sh_hist := Eval vm_compute in
  (run sh_step sh_init ([HRegister (Some 0%Z) 0%Z; HRun; HInf (QReplace [(1, 10)])] ++ PCycle ++ [HShouldResync 20%Z; HInf (QReplace [(1, 11); (2, 20)])] ++ PCycle ++ PCycle)).2.
Lemma silent_relist : ∃ h s l, exec sh_step sh_init h s ∧ drained (h_inf s) ∧ p_ls (h_proc s) = [l] ∧ l_log l = [NAdd (obj 1 10) true] ∧
  (HInf PDelta, HI (ICallback (NUpdate (obj 1 10) (obj 1 11) true))) ∈ h ∧ (HInf PDelta, HI (ICallback (NAdd (obj 2 20) true))) ∈ h ∧
  (icase_step (h_inf s) (SLook 1)).2 = IObj (Some (obj 1 11)) ∧ (icase_step (h_inf s) (SLook 2)).2 = IObj (Some (obj 2 20)).
Proof.
  exists silent_h, (run sh_step sh_init silent_h.*1).1, (Lst 0%Z 0%Z 0%Z [NAdd (obj 1 10) true]). split; [exact (sh_runs sh_init silent_h.*1)|]. split; [by vm_compute|]. split; [by vm_compute|]. split; [by vm_compute|].
  unfold silent_h. split; [repeat (first [apply elem_of_list_here|apply elem_of_list_further])|]. split; [repeat (first [apply elem_of_list_here|apply elem_of_list_further])|by vm_compute].
Qed.

(** C49: before the start two handlers ask for 5 and 3 units, after it one for 2 *)
Definition period_cs : list (hop nat (nat * nat)) := [HRegister (Some 5%Z) 0%Z; HRegister (Some 3%Z) 0%Z; HRun; HRegister (Some 2%Z) 1%Z].
Definition period_s : sh_state := (run sh_step sh_init period_cs).1.
Lemma period_case : exec sh_step sh_init (run sh_step sh_init period_cs).2 period_s ∧ p_check (h_proc period_s) = 3%Z ∧ l_period <$> p_ls (h_proc period_s) = [5; 3; 3]%Z ∧
  (∀ t, p_syncing (h_proc (sh_step period_s (HShouldResync t)).1) = if bool_decide (t < 3)%Z then [] else if bool_decide (t < 4)%Z then [1] else if bool_decide (t < 5)%Z then [1; 2] else [0; 1; 2]).
Proof.
  split; [exact (sh_runs sh_init period_cs)|]. split; [by vm_compute|]. split; [by vm_compute|]. intros t.
  change (p_syncing (h_proc (sh_step period_s (HShouldResync t)).1)) with
    (omap (λ il : nat * lst (notif nat (nat * nat)), if due t il.2 then Some il.1 else None) (imap (λ i l, (i, l)) (p_ls (h_proc period_s)))).
  assert (imap (λ i l, (i, l)) (p_ls (h_proc period_s)) = [(0%nat, Lst 5 5 5 []); (1%nat, Lst 3 3 3 []); (2%nat, Lst 3 3 4 [])]%Z) as -> by by vm_compute. unfold due. simpl.
  repeat case_bool_decide; simpl; try done; lia.
Qed.
