(** Lemmas for Twice_props.v. *)
From Verif Require Import Base WorkQueue_model Twice_model Twice_spec.
From Coq Require Import ZArith.
Local Open Scope nat_scope.

Section proofs.
  Context {A : Type} `{EqDecision A}.
  Implicit Types (s : tctl A) (x : A) (q : wq A) (tr : list (tlab A)).
  Notation tstep := (tstep (A:=A)).

  Lemma count_snoc P tr l : count P (tr ++ [l]) = count P tr + (if P l then 1 else 0).
  Proof. unfold count. rewrite List.filter_app, app_length. simpl. by destruct (P l). Qed.
  Lemma count_cons P tr l : count P (l :: tr) = (if P l then 1 else 0) + count P tr.
  Proof. unfold count. simpl. by destruct (P l). Qed.

  (** sums over a list whose elements are replaced *)
  Fixpoint total {B : Type} (f : B → nat) (l : list B) : nat := match l with [] => 0 | b :: l => f b + total f l end.
  Lemma total_app {B} (f : B → nat) l l' : total f (l ++ l') = total f l + total f l'.
  Proof. induction l; simpl; lia. Qed.
  Lemma total_insert {B} (f : B → nat) l i b b' : l !! i = Some b → total f (<[i:=b']> l) + f b = total f l + f b'.
  Proof. revert i. induction l as [|c l IH]; intros [|i] Hi; simplify_eq/=; [lia|]. specialize (IH _ Hi). lia. Qed.
  Lemma total_pos {B} (f : B → nat) l i b : l !! i = Some b → f b ≤ total f l.
  Proof. revert i. induction l as [|c l IH]; intros [|i] Hi; simplify_eq/=; [lia|]. specialize (IH _ Hi). lia. Qed.
  Lemma total_bound {B} (f : B → nat) l : (∀ b, f b ≤ 1) → total f l ≤ length l.
  Proof. intros Hf. induction l as [|b l IH]; simpl; [lia|]. specialize (Hf b). lia. Qed.
  Lemma total_bound_one {B} (f : B → nat) l i b : (∀ b, f b ≤ 1) → l !! i = Some b → f b = 0 → total f l ≤ length l - 1.
  Proof.
    intros Hf. revert i. induction l as [|c l IH]; intros [|i] Hi H0; simplify_eq/=; [rewrite H0; pose proof (total_bound f l Hf); lia|].
    specialize (IH _ Hi H0). specialize (Hf c). apply lookup_lt_Some in Hi. lia.
  Qed.

  Definition in_proc x q : nat := if decide (x ∈ wq_proc q) then 1 else 0.
  Definition holds x (p : tphase A) : nat := match p with PRun y | PFin y _ => if decide (x = y) then 1 else 0 | _ => 0 end.
  Lemma in_proc_le x q : in_proc x q ≤ 1.
  Proof. unfold in_proc. case_decide; lia. Qed.
  Lemma in_proc_iff y q q' : (y ∈ wq_proc q' ↔ y ∈ wq_proc q) → in_proc y q' = in_proc y q.
  Proof. unfold in_proc. repeat case_decide; tauto. Qed.
  Lemma in_proc_1 y q : y ∈ wq_proc q → in_proc y q = 1.
  Proof. intros. unfold in_proc. by rewrite decide_True. Qed.
  Lemma in_proc_0 y q : y ∉ wq_proc q → in_proc y q = 0.
  Proof. intros. unfold in_proc. by rewrite decide_False. Qed.
  Definition sound q : Prop := wq_down q = false ∧ NoDup (wq_queue q) ∧ ∀ y, y ∈ wq_queue q → y ∈ wq_dirty q ∧ y ∉ wq_proc q.
  Lemma sound_init : sound wq_init.
  Proof. split; [done|]. split; [constructor|]. by intros y ?%elem_of_nil. Qed.

  Lemma get_sound q q' x : sound q → wstep q Get = (q', RItem x) → sound q' ∧ in_proc x q = 0 ∧ in_proc x q' = 1 ∧ ∀ y, y ≠ x → in_proc y q' = in_proc y q.
  Proof.
    intros (Hd & Hn & Hq) Hg. simpl in Hg. unfold wq_get in Hg. destruct q as [d p [|y r] dn]; simpl in *; subst; [done|]. simplify_eq/=.
    apply NoDup_cons in Hn as [Hx Hn]. destruct (Hq x) as [Hxd Hxp]; [by left|]. split; [|split; [|split]].
    - split; [done|]. split; [done|]. simpl. intros y Hy. destruct (Hq y) as [? ?]; [by right|]. assert (y ≠ x) by (by intros ->).
      rewrite elem_of_srem, elem_of_sadd. naive_solver.
    - by apply in_proc_0.
    - apply in_proc_1. simpl. rewrite elem_of_sadd. by left.
    - intros y Hy. apply in_proc_iff. simpl. rewrite elem_of_sadd. naive_solver.
  Qed.
  Lemma add_sound q q' x : sound q → wstep q (Add x) = (q', RNone) → sound q' ∧ ∀ y, in_proc y q' = in_proc y q.
  Proof.
    intros (Hd & Hn & Hq) Hg. destruct q as [d p qu dn]; simpl in *. unfold wq_add in Hg. simpl in *. subst dn. simpl in Hg.
    destruct (decide (x ∈ d)) as [?|Hx]; [simplify_eq/=; split; [split; [done|]; by split|done]|]. destruct (decide (x ∈ p)) as [?|Hp]; simplify_eq/=.
    - split; [|done]. split; [done|]. split; [done|]. simpl. intros y Hy. rewrite elem_of_sadd. naive_solver.
    - split; [|done]. split; [done|]. split; simpl.
      + apply NoDup_app. split; [done|]. split; [|apply NoDup_singleton]. intros y Hy ->%elem_of_list_singleton. naive_solver.
      + intros y [Hy| ->%elem_of_list_singleton]%elem_of_app; rewrite elem_of_sadd; naive_solver.
  Qed.
  Lemma done_sound q q' x : sound q → wstep q (Done x) = (q', RNone) → sound q' ∧ in_proc x q = 1 ∧ in_proc x q' = 0 ∧ ∀ y, y ≠ x → in_proc y q' = in_proc y q.
  Proof.
    intros (Hd & Hn & Hq) Hg. destruct q as [d p qu dn]; simpl in *. subst dn. unfold wq_done in Hg. simpl in Hg.
    destruct (decide (x ∈ p)) as [Hx|?]; [|done]. assert (Hout : ∀ q', wq_proc q' = srem x p → in_proc x (WQ d p qu false) = 1 ∧ in_proc x q' = 0 ∧ ∀ y, y ≠ x → in_proc y q' = in_proc y (WQ d p qu false)).
    { intros r Hr. split; [by apply in_proc_1|]. split; [apply in_proc_0; rewrite Hr, elem_of_srem; naive_solver|].
      intros y Hy. apply in_proc_iff. rewrite Hr, elem_of_srem. simpl. naive_solver. }
    destruct (decide (x ∈ d)) as [Hxd|Hxd]; simplify_eq/=.
    - split; [|by apply Hout]. split; [done|]. split; simpl.
      + apply NoDup_app. split; [done|]. split; [|apply NoDup_singleton]. intros y Hy ->%elem_of_list_singleton. naive_solver.
      + intros y [Hy| ->%elem_of_list_singleton]%elem_of_app; rewrite elem_of_srem; naive_solver.
    - split; [|by apply Hout]. split; [done|]. split; simpl; [done|]. intros y Hy. rewrite elem_of_srem. naive_solver.
  Qed.
  Lemma done_raises_proc q x : wstep q (Done x) = (q, RKeyError) → in_proc x q = 0.
  Proof. simpl. unfold wq_done, in_proc. case_decide; [|done]. repeat case_decide; done. Qed.

  Record TI tr s : Prop := {
    ti_starts : length (t_qs s) = starts tr;
    ti_sound : Forall sound (t_qs s);
    ti_held x : takes x tr = rets x tr + total (holds x) (t_ws s);
    ti_proc x : total (holds x) (t_ws s) + errors x tr = total (in_proc x) (t_qs s);
    ti_errors x : errors x tr ≤ starts tr - 1
  }.
  Lemma TI_reach tr s : reach tstep tctl_init tr s → TI tr s.
  Proof.
    induction 1 as [|tr s l s' Hr IH Hst]; [split; simpl; [done|constructor|done|done|intros; unfold errors, count; simpl; lia]|]. destruct IH as [H1 H2 H3 H4 H5].
    assert (Hq : ∀ k q, t_qs s !! k = Some q → sound q) by (intros k q Hk; by eapply Forall_lookup_1 in H2).
    destruct Hst as [|Hne|w Hw|w k q q' x Hw Hk Hg|w x Hw|w x b q q' Hw Hk Hd|w x b q Hw Hk Hd|k q q' x Hk Ha|w p Hw].
    - split; unfold starts, takes, rets, errors in *; simpl; intros; rewrite ?app_length, ?count_snoc; simpl; rewrite ?Nat.add_0_r; try done; try lia.
      + apply Forall_app. split; [done|]. apply Forall_singleton, sound_init.
      + rewrite total_app. specialize (H4 x). change (total (in_proc x) [wq_init]) with (in_proc x wq_init + 0). rewrite (in_proc_0 x wq_init) by apply not_elem_of_nil. lia.
      + specialize (H5 x). lia.
    - split; unfold starts, takes, rets, errors in *; simpl; intros; rewrite ?count_snoc; simpl; rewrite ?Nat.add_0_r; try done; rewrite total_app; simpl; rewrite ?Nat.add_0_r; done.
    - split; unfold starts, takes, rets, errors in *; simpl; intros; rewrite ?count_snoc; simpl; rewrite ?Nat.add_0_r; try done;
        pose proof (total_insert (holds x) (t_ws s) w _ (PGet (current s)) Hw) as E; simpl in E; rewrite ?Nat.add_0_r in E; rewrite E; done.
    - destruct (get_sound _ _ _ (Hq _ _ Hk) Hg) as (Hs & Hp0 & Hp1 & Hpo).
      split; unfold starts, takes, rets, errors in *; simpl; intros; rewrite ?count_snoc; simpl; rewrite ?Nat.add_0_r, ?insert_length; try done; try (by apply Forall_insert).
      all: pose proof (total_insert (holds x0) (t_ws s) w _ (PRun x) Hw) as E; simpl in E; pose proof (total_insert (in_proc x0) (t_qs s) k _ q' Hk) as F; specialize (H3 x0); specialize (H4 x0);
        destruct (decide (x0 = x)) as [->|Hn]; [rewrite ?bool_decide_eq_true_2 by done|rewrite (Hpo _ Hn) in F; rewrite ?bool_decide_eq_false_2 by done]; lia.
    - split; unfold starts, takes, rets, errors in *; simpl; intros; rewrite ?count_snoc; simpl; rewrite ?Nat.add_0_r; try done;
        pose proof (total_insert (holds x0) (t_ws s) w _ (PFin x false) Hw) as E; simpl in E; specialize (H3 x0); specialize (H4 x0); lia.
    - destruct (done_sound _ _ _ (Hq _ _ Hk) Hd) as (Hs & Hp0 & Hp1 & Hpo).
      split; unfold starts, takes, rets, errors in *; simpl; intros; rewrite ?count_snoc; simpl; rewrite ?Nat.add_0_r, ?insert_length; try done; try (by apply Forall_insert).
      all: pose proof (total_insert (holds x0) (t_ws s) w _ (if b then PEnd else PIdle) Hw) as E; replace (holds x0 (if b then PEnd else PIdle)) with 0 in E by (by destruct b); simpl in E;
        pose proof (total_insert (in_proc x0) (t_qs s) _ _ q' Hk) as F; specialize (H3 x0); specialize (H4 x0);
        destruct (decide (x0 = x)) as [->|Hn]; [rewrite ?bool_decide_eq_true_2 by done|rewrite (Hpo _ Hn) in F; rewrite ?bool_decide_eq_false_2 by done]; lia.
    - pose proof (done_raises_proc _ _ Hd) as Hp0.
      assert (Hb : ∀ x0, x0 = x → errors x tr + 1 ≤ starts tr - 1).
      { intros x0 ->. specialize (H4 x). pose proof (total_bound_one (in_proc x) (t_qs s) _ _ (in_proc_le x) Hk Hp0) as B. rewrite H1 in B.
        pose proof (total_pos (holds x) _ _ _ Hw) as P. simpl in P. rewrite decide_True in P by done. lia. }
      split; unfold starts, takes, rets, errors in *; simpl; intros; rewrite ?count_snoc; simpl; rewrite ?Nat.add_0_r; try done.
      all: pose proof (total_insert (holds x0) (t_ws s) w _ PCrash Hw) as E; simpl in E; specialize (H3 x0); specialize (H4 x0); specialize (H5 x0);
        destruct (decide (x0 = x)) as [->|Hn]; [rewrite bool_decide_eq_true_2 by done|rewrite bool_decide_eq_false_2 by done]; try lia; by eapply Hb.
    - destruct (add_sound _ _ _ (Hq _ _ Hk) Ha) as (Hs & Hpo).
      split; unfold starts, takes, rets, errors in *; simpl; intros; rewrite ?count_snoc; simpl; rewrite ?Nat.add_0_r, ?insert_length; try done; try (by apply Forall_insert).
      pose proof (total_insert (in_proc x0) (t_qs s) _ _ q' Hk) as F. rewrite Hpo in F. specialize (H4 x0). lia.
    - split; unfold starts, takes, rets, errors in *; simpl; intros; rewrite ?count_snoc; simpl; rewrite ?Nat.add_0_r; try done;
        pose proof (total_insert (holds x) (t_ws s) w _ (stopped_at p) Hw) as E; (replace (holds x (stopped_at p)) with (holds x p) in E by (by destruct p)); specialize (H3 x); specialize (H4 x); lia.
  Qed.

  Lemma at_most_starts tr s x : reach tstep tctl_init tr s → takes x tr ≤ rets x tr + starts tr.
  Proof. intros [H1 H2 H3 H4 H5]%TI_reach. specialize (H3 x). specialize (H4 x). pose proof (total_bound (in_proc x) (t_qs s) (in_proc_le x)). lia. Qed.
  Lemma few_errors tr s x : reach tstep tctl_init tr s → errors x tr ≤ starts tr - 1.
  Proof. intros [H1 H2 H3 H4 H5]%TI_reach. apply H5. Qed.

  (** ** The queues of the starts before *)
  Definition waits_on n (p : tphase A) : nat := match p with PGet k => if decide (k < n) then 1 else 0 | _ => 0 end.
  Lemma old_step n s l s' : n < length (t_qs s) → tstep s l s' → n < length (t_qs s') ∧ total (waits_on n) (t_ws s') + old_takes n [l] ≤ total (waits_on n) (t_ws s).
  Proof.
    intros Hn Hst. destruct Hst as [|Hne|w Hw|w k q q' x Hw Hk Hg|w x Hw|w x b q q' Hw Hk Hd|w x b q Hw Hk Hd|k q q' x Hk Ha|w p Hw]; unfold old_takes; simpl; rewrite ?count_cons; simpl; rewrite ?app_length, ?insert_length; simpl; (split; [lia|]);
      rewrite ?Nat.add_0_r; try done.
    - rewrite total_app. simpl. lia.
    - pose proof (total_insert (waits_on n) (t_ws s) w _ (PGet (current s)) Hw) as E. simpl in E. rewrite decide_False in E by (unfold current; lia). lia.
    - pose proof (total_insert (waits_on n) (t_ws s) w _ (PRun x) Hw) as E. simpl in E. unfold count. simpl. destruct (decide (k < n)); [rewrite bool_decide_eq_true_2 by done|rewrite bool_decide_eq_false_2 by done]; simpl; lia.
    - pose proof (total_insert (waits_on n) (t_ws s) w _ (PFin x false) Hw) as E. simpl in E. lia.
    - pose proof (total_insert (waits_on n) (t_ws s) w _ (if b then PEnd else PIdle) Hw) as E. destruct b; simpl in E; lia.
    - pose proof (total_insert (waits_on n) (t_ws s) w _ PCrash Hw) as E. simpl in E. lia.
    - pose proof (total_insert (waits_on n) (t_ws s) w _ (stopped_at p) Hw) as E. destruct p; simpl in *; lia.
  Qed.
  Lemma old_reach n s tr s' : n < length (t_qs s) → reach tstep s tr s' → n < length (t_qs s') ∧ total (waits_on n) (t_ws s') + old_takes n tr ≤ total (waits_on n) (t_ws s).
  Proof.
    intros Hn. induction 1 as [|tr s1 l s2 Hr [IH1 IH2] Hst]; [split; [done|]; unfold old_takes, count; simpl; lia|].
    destruct (old_step n _ _ _ IH1 Hst) as [? Hl]. split; [done|]. unfold old_takes in *. rewrite count_snoc. rewrite count_cons in Hl. unfold count in Hl at 1. simpl in Hl. lia.
  Qed.
  Lemma waits_le n (ws : list (tphase A)) : total (waits_on n) ws ≤ length (List.filter (λ p, match p with PGet _ => true | _ => false end) ws).
  Proof. induction ws as [|p ws IH]; simpl; [lia|]. destruct p; simpl; try lia. case_decide; lia. Qed.
  Lemma left_behind tr1 s1 tr2 s : reach tstep tctl_init tr1 s1 → reach tstep s1 (TStart :: tr2) s → old_takes (starts tr1) tr2 ≤ waiting s1.
  Proof.
    intros Hr1 Hr2. destruct (TI_reach _ _ Hr1) as [H1 _ _ _ _]. apply (reach_app_inv _ _ [_]) in Hr2 as (s2 & Hst%reach_one_inv & Hr2).
    inversion Hst; subst. destruct (old_reach (starts tr1) (TCtl (t_qs s1 ++ [wq_init]) (t_ws s1)) tr2 s) with (2 := Hr2) as [_ Hle]; [simpl; rewrite app_length; simpl; lia|]. simpl in Hle.
    unfold waiting. pose proof (waits_le (starts tr1) (t_ws s1)). lia.
  Qed.
End proofs.

(** ** Cases *)
Lemma reach_do {S L : Type} (step : S → L → S → Prop) s l s1 ls s2 : step s l s1 → reach step s1 ls s2 → reach step s (l :: ls) s2.
Proof. intros. by eapply reach_cons. Qed.
Ltac tgo := eapply reach_do; [econstructor; try reflexivity; try done|]; simpl.
(** the same request, taken from the queues of two starts *)
Definition both_tr : list (tlab nat) := [TStart; TWorker 0; TCall 0 0; TAdd 0 7; TTake 0 0 7; TStart; TWorker 1; TCall 1 1; TAdd 1 7; TTake 1 1 7].
Definition both_s : tctl nat := TCtl [WQ [] [7] [] false; WQ [] [7] [] false] [PRun 7; PRun 7].
Lemma both_runs : reach tstep tctl_init both_tr both_s.
Proof. unfold both_tr. tgo. tgo. tgo. tgo. tgo. tgo. tgo. tgo. tgo. tgo. apply reach_nil. Qed.
(** the worker of the first start releases the other's request; the worker of the second start is ended by done *)
Lemma crash_runs : ∃ s, reach tstep both_s [TRet 0 7; TDone 0 7 true; TRet 1 7; TDone 1 7 false] s ∧ t_ws s = [PIdle; PCrash].
Proof. eexists. split; [|shelve]. tgo. tgo. tgo. tgo. apply reach_nil. Unshelve. done. Qed.
(** a request of the first start that nobody takes *)
Definition lost_tr : list (tlab nat) := [TStart; TWorker 0; TCall 0 0; TAdd 0 7; TTake 0 0 7; TAdd 0 8].
Definition lost_s : tctl nat := TCtl [WQ [8] [7] [8] false] [PRun 7].
Lemma lost_runs : reach tstep tctl_init lost_tr lost_s.
Proof. unfold lost_tr. tgo. tgo. tgo. tgo. tgo. tgo. apply reach_nil. Qed.
Lemma old_takes_in n tr w x : TTake w n x ∈ tr → 1 ≤ old_takes (S n) (tr : list (tlab nat)).
Proof.
  intros Hin. unfold old_takes. induction tr as [|l tr IH]; [by apply elem_of_nil in Hin|]. rewrite count_cons. apply elem_of_cons in Hin as [<-|Hin]; [rewrite bool_decide_eq_true_2; lia|].
  specialize (IH Hin). lia.
Qed.
Lemma lost_refuted : ∃ tr s, reach tstep tctl_init (tr : list (tlab nat)) s ∧ TAdd 0 8 ∈ tr ∧ (∀ w q, TTake w q 8 ∉ tr) ∧
  ∀ tr' s', reach tstep s (TStart :: tr') s' → ∀ w x, TTake w 0 x ∉ tr'.
Proof.
  exists lost_tr, lost_s. split; [exact lost_runs|]. split; [unfold lost_tr; set_solver|]. split; [intros w q Hin; unfold lost_tr in Hin; set_solver|].
  intros tr' s' Hr w x Hin. pose proof (left_behind _ _ _ _ lost_runs Hr) as Hle. apply old_takes_in in Hin. change (starts lost_tr) with 1 in Hle. change (waiting lost_s) with 0 in Hle. lia.
Qed.
Lemma twice_refuted : ∃ tr s, reach tstep tctl_init (tr : list (tlab nat)) s ∧ t_ws s !! 0 = Some (PRun 7) ∧ t_ws s !! 1 = Some (PRun 7).
Proof. exists both_tr, both_s. split; [exact both_runs|done]. Qed.
Lemma crash_refuted : ∃ tr s, reach tstep tctl_init (tr : list (tlab nat)) s ∧ TTake 1 1 7 ∈ tr ∧ t_ws s !! 1 = Some PCrash.
Proof.
  destruct crash_runs as (s & Hs & Hw). exists (both_tr ++ [TRet 0 7; TDone 0 7 true; TRet 1 7; TDone 1 7 false]), s. split; [eapply reach_app; [exact both_runs|exact Hs]|].
  split; [|by rewrite Hw]. apply elem_of_app. left. unfold both_tr. set_solver.
Qed.
