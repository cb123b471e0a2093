From Verif Require Import Base Listener_model Listener_spec.

Section proofs.
  Context {N : Type}.
  Notation lis := (lis N).
  Notation lstep := (lstep (N:=N)).
  Notation init := (lis_init (N:=N)).
  Implicit Types (s : lis) (ls : list (llabel N)).

  Lemma accepted_snoc ls l : accepted_of (ls ++ [l]) = accepted_of ls ++ match l with LPut n => [n] | _ => [] end.
  Proof. unfold accepted_of. rewrite omap_app. f_equal. by destruct l. Qed.
  Lemma handled_snoc ls l : handled_of (ls ++ [l]) = handled_of ls ++ match l with LCall n => [n] | _ => [] end.
  Proof. unfold handled_of. rewrite omap_app. f_equal. by destruct l. Qed.

  Definition olist (o : option N) : list N := match o with Some n => [n] | None => [] end.
  Definition run_part s : list N := match l_run s with RFetched n => [n] | _ => [] end.
  Definition cur_part s : list N := match l_pump s with PWait (Some c) _ false => [c] | _ => [] end.
  Definition got_part s : list N := match l_pump s with PWait _ (Some n) _ => [n] | _ => [] end.
  Definition inflight s : list N := run_part s ++ olist (l_nextq s) ++ cur_part s ++ l_pend s ++ got_part s ++ olist (l_addq s).

  Definition shape s : Prop :=
    match l_pump s with
    | PNew => l_pend s = [] ∧ l_nextq s = None
    | PWait cur got put => l_pend s = [] ∧ (put = true → cur ≠ None) ∧ (put = false → l_nextq s = None)
    | PJoin => length (l_pend s) ≤ 1
    | PStopped => l_stop s = true
    end ∧ (l_run s = RStopped → l_pump s = PStopped).
  Lemma shape_init : shape init.
  Proof. by repeat split. Qed.
  Lemma shape_step s l s' : shape s → lstep s l s' → shape s'.
  Proof.
    intros [Hp Hr] Hst. destruct Hst; unfold shape in *; simpl in *.
    1-4: done.
    - destruct Hp as [-> ->]. split; [done|]. by intros ?%Hr.
    - destruct Hp as (-> & Hc & Hn). split; [done|]. by intros ?%Hr.
    - destruct Hp as (-> & Hc & Hn). split; [done|]. by intros ?%Hr.
    - destruct Hp as (-> & Hc & Hn). assert (Hrs : r ≠ RStopped) by (by intros ?%Hr).
      destruct put; [|specialize (Hn eq_refl) as ->]; destruct got as [n|], cur as [c|]; simpl; (split; [|by intros ?]); try done; try lia; naive_solver.
    - done.
    - split; [|by intros ?%Hr]. destruct pe as [|n [|]]; simpl in *; [done|done|lia].
    - split; [done|]. done.
    - split; [|done]. destruct p; naive_solver.
    - split; [|done]. done.
    - split; [|done]. done.
    - split; [|done]. done.
    - split; [|done]. done.
    - done.
    - split; [|done]. destruct p; naive_solver.
  Qed.
  Lemma shape_reach ls s : reach lstep init ls s → shape s.
  Proof. apply (reach_inv lstep shape); [apply shape_step|apply shape_init]. Qed.

  (** ** C45 *)
  Definition flow ls s : Prop :=
    match l_pump s with PStopped => handled_of ls `prefix_of` accepted_of ls | _ => accepted_of ls = handled_of ls ++ inflight s end.
  Lemma flow_prefix ls s : flow ls s → handled_of ls `prefix_of` accepted_of ls.
  Proof. unfold flow. intros H. destruct (l_pump s); [by eexists|by eexists|by eexists|done]. Qed.
  Lemma flow_reach ls s : reach lstep init ls s → flow ls s.
  Proof.
    apply (reach_trace_inv lstep flow); [done|]. clear. intros ls s l s' Hr HF Hst. pose proof (shape_reach _ _ Hr) as [Hp Hrs].
    unfold flow. rewrite accepted_snoc, handled_snoc. unfold flow in HF.
    destruct Hst; simpl in *; rewrite ?app_nil_r; unfold inflight, run_part, cur_part, got_part in *; simpl in *.
    1: by destruct p.
    1: { destruct p; [| | |by apply prefix_app_r]; rewrite HF; simpl; rewrite ?app_nil_r, <-?app_assoc; simpl; rewrite <-?app_assoc; done. }
    1-2: by destruct p.
    - by rewrite HF.
    - by rewrite HF.
    - destruct Hp as (-> & Hc & Hn). rewrite HF. simpl. done.
    - destruct Hp as (-> & Hc & Hn). destruct put; [|specialize (Hn eq_refl) as ->]; destruct got as [n|], cur as [c|]; simpl in *; try done; naive_solver.
    - by eexists.
    - rewrite HF. by destruct pe as [|n [|]].
    - by destruct p.
    - destruct p; rewrite ?HF; done.
    - destruct p; [| | |done]; rewrite HF; rewrite <-!app_assoc; simpl; by rewrite ?app_nil_l.
    - by destruct p.
    - by destruct p.
    - by destruct p.
    - done.
    - by destruct p.
  Qed.
  Lemma handled_prefix ls s : reach lstep init ls s → handled_of ls `prefix_of` accepted_of ls.
  Proof. intros ?%flow_reach. by eapply flow_prefix. Qed.

  Lemma never_stopped ls s : reach lstep init ls s → LStop ∉ ls → l_stop s = false.
  Proof.
    apply (reach_trace_inv lstep (λ ls s, LStop ∉ ls → l_stop s = false)); [done|]. clear. intros ls s l s' Hr IH Hst Hni.
    rewrite elem_of_app, elem_of_list_singleton in Hni. destruct Hst; simpl in *; try (apply IH; tauto); try tauto. destruct got, cur; done.
  Qed.
  Local Tactic Notation "enabled" uconstr(l) := exfalso; match goal with Hq : ∀ l s', _ → ¬ task_step l |- _ => eapply (Hq l); [by econstructor|done] end.
  Lemma quiet_empty s : shape s → l_stop s = false → (∀ l s', lstep s l s' → ¬ task_step l) → inflight s = [] ∧ l_adder s = AIdle ∧ ¬ (∃ n, l_run s = RHandling n).
  Proof.
    destruct s as [a q st p pe nq r]. intros [Hp Hr] Hst Hq. simpl in *. subst st. unfold inflight, run_part, cur_part, got_part. simpl.
    destruct p as [|cur got put| |]; [enabled LStartPump| | |done].
    2:{ destruct nq as [n|]; [|enabled (LNextJoined (N:=N))]. destruct r; [enabled LStartRun|enabled LFetch|enabled (LCall n0)|enabled LReturn|enabled LSlept|by specialize (Hr eq_refl)]. }
    destruct Hp as (-> & Hc & Hn). destruct put.
    { exfalso. eapply (Hq LWake); [|done]. apply l_wake; [by right|by left]. }
    specialize (Hn eq_refl) as ->. destruct cur as [c|]; [enabled LPutNext|].
    destruct got as [n|]; [exfalso; eapply (Hq LWake); [|done]; apply l_wake; [by left|by right; left]|].
    destruct q as [n|]; [enabled LGet|]. destruct a as [|n|]; [|enabled (LPut n)|enabled LJoined].
    destruct r; [enabled LStartRun| |enabled (LCall n)|enabled LReturn|enabled LSlept|by specialize (Hr eq_refl)]. simpl. split; [done|]. split; [done|]. by intros [].
  Qed.
  Lemma all_handled ls s : reach lstep init ls s → LStop ∉ ls → (∀ l s', lstep s l s' → ¬ task_step l) →
    handled_of ls = accepted_of ls ∧ l_adder s = AIdle.
  Proof.
    intros Hr Hns Hq. pose proof (never_stopped _ _ Hr Hns) as Hst. pose proof (shape_reach _ _ Hr) as Hs. destruct (quiet_empty s Hs Hst Hq) as (Hi & Ha & _).
    apply flow_reach in Hr. unfold flow in Hr. rewrite Hi, app_nil_r in Hr. destruct Hs as [Hp _]. split; [|done]. destruct (l_pump s); [done..|]. congruence.
  Qed.

  Definition weight s : nat :=
    (match l_adder s with AIdle => 0 | APutting _ => 12 | AJoining => 1 end) + 10 * length (olist (l_addq s)) +
    (match l_pump s with PNew => 5 | PWait _ _ false => 1 | PWait _ _ true => 3 | PJoin => 2 | PStopped => 0 end) +
    9 * length (got_part s) + 8 * length (l_pend s) + 7 * length (cur_part s) + 4 * length (olist (l_nextq s)) +
    (match l_run s with RNew => 2 | RWait => 1 | RFetched _ => 4 | RHandling _ => 3 | RSleep => 2 | RStopped => 0 end).
  Lemma weight_step s l s' : lstep s l s' → task_step l → weight s' < weight s.
  Proof.
    destruct 1; intros Ht; try done; unfold weight, got_part, cur_part; simpl; try lia.
    - destruct got, cur, put; simpl; rewrite ?app_length; simpl; try lia; naive_solver.
    - destruct got, cur, put; simpl; lia.
    - destruct pe; simpl; lia.
    - destruct H as [->|[n ->]]; lia.
  Qed.
  Lemma tasks_terminate s : ∃ b, ∀ ls s', reach lstep s ls s' → (∀ l, l ∈ ls → task_step l) → length ls ≤ b.
  Proof.
    exists (weight s). intros ls s' Hr. assert ((∀ l, l ∈ ls → task_step l) → length ls + weight s' ≤ weight s) as H; [|intros; specialize (H H0); lia].
    induction Hr as [|ls s1 l s2 Hr IH Hst]; intros Ht; [simpl; lia|]. rewrite app_length. simpl.
    assert (weight s2 < weight s1) by (eapply weight_step; [done|]; apply Ht, elem_of_app; right; by apply elem_of_list_singleton).
    assert (length ls + weight s1 ≤ weight s) by (apply IH; intros; apply Ht, elem_of_app; by left). lia.
  Qed.

  (** after a stop request *)
  Lemma stop_stays ls s : reach lstep init ls s → LStop ∈ ls → l_stop s = true.
  Proof.
    apply (reach_trace_inv lstep (λ ls s, LStop ∈ ls → l_stop s = true)); [by intros ?%elem_of_nil|]. clear. intros ls s l s' Hr IH Hst Hni.
    rewrite elem_of_app, elem_of_list_singleton in Hni. destruct Hni as [Hi|<-]; [specialize (IH Hi); by destruct Hst|by inversion Hst].
  Qed.
  Lemma stops ls s : reach lstep init ls s → LStop ∈ ls → (∀ l s', lstep s l s' → ¬ task_step l) → l_pump s = PStopped ∧ l_run s = RStopped.
  Proof.
    intros Hre Hin Hq. pose proof (stop_stays _ _ Hre Hin) as Hst. pose proof (shape_reach _ _ Hre) as [Hp Hr]. destruct s as [a q st p pe nq r]. simpl in *. subst st.
    destruct p as [|cur got put| |]; [enabled LStartPump|enabled LWake| |].
    - destruct nq as [n|]; [|enabled (LNextJoined (N:=N))]. destruct r; [enabled LStartRun|enabled LFetch|enabled (LCall n0)|enabled LReturn|enabled LSlept|by specialize (Hr eq_refl)].
    - split; [done|]. destruct r; [enabled LStartRun|..|done].
      + exfalso. eapply (Hq LRunStop); [|done]. apply l_runstop. by left.
      + exfalso. eapply (Hq LRunStop); [|done]. apply l_runstop. right. by eexists.
      + enabled LReturn.
      + enabled LSlept.
  Qed.

  (** ** C46 *)
  (** how many notifications the pump can still take while the handler takes none *)
  Definition capacity s : nat :=
    match l_pump s, l_nextq s with
    | PNew, _ => 2
    | PWait None None _, _ => 2
    | PWait None (Some _) _, _ => 1
    | PWait (Some _) None false, _ => 1
    | PWait (Some _) (Some _) false, _ => 0
    | PWait (Some _) None true, Some _ => 1
    | PWait (Some _) (Some _) true, Some _ => 0
    | PWait (Some _) None true, None => 2
    | PWait (Some _) (Some _) true, None => 1
    | PJoin, Some _ => 0
    | PJoin, None => match l_pend s with [] => 2 | _ => 1 end
    | PStopped, _ => 0
    end.
  Definition taken s : nat := match l_adder s, l_addq s with AJoining, None => 1 | _, _ => 0 end.
  Lemma returned_snoc ls l : returned_of (N:=N) (ls ++ [l]) = returned_of ls + match l with LJoined => 1 | _ => 0 end.
  Proof. unfold returned_of. rewrite omap_app, app_length. f_equal. by destruct l. Qed.
  Lemma capacity_step s l s' n : shape s → l_run s = RHandling n → lstep s l s' → ¬ callback_ends l →
    l_run s' = RHandling n ∧ capacity s' + taken s' + match l with LJoined => 1 | _ => 0 end ≤ capacity s + taken s.
  Proof.
    intros [Hp _] Hr Hst Hne. destruct Hst; simpl in *; simplify_eq/=; try (by destruct Hne; (left + right)); unfold capacity, taken; simpl.
    - split; [done|]. lia.
    - split; [done|]. lia.
    - split; [done|]. lia.
    - split; [done|]. destruct a, q; lia.
    - split; [done|]. lia.
    - split; [done|]. destruct cur, put, nq, a; lia.
    - split; [done|]. destruct got; lia.
    - destruct Hp as (-> & Hc & Hn). destruct put; [destruct nq|specialize (Hn eq_refl) as ->]; destruct got, cur; simpl; (split; [done|]); try lia; naive_solver.
    - split; [done|]. destruct cur, got, put, nq; lia.
    - split; [done|]. destruct pe; simpl; lia.
    - destruct H as [?|[??]]; done.
    - split; [done|]. lia.
  Qed.
  Lemma stall ls s n ls' s' : reach lstep init ls s → l_run s = RHandling n → reach lstep s ls' s' → (∀ l, l ∈ ls' → ¬ callback_ends l) →
    returned_of ls' ≤ 2 + match l_adder s with AJoining => 1 | _ => 0 end.
  Proof.
    intros Hs Hn Hr Hne. assert (l_run s' = RHandling n ∧ capacity s' + taken s' + returned_of ls' ≤ capacity s + taken s) as [_ Hle].
    { induction Hr as [|ls' s1 l s2 Hr IH Hst]; [unfold returned_of; simpl; split; [done|lia]|].
      destruct IH as [Hr1 Hle]. { intros; apply Hne, elem_of_app; by left. }
      destruct (capacity_step s1 l s2 n) as [Hr2 Hle2]; [eapply shape_reach, reach_app; done|done|done| |].
      { apply Hne, elem_of_app. right. by apply elem_of_list_singleton. }
      rewrite returned_snoc. split; [done|lia]. }
    assert (capacity s ≤ 2) by (unfold capacity; repeat case_match; lia). assert (taken s ≤ match l_adder s with AJoining => 1 | _ => 0 end) by (unfold taken; repeat case_match; lia). lia.
  Qed.
End proofs.

(** a handler busy with notification 1; 2 and 3 are accepted, the caller of _add(4) waits *)
Definition stall_ls : list (llabel nat) :=
  [LStartPump; LStartRun; LAdd 1; LPut 1; LGet; LJoined; LWake; LPutNext; LFetch; LWake; LNextJoined; LCall 1;
   LAdd 2; LPut 2; LGet; LJoined; LWake; LPutNext; LAdd 3; LPut 3; LGet; LJoined; LWake; LAdd 4; LPut 4].
Definition stall_s : lis nat := Lis AJoining (Some 4) false PJoin [3] (Some 2) (RHandling 1).
Lemma stall_runs : reach lstep lis_init stall_ls stall_s.
Proof.
  unfold stall_ls, lis_init. do 6 (eapply reach_cons; [constructor|]). eapply reach_cons; [apply l_wake; [by left|by right; left]|]. simpl.
  do 2 (eapply reach_cons; [constructor|]). eapply reach_cons; [apply l_wake; [by right|by left]|]. simpl.
  eapply reach_cons; [constructor|]. eapply reach_cons; [by constructor|]. do 4 (eapply reach_cons; [constructor|]).
  eapply reach_cons; [apply l_wake; [by left|by right; left]|]. simpl. do 5 (eapply reach_cons; [constructor|]).
  eapply reach_cons; [apply l_wake; [by left|by left]|]. simpl. do 2 (eapply reach_cons; [constructor|]). apply reach_nil.
Qed.
Lemma stall_refuted : ∃ ls (s : lis nat), reach lstep lis_init ls s ∧ handled_of ls = [1] ∧ accepted_of ls = [1; 2; 3; 4] ∧ l_adder s = AJoining ∧
  ∀ l s', lstep s l s' → callback_ends l ∨ ¬ task_step l.
Proof.
  exists stall_ls, stall_s. split; [apply stall_runs|]. split; [done|]. split; [done|]. split; [done|]. unfold stall_s, callback_ends. intros l s' Hst.
  inversion Hst; subst; simpl; try tauto; naive_solver.
Qed.

(** a notification after the stop: nobody takes it any more, and the caller of _add waits for ever *)
Definition stop_ls : list (llabel nat) := [LStartPump; LStartRun; LStop; LWake; LAdd 2; LPut 2; LRunStop].
Lemma stop_hangs : ∃ s, reach lstep lis_init stop_ls s ∧ l_adder s = AJoining ∧ ∀ ls s', reach lstep s ls s' → LAddCancel ∉ ls → l_adder s' = AJoining.
Proof.
  exists (Lis AJoining (Some 2) true PStopped [] None RStopped). split.
  { unfold stop_ls, lis_init. do 6 (eapply reach_cons; [constructor|]). eapply reach_cons; [apply l_runstop; by left|]. apply reach_nil. }
  split; [done|]. intros ls s' Hr Hn.
  enough (l_adder s' = AJoining ∧ l_addq s' = Some 2 ∧ l_pump s' = PStopped) by tauto. revert Hr Hn.
  apply (reach_trace_inv lstep (λ ls s', LAddCancel ∉ ls → l_adder s' = AJoining ∧ l_addq s' = Some 2 ∧ l_pump s' = PStopped)); [done|].
  clear. intros ls s l s' _ IH Hst Hn. rewrite elem_of_app, elem_of_list_singleton in Hn. destruct IH as (H1&H2&H3); [tauto|].
  destruct Hst; simpl in *; simplify_eq; try done; tauto.
Qed.
