(** Proofs about objects under a condition: where each call is; examples. *)
From Verif Require Import Base WorkQueue_model Fifo_model DeltaFifo_model DeltaFifoSched_model AsyncCond_model AsyncCond_spec AsyncCond_proofs AsyncCond_proofs2 AsyncCond_proofs3.

Section cond.
  Context {St Op R L E : Type}.
  Context (enter : St → Op → St * part R L * notif) (resume : St → L → E → St * part R L * notif) (direct : Op → bool).
  Notation cst := (cst St Op R L).
  Notation cstep := (cstep enter resume direct).
  Implicit Types (s : cst).

  Definition places s : list nat := (c_log s).*1 ++ at_lock s ++ at_cond s ++ inside s ++ c_gone s.
  Lemma places_after t o y s : c_held s = None ∨ (∃ o' l, c_held s = Some (t, o', l)) → places (after t o y s) ≡ₚ t :: (c_log s).*1 ++ at_lock s ++ at_cond s ++ c_gone s.
  Proof.
    intros _. destruct y as [[x [r|l|]] n]; unfold places, at_lock, at_cond, inside; simpl; rewrite ?fmap_app, ?wake_tasks, ?notify_tasks; simpl; solve_Permutation.
  Qed.
  Lemma places_leave t s : c_held s = None → places (leave t s) ≡ₚ t :: places s.
  Proof. intros Hh. unfold places, at_lock, at_cond, inside, leave. simpl. rewrite Hh, wake_tasks. solve_Permutation. Qed.
  Lemma places_go t o s : c_held s = None → places (go enter t o s) ≡ₚ t :: places s.
  Proof. intros Hh. unfold go. rewrite places_after by (by left). unfold places, inside. simpl. by rewrite Hh. Qed.
  Lemma places_again t o b s : (c_locked s = true ↔ c_held s ≠ None) → places (again enter t o b s) ≡ₚ t :: places s.
  Proof.
    intros Hi. unfold again. destruct (is_free (c_locked s) (c_lockq s)) eqn:Ef.
    - apply free_results in Ef as (Hf&_). assert (c_held s = None) as Hd. { destruct (c_held s) eqn:Ed; [|done]. assert (c_locked s = true) by (by apply Hi). congruence. }
      destruct b; [by apply places_leave|by apply places_go].
    - unfold places, at_lock, at_cond, inside. simpl. rewrite fmap_app. simpl. solve_Permutation.
  Qed.
  Lemma again_next t o b s : c_next (again enter t o b s) = c_next s.
  Proof. unfold again, go. destruct (is_free _ _); [destruct b|]; [done| |done]. by rewrite after_next. Qed.
  Lemma go_next t o s : c_next (go enter t o s) = c_next s.
  Proof. unfold go. by rewrite after_next. Qed.
  Lemma places_step s l s' : inv s → cstep s l s' → c_next s' = c_next s + length (calls [l]) ∧ places s' ≡ₚ places s ++ match l with KCall _ => [c_next s] | _ => [] end.
  Proof.
    intros [H1 H2 H3 H4] Hs. unfold AsyncCond_model.cstep in Hs. destruct l as [o|t|t|e]; simpl in Hs |- *; rewrite ?Nat.add_0_r, ?app_nil_r.
    - destruct (direct o).
      { destruct (enter (c_obj s) o) as [[x [r|l|]] []]; simplify_eq. simpl. split; [lia|]. unfold places, at_lock, at_cond, inside. simpl. rewrite fmap_app. simpl. solve_Permutation. }
      destruct (is_free (c_locked s) (c_lockq s)) eqn:Ef; simplify_eq.
      + rewrite go_next. simpl. split; [lia|]. apply free_results in Ef as (Hf&_).
        assert (c_held s = None) as Hd. { destruct (c_held s) eqn:Ed; [|done]. assert (c_locked s = true) by (by apply H2). congruence. }
        rewrite places_go by done. unfold places, at_lock, at_cond, inside. simpl. solve_Permutation.
      + simpl. split; [lia|]. unfold places, at_lock, at_cond, inside. simpl. rewrite fmap_app. simpl. solve_Permutation.
    - destruct (find_lw t (c_lockq s)) as [w|] eqn:Ew.
      + destruct (find_lw_split _ _ _ Ew) as (l&k&El&Er&Et).
        assert (∀ b, lw_fut w = FResult b → c_held s = None) as Hres.
        { intros b Hb. rewrite El in H1. assert (c_locked s = false) as Hf by (eapply lock_result; [exact H1|by eexists]).
          destruct (c_held s) eqn:Ed; [|done]. assert (c_locked s = true) by (by apply H2). congruence. }
        set (s2 := if c_locked s then set_lock (c_locked s) (remove_lw t (c_lockq s)) s else set_lock (c_locked s) (wake_first (remove_lw t (c_lockq s))) s) in Hs.
        assert (t :: places (set_lock (c_locked s) (remove_lw t (c_lockq s)) s) ≡ₚ places s) as Hp1.
        { unfold places, at_lock, at_cond, inside. simpl. rewrite Er, El, !fmap_app. simpl. rewrite Et. solve_Permutation. }
        assert (c_held s2 = c_held s ∧ c_locked s2 = c_locked s ∧ c_next s2 = c_next s ∧ t :: places s2 ≡ₚ places s) as (E1&E2&E3&E4).
        { unfold s2. destruct (c_locked s) eqn:Ec; [done|]. split; [done|]. split; [done|]. split; [done|]. rewrite <-Hp1. unfold places, at_lock, at_cond, inside. simpl. by rewrite wake_tasks. }
        clearbody s2.
        assert (c_next (again enter t (lw_op w) true s2) = c_next s ∧ places (again enter t (lw_op w) true s2) ≡ₚ places s) as Hg.
        { rewrite again_next. split; [done|]. rewrite places_again by (by rewrite E1, E2). done. }
        assert (c_next (quits t s2) = c_next s ∧ places (quits t s2) ≡ₚ places s) as Hq.
        { split; [done|]. rewrite <-E4. unfold places, at_lock, at_cond, inside. simpl. solve_Permutation. }
        destruct (lw_fut w) as [|[]|] eqn:Ef, (lw_mode w) as [|b'] eqn:Em; try done; try (injection Hs as <-; first [exact Hq|exact Hg]).
        * injection Hs as <-. rewrite go_next. split; [done|]. rewrite places_go by (by eapply Hres). done.
        * destruct b'; injection Hs as <-; [split; [done|]; rewrite places_leave by (by eapply Hres); done|]. rewrite go_next. split; [done|]. rewrite places_go by (by eapply Hres). done.
      + destruct (find_cw t (c_condq s)) as [w|] eqn:Ecw; [|done]. destruct (find_cw_split _ _ _ Ecw) as (l&k&El&Er&Et).
        assert (∀ b, c_next (again enter t (cw_op w) b (set_cond (remove_cw t (c_condq s)) s)) = c_next s ∧ places (again enter t (cw_op w) b (set_cond (remove_cw t (c_condq s)) s)) ≡ₚ places s) as Hg.
        { intros b. rewrite again_next. split; [done|]. rewrite places_again by done. unfold places, at_lock, at_cond, inside. simpl. rewrite Er, El, !fmap_app. simpl. rewrite Et. solve_Permutation. }
        destruct (cw_fut w); simplify_eq; apply Hg.
    - destruct (find_lw t (c_lockq s)) as [w|] eqn:Ew; simplify_eq.
      + split; [done|]. unfold places, at_lock, at_cond, inside. simpl. by rewrite cancel_lw_tasks.
      + destruct (find_cw t (c_condq s)) as [w|] eqn:Ecw; simplify_eq. split; [done|]. unfold places, at_lock, at_cond, inside. simpl. by rewrite cancel_cw_tasks.
    - destruct (c_held s) as [[[t o] l]|] eqn:Ed; simplify_eq. simpl in Hs. simplify_eq. rewrite after_next. split; [done|].
      rewrite places_after by eauto. unfold places, inside. rewrite Ed. solve_Permutation.
  Qed.
  Lemma each_once (s0 : St) ls s : reach cstep (cond_init s0) ls s → (c_log s).*1 ++ inside s ++ at_lock s ++ at_cond s ++ c_gone s ≡ₚ seq 0 (length (calls ls)).
  Proof.
    intros Hr. assert (places s ≡ₚ seq 0 (length (calls ls)) ∧ c_next s = length (calls ls) ∧ inv s) as (H&_).
    { apply (reach_trace_inv cstep (λ ls s, places s ≡ₚ seq 0 (length (calls ls)) ∧ c_next s = length (calls ls) ∧ inv s) (cond_init s0)); [| |exact Hr]; clear.
      - split; [done|]. split; [done|]. apply init_inv.
      - intros ls s l s' _ (H1&H2&H3) Hs. assert (calls (ls ++ [l]) = calls ls ++ calls [l]) as Hc by apply omap_app. rewrite Hc, app_length.
        destruct (places_step _ _ _ H3 Hs) as [P1 P2]. split; [|split; [lia|by eapply step_inv]]. rewrite P2, H1, H2. destruct l; simpl; rewrite ?Nat.add_0_r, ?app_nil_r; try done. by rewrite seq_app. }
    rewrite <-H. unfold places. solve_Permutation.
  Qed.

  (** only those who were cancelled give up *)
  Definition marked (t : nat) (ls : list (clabel Op E)) : Prop := KCancel t ∈ ls.
  Definition cmarks ls s : Prop :=
    (∀ w, w ∈ c_lockq s → lw_mode w = MAgain true ∨ lw_fut w = FCancelled ∨ lw_fut w = FResult true → marked (lw_task w) ls) ∧
    (∀ w, w ∈ c_condq s → cw_fut w = FCancelled ∨ cw_fut w = FResult true → marked (cw_task w) ls) ∧
    (∀ t, t ∈ c_gone s → marked t ls).
  Definition lgood ls (lq : list (lwaiter Op)) : Prop := ∀ w, w ∈ lq → lw_mode w = MAgain true ∨ lw_fut w = FCancelled ∨ lw_fut w = FResult true → marked (lw_task w) ls.
  Definition cgood ls (cq : list (cwaiter Op)) : Prop := ∀ w, w ∈ cq → cw_fut w = FCancelled ∨ cw_fut w = FResult true → marked (cw_task w) ls.
  Lemma lgood_wake ls lq : lgood ls lq → lgood ls (wake_first lq).
  Proof.
    intros H. destruct lq as [|[t o m []] lq]; try done. simpl. intros w [->|Hw]%elem_of_cons Hm; [|apply H; [by right|done]]. simpl in *.
    apply (H (LW t o m FPending)); [left|]. simpl. naive_solver.
  Qed.
  Lemma cgood_notify ls n cq : cgood ls cq → cgood ls (notify n cq).
  Proof.
    intros H. destruct n; simpl; [done| |].
    - induction cq as [|[t o f] cq IH]; [done|]. assert (cgood ls cq) as Hc by (intros w Hw; apply H; by right). destruct f as [|b|]; simpl.
      + intros w [->|Hw]%elem_of_cons Hm; [simpl in Hm; naive_solver|by apply Hc].
      + intros w [->|Hw]%elem_of_cons Hm; [apply H; [left|done]|by apply IH].
      + intros w [->|Hw]%elem_of_cons Hm; [apply H; [left|done]|by apply IH].
    - intros w Hw Hm. unfold notify_every in Hw. apply elem_of_list_fmap in Hw as (v&->&Hv). destruct (cw_fut v) eqn:Ef; simpl in Hm; [naive_solver|by apply H|by apply H].
  Qed.
  Lemma marks_after ls t o y s : cmarks ls s → cmarks ls (after t o y s).
  Proof.
    intros (H1&H2&H3). destruct y as [[x [r|l|]] n]; (split; [|split]); simpl; try done; try (by apply lgood_wake); try (by apply cgood_notify).
    intros w [Hw|Hw]%elem_of_app Hm; [by eapply cgood_notify|]. apply elem_of_list_singleton in Hw as ->. simpl in Hm. naive_solver.
  Qed.
  Lemma marks_again ls t o b s : cmarks ls s → (b = true → marked t ls) → cmarks ls (again enter t o b s).
  Proof.
    intros (H1&H2&H3) Hb. unfold again. destruct (is_free _ _); [destruct b|].
    - split; [by apply lgood_wake|]. split; [done|]. simpl. intros u [Hu|Hu]%elem_of_app; [by apply H3|]. apply elem_of_list_singleton in Hu as ->. by apply Hb.
    - apply marks_after. done.
    - split; [|done]. simpl. intros w [Hw|Hw]%elem_of_app Hm; [by apply H1|]. apply elem_of_list_singleton in Hw as ->. simpl in *. destruct Hm as [[= ->]|[?|?]]; [by apply Hb|done|done].
  Qed.
  Lemma marks_lq ls lq b s : cmarks ls s → lgood ls lq → cmarks ls (set_lock b lq s).
  Proof. by intros (H1&H2&H3) Hl. Qed.
  Lemma marks_cq ls cq s : cmarks ls s → cgood ls cq → cmarks ls (set_cond cq s).
  Proof. by intros (H1&H2&H3) Hl. Qed.
  Lemma gave_up (s0 : St) ls s t : reach cstep (cond_init s0) ls s → t ∈ c_gone s → KCancel t ∈ ls.
  Proof.
    intros Hr. cut (cmarks ls s); [intros (_&_&H); apply H|].
    apply (reach_trace_inv cstep cmarks (cond_init s0)); [| |exact Hr]; clear.
    - split; [|split]; simpl; intros ? ?%elem_of_nil; done.
    - intros ls s l s' _ Hm0 Hs. assert (cmarks (ls ++ [l]) s) as Hm.
      { destruct Hm0 as (H1&H2&H3). unfold marked in *. split; [|split]; intros; apply elem_of_app; left; eauto. }
      clear Hm0. pose proof Hm as (H1&H2&H3). unfold AsyncCond_model.cstep in Hs. destruct l as [o|t|t|e]; simpl in Hs.
      + destruct (direct o); [destruct (enter (c_obj s) o) as [[x [r|l|]] []]; by simplify_eq|].
        destruct (is_free (c_locked s) (c_lockq s)); simplify_eq; [by apply marks_after|]. split; [|done]. simpl. intros w [Hw|Hw]%elem_of_app Hx; [by apply H1|]. apply elem_of_list_singleton in Hw as ->. simpl in *. naive_solver.
      + destruct (find_lw t (c_lockq s)) as [w|] eqn:Ew.
        * destruct (find_lw_split _ _ _ Ew) as (l&k&El&Er&Et).
          assert (w ∈ c_lockq s) as Hin by (rewrite El; apply elem_of_app; right; left).
          assert (lgood (ls ++ [KRun t]) (remove_lw t (c_lockq s))) as Hl by (intros v Hv; apply H1; rewrite El; rewrite Er in Hv; apply elem_of_app in Hv as [?|?]; apply elem_of_app; [by left|right; by right]).
          set (s2 := if c_locked s then set_lock (c_locked s) (remove_lw t (c_lockq s)) s else set_lock (c_locked s) (wake_first (remove_lw t (c_lockq s))) s) in Hs.
          assert (cmarks (ls ++ [KRun t]) s2) as Hm2 by (unfold s2; destruct (c_locked s); apply marks_lq; try done; by apply lgood_wake). clearbody s2.
          assert (lw_fut w = FResult true ∨ lw_fut w = FCancelled → marked t (ls ++ [KRun t])) as Hmk by (intros Hx; pose proof (H1 w Hin ltac:(tauto)) as Hy; by rewrite Et in Hy).
          assert (marked t (ls ++ [KRun t]) → cmarks (ls ++ [KRun t]) (quits t s2)) as Hq.
          { intros Hx. destruct Hm2 as (M1&M2&M3). split; [done|]. split; [done|]. simpl. intros u [Hu|Hu]%elem_of_app; [by apply M3|]. by apply elem_of_list_singleton in Hu as ->. }
          destruct (lw_fut w) as [|[]|] eqn:Ef, (lw_mode w) as [|b'] eqn:Em; try done; try (injection Hs as <-; first [apply Hq, Hmk; auto; fail|apply marks_again; [done|intros _; apply Hmk; auto]; fail]).
          -- injection Hs as <-. apply marks_after. by apply (marks_lq _ _ (c_locked s) s).
          -- destruct b'; injection Hs as <-.
             ++ split; [by apply lgood_wake|]. split; [done|]. simpl. intros u [Hu|Hu]%elem_of_app; [by apply H3|]. apply elem_of_list_singleton in Hu as ->. pose proof (H1 w Hin ltac:(by left)) as Hy. by rewrite Et in Hy.
             ++ apply marks_after. by apply (marks_lq _ _ (c_locked s) s).
        * destruct (find_cw t (c_condq s)) as [w|] eqn:Ecw; [|done]. destruct (find_cw_split _ _ _ Ecw) as (l&k&El&Er&Et).
          assert (w ∈ c_condq s) as Hin by (rewrite El; apply elem_of_app; right; left).
          assert (cgood (ls ++ [KRun t]) (remove_cw t (c_condq s))) as Hl by (intros v Hv; apply H2; rewrite El; rewrite Er in Hv; apply elem_of_app in Hv as [?|?]; apply elem_of_app; [by left|right; by right]).
          destruct (cw_fut w) as [|b|] eqn:Ef; [done|..]; injection Hs as <-; (apply marks_again; [by apply marks_cq|]); [intros ->|intros _]; pose proof (H2 w Hin ltac:(auto)) as Hy; by rewrite Et in Hy.
      + destruct (find_lw t (c_lockq s)) as [w|] eqn:Ew; simplify_eq.
        * apply marks_lq; [done|]. intros v Hv Hx. unfold cancel_lw in Hv. apply elem_of_list_fmap in Hv as (v0&->&Hv0). case_decide as Hd; [|by apply H1]. simpl. rewrite Hd. apply elem_of_app. right. left.
        * destruct (find_cw t (c_condq s)) as [w|] eqn:Ecw; simplify_eq. apply marks_cq; [done|]. intros v Hv Hx. unfold cancel_cw in Hv. apply elem_of_list_fmap in Hv as (v0&->&Hv0). case_decide as Hd; [|by apply H2]. simpl. rewrite Hd. apply elem_of_app. right. left.
      + destruct (c_held s) as [[[t o] l]|] eqn:Ed; simplify_eq. simpl in Hs. simplify_eq. by apply marks_after.
  Qed.

  Fixpoint cruns s (ls : list (clabel Op E)) : option cst := match ls with [] => Some s | l :: ls => s' ← crun enter resume direct s l; cruns s' ls end.
  Lemma cruns_reach ls : ∀ s s', cruns s ls = Some s' → reach cstep s ls s'.
  Proof.
    induction ls as [|l ls IH]; simpl; intros s s' H; [simplify_eq; constructor|]. destruct (crun enter resume direct s l) as [s1|] eqn:Es; [|done]. simpl in H. eapply reach_cons; [exact Es|by apply IH].
  Qed.
End cond.

(** ** Examples *)
Definition lost_run : list (clabel (wop nat) unit) := [KCall Get; KCall Get; KCall (Add 5); KCancel 0; KRun 0].
Definition lost_end := Eval vm_compute in default (cond_init wq_init) (cruns (wq_enter (A := nat)) no_resume locks_all (cond_init wq_init) lost_run).
Lemma lost_reach : reach (cstep (wq_enter (A := nat)) no_resume locks_all) (cond_init wq_init) lost_run lost_end.
Proof. apply cruns_reach. vm_compute. reflexivity. Qed.
Lemma lost_witness : ∃ ls s, reach (cstep (wq_enter (A := nat)) no_resume locks_all) (cond_init wq_init) ls s ∧
  calls ls = [Get; Get; Add 5] ∧ at_rest wq_enter no_resume locks_all s ∧ at_cond s = [1] ∧ wq_len (c_obj s) = 1 ∧ c_gone s = [0].
Proof.
  exists lost_run, lost_end. split; [apply lost_reach|]. split; [done|]. split; [|done].
  intros t s'. unfold cstep, crun, lost_end. simpl. by case_decide.
Qed.
Notation ocruns := (cruns (delta_enter okey) (delta_resume okey) delta_direct).
Notation ostep := (cstep (delta_enter okey) (delta_resume okey) delta_direct).
Definition prompt_run : list (clabel (dop nat (nat * nat)) doutcome) := [KCall DPop; KCall (DAdd (dnew 5 50)); KCall DPop; KCancel 0; KRun 0].
Definition prompt_end := Eval vm_compute in default (cond_init dfifo_init) (ocruns (cond_init dfifo_init) prompt_run).
Lemma prompt_reach : reach ostep (cond_init dfifo_init) prompt_run prompt_end.
Proof. apply cruns_reach. vm_compute. reflexivity. Qed.
Lemma prompt_witness : ∃ ls s, reach ostep (cond_init dfifo_init) ls s ∧ KCancel 0 ∈ ls ∧
  ∀ ls' s', reach ostep s ls' s' → Forall (λ l, ∀ e, l ≠ KResume e) ls' → suspended s' 0.
Proof.
  exists prompt_run, prompt_end. split; [apply prompt_reach|]. split; [unfold prompt_run; right; right; right; left|].
  intros ls' s' Hr Hf. pose proof (reach_inv_c _ _ _ _ _ _ prompt_reach) as Hi.
  destruct (stays _ _ _ prompt_end 0 DPop true FPending ls' s' Hi eq_refl ltac:(left) Hr Hf) as (_&b&f&Hin).
  unfold suspended. apply elem_of_app. left. apply elem_of_list_fmap. by exists (LW 0 DPop (MAgain b) f).
Qed.
Definition case_run : list (clabel (dop nat (nat * nat)) doutcome) :=
  [KCall DPop; KCall (DAdd (dnew 5 50)); KCall DPop; KCall (DAdd (dnew 6 60)); KCall DListKeys; KCancel 0; KRun 0; KCancel 0; KRun 0; KResume DOk; KRun 3; KRun 0].
Definition case_end := Eval vm_compute in default (cond_init dfifo_init) (ocruns (cond_init dfifo_init) case_run).
Lemma case_witness0 : reach ostep (cond_init dfifo_init) case_run case_end ∧
  c_log case_end = [(1, DNone); (4, DKeys []); (2, DItem [(DtAdded, dnew 5 50)]); (3, DNone)] ∧ c_ran case_end = [0; 1; 2; 3] ∧ c_gone case_end = [0] ∧ c_locked case_end = false ∧
  (dstep okey (c_obj case_end) DListKeys).2 = DKeys [6].
Proof. split; [apply cruns_reach; vm_compute; reflexivity|]. by vm_compute. Qed.
Lemma case_witness : ∃ s, reach ostep (cond_init dfifo_init)
    [KCall DPop; KCall (DAdd (dnew 5 50)); KCall DPop; KCall (DAdd (dnew 6 60)); KCall DListKeys; KCancel 0; KRun 0; KCancel 0; KRun 0; KResume DOk; KRun 3; KRun 0] s ∧
  c_log s = [(1, DNone); (4, DKeys []); (2, DItem [(DtAdded, dnew 5 50)]); (3, DNone)] ∧ c_ran s = [0; 1; 2; 3] ∧ c_gone s = [0] ∧ c_locked s = false ∧
  (dstep okey (c_obj s) DListKeys).2 = DKeys [6].
Proof. exists case_end. exact case_witness0. Qed.
