From Verif Require Import Base RealTime_model RealTime_spec.
From Coq Require Import ZArith.
Local Open Scope Z_scope.

Lemma omap_snoc {A B} (f : A → option B) l x : omap f (l ++ [x]) = omap f l ++ match f x with Some y => [y] | None => [] end.
Proof. rewrite omap_app. simpl. by destruct (f x). Qed.
Lemma wakes_snoc tr l : wakes (tr ++ [l]) = wakes tr ++ match l with RWake t w => [(t, w)] | _ => [] end.
Proof. unfold wakes. rewrite omap_snoc. by destruct l. Qed.
Lemma takes_snoc tr l : takes (tr ++ [l]) = takes tr ++ match l with RTake w => [w] | _ => [] end.
Proof. unfold takes. rewrite omap_snoc. by destruct l. Qed.
Lemma began_snoc tr l : began (tr ++ [l]) = began tr ++ match l with RBegin t => [t] | _ => [] end.
Proof. unfold began. rewrite omap_snoc. by destruct l. Qed.
Lemma clock_snoc t0 tr l : clock_after t0 (tr ++ [l]) = match l with RPass t => t | _ => clock_after t0 tr end.
Proof. unfold clock_after. rewrite foldl_app. by destruct l. Qed.
Lemma unread_snoc tr l : unread (tr ++ [l]) = unread_step (unread tr) l.
Proof. unfold unread. by rewrite foldl_app. Qed.

Section proofs.
  Context (res : Z) (k : tkind) (d t0 : Z).
  Notation tst := (tstep res k d).
  Implicit Types (tr : list tlabel) (s : rtimer).

  Lemma now_clock tr s : reach tst (rt_init t0) tr s → t_now s = clock_after t0 tr.
  Proof.
    apply (reach_trace_inv tst (λ tr s, t_now s = clock_after t0 tr)); [done|]. clear. intros tr s l s' _ IH Hs. rewrite clock_snoc.
    destruct Hs; simpl; try done. unfold tick. destruct k; [destruct (t_cell s)|]; done.
  Qed.
  Lemma clock_mono tr s l1 l2 : reach tst (rt_init t0) tr s → tr = l1 ++ l2 → clock_after t0 l1 <= clock_after t0 tr.
  Proof.
    intros Hr ->. revert s Hr. induction l2 as [|l l2 IH] using rev_ind; intros s Hr; [rewrite app_nil_r; lia|].
    rewrite app_assoc in *. inversion Hr as [Hn|ls s1 l' s2 Hr1 Hs Heq]; [by destruct (l1 ++ l2)|]. apply app_inj_tail in Heq as [-> ->]. specialize (IH _ Hr1). rewrite clock_snoc.
    pose proof (now_clock _ _ Hr1) as Hn. destruct Hs; try done. rewrite Hn in *. lia.
  Qed.

  (** stopped for good *)
  Lemma ended_stays s tr s' : t_phase s = TpEnd → reach tst s tr s' → t_phase s' = TpEnd ∧ wakes tr = [] ∧ began tr = [].
  Proof.
    intros H0. apply (reach_trace_inv tst (λ tr s', t_phase s' = TpEnd ∧ wakes tr = [] ∧ began tr = [])); [done|]. clear. intros tr s1 l s' _ (IH&IHw&IHb) Hs.
    rewrite wakes_snoc, began_snoc, IHw, IHb. destruct Hs; simpl; try done; congruence.
  Qed.
  Lemma stopped_quiet l1 l2 s : reach tst (rt_init t0) (l1 ++ RStop :: l2) s → wakes l2 = [].
  Proof.
    intros (s1&_&Hr)%reach_app_inv. apply (reach_app_inv _ _ [RStop]) in Hr as (s2&Hs%reach_one_inv&Hr). inversion Hs; subst. by eapply (ended_stays (RT _ _ _)) in Hr as (_&?&_).
  Qed.
  (** what was in the queue at the stop can still be read, and nothing more *)
  Lemma stopped_rest l1 l2 s : reach tst (rt_init t0) (l1 ++ RStop :: l2) s → (length (takes l2) ≤ 1)%nat.
  Proof.
    intros (s1&_&Hr)%reach_app_inv. apply (reach_app_inv _ _ [RStop]) in Hr as (s2&Hs%reach_one_inv&Hr). inversion Hs; subst.
    enough (t_phase s = TpEnd ∧ (length (takes l2) + match t_cell s with Some _ => 1 | None => 0 end ≤ 1)%nat) by lia. clear Hs. revert Hr.
    apply (reach_trace_inv tst (λ tr s, t_phase s = TpEnd ∧ (length (takes tr) + match t_cell s with Some _ => 1 | None => 0 end ≤ 1)%nat)).
    - simpl. destruct (t_cell s1); split; done || lia.
    - clear. intros tr s2 l s' _ (IH&IHt) Hs. rewrite takes_snoc, app_length. destruct Hs; simpl in *; try congruence; (split; [done|]); try lia. rewrite H in IHt. lia.
  Qed.

  (** the task's phase and the trace *)
  Definition phase_ok tr s : Prop :=
    match t_phase s with
    | TpNew => wakes tr = [] ∧ began tr = []
    | TpSleep dl => (∃ b, began tr = [b]) ∧ (k = KTimer → wakes tr = []) ∧ ∃ t, last_start tr = Some t ∧ dl = deadline_from d t
    | TpPut _ => False
    | TpEnd => (k = KTimer → length (wakes tr) ≤ 1)%nat
    end ∧ (k = KTimer → t_cell s ≠ None → length (wakes tr) = 1%nat).
  Lemma phase_reach tr s : reach tst (rt_init t0) tr s → phase_ok tr s.
  Proof.
    apply (reach_trace_inv tst phase_ok). { split; [|done]. done. }
    clear. intros tr s l s' _ [IH IHc] Hs. unfold phase_ok, last_start in *. rewrite wakes_snoc, began_snoc. destruct Hs; simpl in *; rewrite ?app_nil_r.
    - done.
    - rewrite H in IH. destruct IH as [Hw Hb]. rewrite Hw, Hb in *. simpl. split; [|done]. split; [by eexists|]. split; [done|]. by eexists.
    - rewrite H in IH. destruct IH as ((b&->)&Hw&t&Ht&->). unfold tick. destruct k.
      + specialize (Hw eq_refl). rewrite Hw in *. destruct (t_cell s) eqn:Hc; [|by split; simpl]. exfalso. by specialize (IHc eq_refl ltac:(done)).
      + simpl. split; [|done]. split; [by eexists|]. split; [done|]. rewrite last_snoc. by eexists.
    - by rewrite H in IH.
    - split; [done|]. done.
    - split; [|done]. destruct (t_phase s) as [| |w|]; [destruct IH as [-> _]; simpl; lia| |done|done]. destruct IH as (_&Hw&_). intros Hk. rewrite (Hw Hk); simpl; lia.
  Qed.
  Lemma timer_once tr s : k = KTimer → reach tst (rt_init t0) tr s → (length (wakes tr) ≤ 1)%nat ∧ ∀ w, t_phase s ≠ TpPut w.
  Proof.
    intros Hk [Hp _]%phase_reach. destruct (t_phase s); [destruct Hp as [-> _]; simpl; split; [lia|done]| |done|naive_solver]. destruct Hp as (_&Hw&_). rewrite (Hw Hk). simpl. split; [lia|done].
  Qed.
  Lemma queue_exact tr s : reach tst (rt_init t0) tr s → t_cell s = unread tr.
  Proof.
    apply (reach_trace_inv tst (λ tr s, t_cell s = unread tr)); [done|]. clear. intros tr s l s' Hr IH Hs. rewrite unread_snoc, <-IH.
    pose proof (phase_reach _ _ Hr) as [Hp Hc]. destruct Hs; simpl; try done.
    - rewrite H in Hp. unfold tick. destruct k, (t_cell s); done.
    - by rewrite H in Hp.
  Qed.
  Lemma take_exact l1 w l2 s : reach tst (rt_init t0) (l1 ++ RTake w :: l2) s → unread l1 = Some w.
  Proof.
    intros (s1&Hr1&Hr)%reach_app_inv. apply (reach_app_inv _ _ [RTake w]) in Hr as (s2&Hs%reach_one_inv&_). rewrite <-(queue_exact _ _ Hr1). by inversion Hs.
  Qed.
  Lemma timer_takes tr s : k = KTimer → reach tst (rt_init t0) tr s → takes tr ++ option_list (t_cell s) = (wakes tr).*2.
  Proof.
    intros Hk Hr0. revert tr s Hr0. intros tr s. apply (reach_trace_inv tst (λ tr s, takes tr ++ option_list (t_cell s) = (wakes tr).*2)); [done|]. clear tr s. intros tr s l s' Hr IH Hs.
    rewrite takes_snoc, wakes_snoc. pose proof (phase_reach _ _ Hr) as [Hp Hc]. destruct Hs; simpl in *; rewrite ?app_nil_r; try done.
    - rewrite H in Hp. destruct Hp as (_&Hw&_). specialize (Hw Hk). specialize (Hc Hk). rewrite Hw in IH, Hc |- *. simpl. unfold tick. rewrite Hk.
      destruct (t_cell s); [exfalso; by specialize (Hc ltac:(done))|]. simpl in *. rewrite app_nil_r in IH. by rewrite IH.
    - by rewrite H in Hp.
    - rewrite H in IH. simpl in IH. done.
  Qed.

  (** when it wakes *)
  Lemma wake_time l1 t w l2 s : reach tst (rt_init t0) (l1 ++ RWake t w :: l2) s → ∃ b, last_start l1 = Some b ∧ deadline_from d b < t + res ∧ t = clock_after t0 l1.
  Proof.
    intros (s1&Hr1&Hr)%reach_app_inv. apply (reach_app_inv _ _ [RWake t w]) in Hr as (s2&Hs%reach_one_inv&_). inversion Hs; subst.
    pose proof (phase_reach _ _ Hr1) as [Hp _]. match goal with H : t_phase s1 = TpSleep _ |- _ => rewrite H in Hp end. destruct Hp as (_&_&b&Hb&->).
    exists b. split; [done|]. split; [done|]. by apply now_clock.
  Qed.
  Lemma first_wake l1 t w l2 s : reach tst (rt_init t0) (l1 ++ RWake t w :: l2) s → wakes l1 = [] → ∃ b, RBegin b ∈ l1 ∧ b + Z.max 0 d < t + res.
  Proof.
    intros Hr Hw. apply wake_time in Hr as (b&Hb&Hlt&_). exists b. split; [|done]. unfold last_start in Hb. rewrite Hw in Hb. simpl in Hb.
    apply last_Some_elem_of in Hb. unfold began in Hb. apply elem_of_list_omap in Hb as (l&Hl&Hx). by destruct l; simplify_eq.
  Qed.
  Lemma wakes_split tr l1 x l2 : wakes tr = l1 ++ x :: l2 → ∃ tr1 tr2, tr = tr1 ++ RWake x.1 x.2 :: tr2 ∧ wakes tr1 = l1 ∧ wakes tr2 = l2.
  Proof.
    revert l1. induction tr as [|l tr IH]; intros l1 H; [by destruct l1|]. unfold wakes in H. simpl in H. fold (wakes tr) in H.
    destruct l as [| |t w| | |]; try (destruct (IH l1 H) as (tr1&tr2&->&<-&<-); by eexists (_ :: tr1), tr2).
    destruct l1 as [|y l1]; simpl in H.
    - injection H as <- <-. by exists [], tr.
    - injection H as <- H. destruct (IH l1 H) as (tr1&tr2&->&<-&<-). by eexists (_ :: tr1), tr2.
  Qed.
  Lemma ticks_apart tr s x y : reach tst (rt_init t0) tr s → adjacent x y (wakes tr) → x.1 + Z.max 0 d < y.1 + res.
  Proof.
    intros Hr (l1&l2&Hw). change (l1 ++ x :: y :: l2) with (l1 ++ [x] ++ y :: l2) in Hw. rewrite app_assoc in Hw.
    apply wakes_split in Hw as (tr1&tr2&->&Hw1&_). apply wake_time in Hr as (b&Hb&Hlt&_). unfold last_start in Hb. rewrite Hw1, last_snoc in Hb. destruct x. simpl in *. by simplify_eq.
  Qed.
  (** so many ticks take so long *)
  Lemma ticks_bounded tr s : res <= Z.max 0 d → reach tst (rt_init t0) tr s → Z.of_nat (length (wakes tr)) * (Z.max 0 d - res) <= clock_after t0 tr - t0.
  Proof.
    intros Hd Hr. enough (∀ b, last_start tr = Some b → Z.of_nat (length (wakes tr)) * (Z.max 0 d - res) <= b - t0 ∧ b <= clock_after t0 tr).
    { destruct (last_start tr) as [b|] eqn:Hb; [specialize (H b eq_refl); lia|]. unfold last_start in Hb. destruct (last (wakes tr)) as [[]|] eqn:Hl; [done|].
      apply last_None in Hl. rewrite Hl. simpl. pose proof (clock_mono tr s [] tr Hr eq_refl). unfold clock_after in *. simpl in *. lia. }
    revert Hr. apply (reach_trace_inv tst (λ tr s, ∀ b, last_start tr = Some b → Z.of_nat (length (wakes tr)) * (Z.max 0 d - res) <= b - t0 ∧ b <= clock_after t0 tr)); [done|].
    clear tr s. intros tr s l s' Hr IH Hs b. unfold last_start in *. rewrite wakes_snoc, began_snoc, clock_snoc.
    pose proof (phase_reach _ _ Hr) as [Hp _]. pose proof (now_clock _ _ Hr) as Hn.
    destruct Hs; simpl; rewrite ?app_nil_r; try apply IH.
    - intros Hb. destruct (IH b Hb). lia.
    - rewrite H in Hp. destruct Hp as [Hw Hb]. rewrite Hw, Hb in *. simpl. intros [= <-]. pose proof (clock_mono tr s [] tr Hr eq_refl) as Hm. unfold clock_after in *. simpl in *. lia.
    - rewrite H in Hp. destruct Hp as (_&_&b0&Hb0&->). unfold last_start in Hb0. rewrite last_snoc, app_length. simpl. intros [= <-].
      destruct (IH b0 Hb0) as [IH1 IH2]. unfold deadline_from in *. nia.
  Qed.
  (** it can always go on when its time has come *)
  Lemma can_begin tr s : reach tst (rt_init t0) tr s → began tr = [] → RStop ∉ tr → tst s (RBegin (t_now s)) (RT (t_now s) (TpSleep (deadline_from d (t_now s))) (t_cell s)).
  Proof.
    intros Hr Hb Hn. apply t_begin. revert Hr Hb Hn. apply (reach_trace_inv tst (λ tr s, began tr = [] → RStop ∉ tr → t_phase s = TpNew)); [done|].
    clear. intros tr s l s' Hr IH Hs. rewrite began_snoc, elem_of_app, elem_of_list_singleton. intros [Hb Hl]%app_nil Hn. specialize (IH Hb ltac:(tauto)).
    destruct Hs; simpl in *; try done; try congruence. exfalso. tauto.
  Qed.
  Lemma can_wake tr s b w : reach tst (rt_init t0) tr s → last_start tr = Some b → RStop ∉ tr → (k = KTimer → wakes tr = []) →
    b + Z.max 0 d < t_now s + res → tst s (RWake (t_now s) w) (tick k d s w).
  Proof.
    intros Hr Hb Hn Hk Ht. assert (t_phase s = TpSleep (deadline_from d b)) as Hp; [|by eapply t_wake].
    clear w Ht. revert Hr b Hb Hn Hk. apply (reach_trace_inv tst (λ tr s, ∀ b, last_start tr = Some b → RStop ∉ tr → (k = KTimer → wakes tr = []) → t_phase s = TpSleep (deadline_from d b))); [done|].
    clear. intros tr s l s' Hr IH Hs b. pose proof (phase_reach _ _ Hr) as [Hp _]. unfold last_start in *. rewrite wakes_snoc, began_snoc, elem_of_app, elem_of_list_singleton. intros Hb Hn Hk.
    destruct Hs; simpl in *; rewrite ?app_nil_r in *; try (apply IH; [done|tauto|done]).
    - rewrite H in Hp. destruct Hp as [Hw Hg]. rewrite Hw, Hg in Hb. simpl in Hb. by simplify_eq.
    - rewrite last_snoc in Hb. simplify_eq. unfold tick. destruct k; [|done]. specialize (Hk eq_refl). by apply app_nil in Hk as [_ ?].
    - rewrite H in Hp. done.
    - exfalso. tauto.
  Qed.
End proofs.

(** runs *)
Definition tick_trace : list tlabel := [RBegin 0; RPass 13; RWake 13 113; RPass 20; RTake 113].
Definition tick_state : rtimer := RT 20 (TpSleep 23) None.
Lemma tick_runs : reach (tstep 1 KTicker 10) (rt_init 0) tick_trace tick_state.
Proof.
  unfold tick_trace. eapply reach_cons; [by apply (t_begin 1 KTicker 10 (RT 0 TpNew None))|]. simpl. eapply reach_cons; [by apply (t_pass _ _ _ (RT _ _ _) 13)|]. simpl.
  eapply reach_cons; [by apply (t_wake 1 KTicker 10 (RT 13 (TpSleep 10) None) 10)|]. simpl.
  eapply reach_cons; [by apply (t_pass _ _ _ (RT _ _ _) 20)|]. simpl. eapply reach_cons; [by apply (t_take _ _ _ (RT _ _ _))|]. constructor.
Qed.
Lemma grid_refuted : reach (tstep 1 KTicker 10) (rt_init 0) tick_trace tick_state ∧ RBegin 0 ∈ tick_trace ∧ t_now tick_state = 20 ∧ unread tick_trace = None ∧
  ∀ w s', ¬ tstep 1 KTicker 10 tick_state (RWake 20 w) s'.
Proof.
  split; [apply tick_runs|]. split; [by left|]. split; [done|]. split; [done|]. intros w s' Hs. inversion Hs as [| |? dl ? Hp Hlt| | |]; simplify_eq/=. lia.
Qed.
Definition drop_trace : list tlabel := [RBegin 0; RPass 10; RWake 10 110; RPass 20; RWake 20 120; RTake 110].
Lemma drop_runs : ∃ s, reach (tstep 1 KTicker 10) (rt_init 0) drop_trace s ∧ wakes drop_trace = [(10, 110); (20, 120)] ∧ takes drop_trace = [110] ∧ t_cell s = None.
Proof.
  eexists. split; [|split; [done|split; [done|]]].
  - unfold drop_trace. eapply reach_cons; [by apply (t_begin 1 KTicker 10 (RT 0 TpNew None))|]. simpl. eapply reach_cons; [by apply (t_pass _ _ _ (RT _ _ _) 10)|]. simpl.
    eapply reach_cons; [by apply (t_wake 1 KTicker 10 (RT 10 (TpSleep 10) None) 10)|]. simpl. eapply reach_cons; [by apply (t_pass _ _ _ (RT _ _ _) 20)|]. simpl.
    eapply reach_cons; [by apply (t_wake 1 KTicker 10 (RT 20 (TpSleep 20) (Some 110)) 20)|]. simpl. eapply reach_cons; [by apply (t_take _ _ _ (RT _ _ _))|]. constructor.
  - done.
Qed.
Definition timer_trace : list tlabel := [RBegin 0; RPass 10; RWake 10 110; RTake 110; RStop].
Lemma timer_runs : ∃ s, reach (tstep 1 KTimer 10) (rt_init 0) timer_trace s.
Proof.
  eexists. unfold timer_trace. eapply reach_cons; [by apply (t_begin 1 KTimer 10 (RT 0 TpNew None))|]. simpl. eapply reach_cons; [by apply (t_pass _ _ _ (RT _ _ _) 10)|]. simpl.
  eapply reach_cons; [by apply (t_wake 1 KTimer 10 (RT 10 (TpSleep 10) None) 10)|]. simpl. eapply reach_cons; [by apply (t_take _ _ _ (RT _ _ _))|]. eapply reach_cons; [apply t_stop|]. constructor.
Qed.
