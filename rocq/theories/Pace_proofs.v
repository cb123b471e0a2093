From Verif Require Import Base KeyFunc_model Reflector_model Reflector_spec Reflector_proofs Store_model World_model World_proofs Pace_model Pace_spec.
From Coq Require Import ZArith.

Section pace.
  Context {O RV S : Type} (g : rcfg O RV) (q : sops O RV S) (sec res : Z).
  Local Open Scope Z_scope.
  Notation pstate := (pstate RV S).
  Notation plabel := (plabel O RV).
  Notation pst := (pstep g q sec res).
  Implicit Types (s : pstate) (l : plabel) (tr : list plabel) (r : refl RV).

  (** how the reflector moves *)
  Inductive moves r (i : rinput O RV) r' : Prop :=
  | mv_same : r_pc r' = r_pc r → (list_answer i = true → r_pc r ≠ RIdle) → (i = IWatch → r_pc r ≠ RReady) → moves r i r'
  | mv_idle : r_pc r' = RIdle → (r_pc r = RIdle ∧ list_answer i = true ∨ r_pc r ≠ RIdle ∧ list_answer i = false) → moves r i r'
  | mv_list items v : i = IList items v → r_pc r = RIdle → r_pc r' = RReady → moves r i r'
  | mv_watch : i = IWatch → r_pc r = RReady → r_pc r' = RWatching 0 → moves r i r'
  | mv_event e rv n : i = IEvent e → classify g e = KTake rv → r_pc r = RWatching n → r_pc r' = RWatching (n + 1) → moves r i r'
  | mv_close short n : i = IClose short → r_pc r = RWatching n → (short = true → n ≠ 0%nat) → r_pc r' = RReady → moves r i r'
  | mv_hung n : i = IStreamRaises → r_pc r = RWatching n → r_pc r' = RHung → moves r i r'
  | mv_cancel : i = ICancel → r_pc r' = RCancelled → moves r i r'.
  Lemma rstep_moves r st i r' st' out : rstep g q (r, st) i = ((r', st'), out) → moves r i r'.
  Proof.
    unfold rstep. destruct i as [|items v| | |e|short| |due| | |]; destruct (r_pc r) as [| |n| |] eqn:Hpc; intros H;
      try (simplify_eq; by apply mv_same; [|rewrite Hpc|rewrite Hpc]);
      try (simplify_eq; apply mv_idle; [done|rewrite Hpc; by left]);
      try (simplify_eq; by apply mv_cancel);
      try (simplify_eq; by eapply mv_hung);
      try (simplify_eq; by eapply mv_watch).
    - destruct (so_replace q st items v) as [s1 [|]]; simplify_eq; [by eapply mv_list|apply mv_idle; [done|rewrite Hpc; by left]].
    - simplify_eq. apply mv_idle; [done|rewrite Hpc; by right].
    - destruct (r_noticed r); [simplify_eq; apply mv_idle; [done|rewrite Hpc; by right]|].
      destruct (classify g e) as [| |rv] eqn:Hc.
      + simplify_eq. apply mv_idle; [done|rewrite Hpc; by right].
      + simplify_eq. by apply mv_same; [|rewrite Hpc|rewrite Hpc].
      + destruct (apply_event q e st). simplify_eq. by eapply mv_event.
    - destruct (r_noticed r); simpl in H; [simplify_eq; apply mv_idle; [done|rewrite Hpc; by right]|].
      destruct (short && (n =? 0)%nat) eqn:Hs; simplify_eq; [apply mv_idle; [done|rewrite Hpc; by right]|].
      eapply mv_close; try done. intros -> ->. done.
    - destruct (negb due || r_failed r); [simplify_eq; by apply mv_same; [|rewrite Hpc|rewrite Hpc]|].
      destruct (so_resync q st). simplify_eq. by apply mv_same; [|rewrite Hpc|rewrite Hpc].
    - destruct (negb due || r_failed r); [simplify_eq; by apply mv_same; [|rewrite Hpc|rewrite Hpc]|].
      destruct (so_resync q st). simplify_eq. by apply mv_same; [|rewrite Hpc|rewrite Hpc].
    - destruct (negb due || r_failed r); [simplify_eq; by apply mv_same; [|rewrite Hpc|rewrite Hpc]|].
      destruct (so_resync q st). simplify_eq. by apply mv_same; [|rewrite Hpc|rewrite Hpc].
    - destruct (r_failed r); simplify_eq; [apply mv_idle; [done|rewrite Hpc; by right]|by apply mv_same; [|rewrite Hpc|rewrite Hpc]].
    - destruct (r_failed r); simplify_eq; [apply mv_idle; [done|rewrite Hpc; by right]|by apply mv_same; [|rewrite Hpc|rewrite Hpc]].
  Qed.

  Lemma rstep_cancelled r st i r' st' out : r_pc r = RCancelled → rstep g q (r, st) i = ((r', st'), out) → r_pc r' = RCancelled.
  Proof. unfold rstep. intros Hc. rewrite Hc. destruct i; intros H; by simplify_eq. Qed.
  Lemma omap_snoc {X Y} (f : X → option Y) (xs : list X) (x : X) : omap f (xs ++ [x]) = omap f xs ++ match f x with Some y => [y] | None => [] end.
  Proof. rewrite omap_app. simpl. by destruct (f x). Qed.
  Lemma now_le s l s' : pst s l s' → p_now s <= p_now s'.
  Proof. destruct 1; simpl; lia. Qed.
  Lemma now_reach s tr s' : reach pst s tr s' → p_now s <= p_now s'.
  Proof. induction 1 as [|tr s1 l s2 Hr IH Hs]; [lia|]. pose proof (now_le _ _ _ Hs). lia. Qed.
  Lemma clock_reach t0 tr s0 s : p_now s0 = t0 → reach pst s0 tr s → p_now s = pclock t0 tr.
  Proof.
    intros H0. induction 1 as [|tr s1 l s2 Hr IH Hs]; [done|]. unfold pclock. rewrite foldl_app. simpl. fold (pclock t0 tr).
    destruct Hs; simpl; done.
  Qed.

  (** ** Lists *)
  Definition linv tr s : Prop :=
    (p_listing s = true → r_pc (p_refl s) = RIdle ∨ r_pc (p_refl s) = RCancelled) ∧
    ∀ a, a ∈ list_times tr → a <= p_now s ∧ (pausing s = true → ∃ dl, p_wake s = Some dl ∧ a + sec <= dl).
  Lemma linv_reach (s0 : S) t w tr s : reach pst (p_init s0 t w) tr s → linv tr s.
  Proof.
    apply (reach_trace_inv pst linv).
    { split; [done|]. intros a Ha. by apply elem_of_nil in Ha. }
    clear s tr. intros tr s l s' _ [IHl IH] Hs. unfold linv. unfold list_times. rewrite omap_snoc. fold (list_times tr).
    destruct Hs as [t' w' Hle|Hp Ha|i r st out Hal Hr]; cbn [p_listing p_refl p_now p_wake].
    - rewrite app_nil_r. split; [done|]. intros a Ha. destruct (IH a Ha) as [H1 H2]. split; [lia|]. exact H2.
    - split. { intros _. left. unfold pausing in Hp. by destruct (r_pc (p_refl s)). }
      intros a [Hin|Hin%elem_of_list_singleton]%elem_of_app; (split; [|unfold pausing; simpl; by destruct (r_pc (p_refl s))]); [by apply IH|lia].
    - rewrite app_nil_r. unfold after; cbn [p_listing p_refl p_now p_wake].
      apply rstep_moves in Hr as [Hpc Hli Hw|Hpc Hor|items v Hi Hpc Hpc'|Hi Hpc Hpc'|e rv n Hi Hcl Hpc Hpc'|short n Hi Hpc Hsh Hpc'|n Hi Hpc Hpc'|Hi Hpc']; try subst i;
        unfold pausing, is_idle; cbn [p_refl p_listing p_wake]; rewrite ?Hpc'; simpl.
      + split. { rewrite Hpc. intros [Hx _]%andb_true_iff. by apply IHl. }
        intros a Ha. destruct (IH a Ha) as [H1 H2]. split; [done|]. rewrite Hpc. unfold pausing in H2.
        destruct (r_pc (p_refl s)) eqn:Hp; try done. rewrite (proj1 (not_true_iff_false (list_answer i))) by (intros Hx; by apply Hli).
        rewrite andb_true_r. simpl. exact H2.
      + rewrite Hpc. split; [by left|]. intros a Ha. destruct (IH a Ha) as [H1 H2]. split; [done|]. intros _.
        assert ((list_answer i || negb match r_pc (p_refl s) with RIdle => true | _ => false end) = true) as Hx.
        { destruct Hor as [[Hp Hx]|[Hp Hx]]; rewrite Hx; [done|]. destruct (r_pc (p_refl s)); done. }
        rewrite Hx. simpl. eexists. split; [done|]. lia.
      + rewrite andb_false_r. split; [done|]. intros a Ha. split; [by apply IH|done].
      + rewrite andb_true_r. split. { intros Hx. destruct (IHl Hx); congruence. } intros a Ha. split; [by apply IH|done].
      + rewrite andb_true_r. split. { intros Hx. destruct (IHl Hx); congruence. } intros a Ha. split; [by apply IH|done].
      + rewrite andb_true_r. split. { intros Hx. destruct (IHl Hx); congruence. } intros a Ha. split; [by apply IH|done].
      + rewrite andb_true_r. split. { intros Hx. destruct (IHl Hx); congruence. } intros a Ha. split; [by apply IH|done].
      + split; [by right|]. intros a Ha. split; [by apply IH|done].
  Qed.
  Lemma send_after (s0 : S) t w tr s b s' : reach pst (p_init s0 t w) tr s → pst s (PSendList b) s' →
    b = p_now s ∧ ∀ a, a ∈ list_times tr → a + sec < b + res.
  Proof.
    intros Hr%linv_reach Hs. inversion Hs as [|Hp Ha|]; subst. split; [done|]. intros a Hin.
    destruct Hr as [_ Hr]. destruct (Hr a Hin) as [_ Hx]. destruct (Hx Hp) as (dl & Hdl & Hle). unfold awake in Ha. rewrite Hdl in Ha. lia.
  Qed.
  Lemma lists_apart (s0 : S) t w a b c t1 t2 s : reach pst (p_init s0 t w) (a ++ PSendList t1 :: b ++ PSendList t2 :: c) s → t1 + sec < t2 + res.
  Proof.
    intros Hr. rewrite app_comm_cons, app_assoc in Hr. apply reach_app_inv in Hr as (s1 & Hr1 & Hr2).
    change (PSendList t2 :: c) with ([PSendList t2] ++ c) in Hr2. apply reach_app_inv in Hr2 as (s2 & Hs%reach_one_inv & _).
    destruct (send_after _ _ _ _ _ _ _ Hr1 Hs) as [_ Hx]. apply Hx. unfold list_times. rewrite omap_app. apply elem_of_app. right. simpl. left.
  Qed.
  Lemma lists_number (s0 : S) t0 w tr s : res <= sec → reach pst (p_init s0 t0 w) tr s →
    (Z.of_nat (length (list_times tr)) - 1) * (sec - res) <= p_now s - t0.
  Proof.
    intros Hres Hr.
    assert (∀ a, last (list_times tr) = Some a → (Z.of_nat (length (list_times tr)) - 1) * (sec - res) <= a - t0) as Hall.
    { revert Hr. apply (reach_trace_inv pst (λ tr s, ∀ a, last (list_times tr) = Some a → (Z.of_nat (length (list_times tr)) - 1) * (sec - res) <= a - t0)).
      { done. }
      intros tr' s' l s'' Hr IH Hs a. unfold list_times. rewrite omap_snoc. fold (list_times tr').
      destruct l as [| b |]; try (rewrite app_nil_r; apply IH). rewrite last_snoc. intros [= <-]. rewrite app_length. simpl.
      destruct (send_after _ _ _ _ _ _ _ Hr Hs) as [-> Ha]. destruct (last (list_times tr')) as [a|] eqn:El.
      - specialize (IH a eq_refl). specialize (Ha a (last_Some_elem_of _ _ El)). lia.
      - apply last_None in El. rewrite El. simpl. pose proof (now_reach _ _ _ Hr) as Hn. simpl in Hn. lia. }
    pose proof (now_reach _ _ _ Hr) as Hn. simpl in Hn. destruct (last (list_times tr)) as [a|] eqn:El.
    - specialize (Hall a eq_refl). destruct (linv_reach _ _ _ _ _ Hr) as [_ Hl]. destruct (Hl a (last_Some_elem_of _ _ El)). lia.
    - apply last_None in El. rewrite El. simpl. lia.
  Qed.

  (** ** Watches *)
  Lemma take_accepted e rv : classify g e = KTake rv → accepted g e rv.
  Proof. apply classify_take. Qed.
  Definition jinv t1 (b : list plabel) s : Prop :=
    (∀ t, PSendList t ∉ b) → (∀ e rv o x t w, PIn (IEvent e) o x t w ∈ b → ¬ accepted g e rv) →
    p_listing s = false ∧ (r_pc (p_refl s) = RReady ∨ r_pc (p_refl s) = RIdle ∨ r_pc (p_refl s) = RHung ∨ r_pc (p_refl s) = RCancelled ∨
      r_pc (p_refl s) = RWatching 0 ∧ ∃ o x t, PIn IWatch o x t (p_start s) ∈ b ∧ t1 <= t) ∧ t1 <= p_now s.
  Lemma jinv_reach s1 b s : p_listing s1 = false → r_pc (p_refl s1) = RReady → reach pst s1 b s → jinv (p_now s1) b s.
  Proof.
    intros Hl1 Hp1. apply (reach_trace_inv pst (jinv (p_now s1))).
    { intros _ _. split; [done|]. split; [by left|lia]. }
    intros tr s' l s'' Hr IH Hs Hns Hna.
    assert (Hns' : ∀ t, PSendList t ∉ tr) by (intros t Hin; apply (Hns t), elem_of_app; by left).
    destruct (IH Hns') as (Hl & Hpc & Hn). { intros e rv o x t w Hin. eapply Hna. apply elem_of_app. by left. }
    pose proof (now_le _ _ _ Hs) as Hnow.
    assert (Hkeep : ∀ st, (∃ o x t, PIn IWatch o x t st ∈ tr ∧ p_now s1 <= t) → ∃ o x t, PIn IWatch o x t st ∈ tr ++ [l] ∧ p_now s1 <= t).
    { intros st (o & x & t & Hin & Ht). exists o, x, t. split; [apply elem_of_app; by left|done]. }
    destruct Hs as [t' w' Hle|Hp Ha|i r st out Hal Hst]; simpl in *.
    - split; [done|]. split; [|lia]. destruct Hpc as [?|[?|[?|[?|[? ?]]]]]; auto 10.
    - exfalso. apply (Hns (p_now s')), elem_of_app. right. left.
    - split; [by rewrite Hl|]. split; [|done].
      apply rstep_moves in Hst as [Hpc0 Hli Hw|Hpc0 Hor|items v Hi Hpc0 Hpc'|Hi Hpc0 Hpc'|e rv n Hi Hcl Hpc0 Hpc'|short n Hi Hpc0 Hsh Hpc'|n Hi Hpc0 Hpc'|Hi Hpc']; try subst; try (rewrite ?Hpc'; by auto 10).
      + rewrite Hpc0. destruct Hpc as [?|[?|[?|[?|[? Hx]]]]]; auto 10. right; right; right; right. split; [done|].
        assert (match i with IWatch => if is_ready (p_refl s') then p_wall s' else p_start s' | _ => p_start s' end = p_start s') as ->.
        { destruct i; try done. unfold is_ready. by rewrite H. }
        by apply Hkeep.
      + right; right; right; right. split; [done|]. unfold is_ready. rewrite Hpc0. eexists _, _, _. split; [apply elem_of_app; right; left|]. lia.
      + exfalso. eapply Hna; [apply elem_of_app; right; left|]. by apply take_accepted.
  Qed.
  Lemma in_inv s i o x t w s' : pst s (PIn i o x t w) s' → ∃ r st, allowed sec s i ∧ rstep g q (p_refl s, p_store s) i = ((r, st), o) ∧
    x = is_ready r && negb (is_ready (p_refl s)) ∧ t = p_now s ∧ w = p_wall s ∧ s' = after sec s i r st.
  Proof. inversion 1; subst. eauto 10. Qed.
  Lemma ready_not_listing (s0 : S) t w tr i o t1 w1 s s' : reach pst (p_init s0 t w) tr s → pst s (PIn i o true t1 w1) s' →
    r_pc (p_refl s') = RReady ∧ p_listing s' = false ∧ p_now s' = t1.
  Proof.
    intros Hr Hs. assert (Hr' : reach pst (p_init s0 t w) (tr ++ [PIn i o true t1 w1]) s') by (by eapply reach_snoc).
    destruct (linv_reach _ _ _ _ _ Hr') as [Hl _]. apply in_inv in Hs as (r & st & Hal & Hst & Heq & -> & -> & ->). unfold after in *; simpl in *.
    symmetry in Heq. apply andb_true_iff in Heq as [Hre _]. unfold is_ready in Hre. destruct (r_pc r) eqn:Hp; try done. split; [done|]. split; [|done].
    apply not_true_iff_false. intros Hx. destruct (Hl Hx); done.
  Qed.
  Lemma idle_watches (s0 : S) t w a i1 o1 t1 w1 b i2 o2 t2 w2 c s :
    reach pst (p_init s0 t w) (a ++ PIn i1 o1 true t1 w1 :: b ++ PIn i2 o2 true t2 w2 :: c) s →
    (∀ t, PSendList t ∉ b) → (∀ e rv o x t w, PIn (IEvent e) o x t w ∈ b → ¬ accepted g e rv) →
    ∃ o x t' w', PIn IWatch o x t' w' ∈ b ∧ t1 <= t' ∧ w' + sec <= w2.
  Proof.
    intros Hr Hns Hna. apply reach_app_inv in Hr as (sa & Hra & Hr).
    change (PIn i1 o1 true t1 w1 :: b ++ PIn i2 o2 true t2 w2 :: c) with ([PIn i1 o1 true t1 w1] ++ (b ++ PIn i2 o2 true t2 w2 :: c)) in Hr.
    apply reach_app_inv in Hr as (s1 & Hs1%reach_one_inv & Hr). apply reach_app_inv in Hr as (s2 & Hrb & Hr).
    change (PIn i2 o2 true t2 w2 :: c) with ([PIn i2 o2 true t2 w2] ++ c) in Hr. apply reach_app_inv in Hr as (s3 & Hs3%reach_one_inv & _).
    destruct (ready_not_listing _ _ _ _ _ _ _ _ _ _ Hra Hs1) as (Hp1 & Hl1 & <-).
    destruct (jinv_reach _ _ _ Hl1 Hp1 Hrb Hns Hna) as (Hl2 & Hpc & Hn).
    apply in_inv in Hs3 as (r & st & Hal & Hst & Heq & -> & -> & ->). symmetry in Heq. apply andb_true_iff in Heq as [Hre Hnr]. unfold is_ready in Hre, Hnr.
    apply rstep_moves in Hst as [Hpc0 Hli Hw|Hpc0 Hor|items v Hi Hpc0 Hpc'|Hi Hpc0 Hpc'|e rv n Hi Hcl Hpc0 Hpc'|short n Hi Hpc0 Hsh Hpc'|n Hi Hpc0 Hpc'|Hi Hpc']; try subst;
      try (rewrite ?Hpc', ?Hpc0 in Hre; done).
    - rewrite Hpc0 in Hre. by destruct (r_pc (p_refl s2)).
    - simpl in Hal. congruence.
    - destruct Hpc as [?|[?|[?|[?|[Hw0 (o & x & t' & Hin & Ht)]]]]]; try congruence.
      assert (n = 0%nat) as -> by congruence. simpl in Hal. exists o, x, t', (p_start s2). split; [done|]. split; [done|].
      destruct short; [by destruct (Hsh eq_refl)|]. symmetry in Hal. lia.
  Qed.

  (** ** With agreeing clocks *)
  Lemma wall_reach (s0 : S) t0 δ tr s : clocks_agree δ tr → reach pst (p_init s0 t0 (t0 + δ)) tr s → p_wall s = p_now s + δ.
  Proof.
    intros Hag Hr. revert Hr Hag. apply (reach_trace_inv pst (λ tr s, clocks_agree δ tr → p_wall s = p_now s + δ)).
    { done. }
    intros tr' s1 l s2 _ IH Hs Hag. assert (IH' : p_wall s1 = p_now s1 + δ) by (apply IH; intros t w Hin; apply Hag, elem_of_app; by left).
    destruct Hs as [t w Hle| |]; simpl; try done. apply Hag, elem_of_app. right. left.
  Qed.
  Lemma agree_app δ tr1 tr2 : clocks_agree δ (tr1 ++ tr2) → clocks_agree δ tr1.
  Proof. intros H t w Hin. apply H, elem_of_app. by left. Qed.
  Lemma in_times (s0 : S) t0 δ a b i o x t w s : clocks_agree δ (a ++ PIn i o x t w :: b) →
    reach pst (p_init s0 t0 (t0 + δ)) (a ++ PIn i o x t w :: b) s → w = t + δ.
  Proof.
    intros Hag (s1 & Hr & Hr2)%reach_app_inv. change (PIn i o x t w :: b) with ([PIn i o x t w] ++ b) in Hr2.
    apply reach_app_inv in Hr2 as (s2 & Hs%reach_one_inv & _). apply in_inv in Hs as (r & st & _ & _ & _ & -> & -> & _).
    eapply wall_reach; [|exact Hr]. by eapply agree_app.
  Qed.
  Lemma idle_watches_agree (s0 : S) t0 δ a i1 o1 t1 w1 b i2 o2 t2 w2 c s :
    clocks_agree δ (a ++ PIn i1 o1 true t1 w1 :: b ++ PIn i2 o2 true t2 w2 :: c) →
    reach pst (p_init s0 t0 (t0 + δ)) (a ++ PIn i1 o1 true t1 w1 :: b ++ PIn i2 o2 true t2 w2 :: c) s →
    (∀ t, PSendList t ∉ b) → (∀ e rv o x t w, PIn (IEvent e) o x t w ∈ b → ¬ accepted g e rv) → t1 + sec <= t2.
  Proof.
    intros Hag Hr Hns Hna. destruct (idle_watches _ _ _ _ _ _ _ _ _ _ _ _ _ _ _ Hr Hns Hna) as (o & x & t' & w' & Hin & Ht & Hw).
    apply elem_of_list_split in Hin as (b1 & b2 & ->).
    assert (w' = t' + δ) as ->.
    { eapply (in_times s0 t0 δ (a ++ PIn i1 o1 true t1 w1 :: b1)); rewrite <-app_assoc; simpl; rewrite <-app_assoc in Hag, Hr; simpl in Hag, Hr; [exact Hag|exact Hr]. }
    assert (w2 = t2 + δ) as ->.
    { eapply (in_times s0 t0 δ (a ++ PIn i1 o1 true t1 w1 :: b1 ++ PIn IWatch o x t' (t' + δ) :: b2)); rewrite <-app_assoc; simpl; rewrite <-app_assoc; simpl;
        rewrite <-app_assoc in Hag, Hr; simpl in Hag, Hr; [exact Hag|exact Hr]. }
    lia.
  Qed.

  (** watches requested, lists requested and events that arrived *)
  Section count.
    Context (acc : event O → bool) (Hacc : ∀ e rv, accepted g e rv → acc e = true) (Hsec : 0 <= sec) (t0 δ : Z).
    Definition nw tr : Z := Z.of_nat (length (watch_times tr)).
    Definition nl tr : Z := Z.of_nat (length (list_times tr)).
    Definition ne tr : Z := Z.of_nat (length (arrived acc tr)).
    Definition kinv tr s : Prop :=
      match r_pc (p_refl s) with
      | RIdle => sec * (nw tr - nl tr - ne tr + (if p_listing s then 1 else 0)) <= p_now s - t0
      | RWatching n => sec * (nw tr - nl tr - ne tr + Z.of_nat n) <= p_start s - δ - t0 ∧ p_start s - δ <= p_now s
      | _ => sec * (nw tr - nl tr - ne tr) <= p_now s - t0
      end.
    Lemma kinv_all tr s : kinv tr s → sec * (nw tr - nl tr - ne tr) <= p_now s - t0.
    Proof.
      unfold kinv. destruct (r_pc (p_refl s)) as [| |n| |]; try done; [destruct (p_listing s); nia|]. intros [H1 H2].
      assert (sec * (nw tr - nl tr - ne tr) <= sec * (nw tr - nl tr - ne tr + Z.of_nat n)) by (apply Z.mul_le_mono_nonneg_l; lia). lia.
    Qed.
    Lemma nw_snoc tr l : nw (tr ++ [l]) = nw tr + match l with PIn _ _ true _ _ => 1 | _ => 0 end.
    Proof. unfold nw, watch_times. rewrite omap_snoc, app_length. destruct l as [| |? ? [] ? ?]; simpl; lia. Qed.
    Lemma nl_snoc tr l : nl (tr ++ [l]) = nl tr + match l with PSendList _ => 1 | _ => 0 end.
    Proof. unfold nl, list_times. rewrite omap_snoc, app_length. destruct l as [| |? ? [] ? ?]; simpl; lia. Qed.
    Lemma ne_snoc tr l : ne (tr ++ [l]) = ne tr + match l with PIn (IEvent e) _ _ _ _ => if acc e then 1 else 0 | _ => 0 end.
    Proof. unfold ne, arrived. rewrite omap_snoc, app_length. destruct l as [| |i ? ? ? ?]; simpl; try lia. destruct i as [| | | |e| | | | | |]; simpl; try lia. destruct (acc e); simpl; lia. Qed.
    Lemma kinv_reach (s0 : S) tr s : clocks_agree δ tr → reach pst (p_init s0 t0 (t0 + δ)) tr s → kinv tr s.
    Proof.
      intros Hag Hr. revert Hr Hag. apply (reach_trace_inv pst (λ tr s, clocks_agree δ tr → kinv tr s)).
      { intros _. unfold kinv, nw, nl, ne. simpl. lia. }
      intros tr' s1 l s2 Hr IH Hs Hag. assert (Hag' : clocks_agree δ tr') by (by eapply agree_app). specialize (IH Hag').
      pose proof (wall_reach _ _ _ _ _ Hag' Hr) as Hwall. destruct (linv_reach _ _ _ _ _ Hr) as [Hli _].
      pose proof (kinv_all _ _ IH) as Hall. pose proof (now_le _ _ _ Hs) as Hnow.
      unfold kinv. rewrite nw_snoc, nl_snoc, ne_snoc.
      destruct Hs as [t w Hle|Hp Ha|i r st out Hal Hst].
      - cbn [p_refl p_listing p_now p_start] in *. unfold kinv in IH. rewrite !Z.add_0_r. destruct (r_pc (p_refl s1)); lia.
      - cbn [p_refl p_listing p_now p_start] in *. unfold kinv in IH. unfold pausing in Hp. destruct (r_pc (p_refl s1)); try done.
        destruct (p_listing s1); [done|]. rewrite !Z.add_0_r in *. replace (nw tr' - (nl tr' + 1) - ne tr' + 1) with (nw tr' - nl tr' - ne tr') by lia. lia.
      - pose proof (λ H, rstep_cancelled _ _ _ _ _ _ H Hst) as Hcan.
        apply rstep_moves in Hst. unfold after. cbn [p_refl p_listing p_now p_start] in *.
        set (de := match i with IEvent e => if acc e then 1 else 0 | _ => 0 end).
        replace (match i with IEvent e => if acc e then 1 else 0 | _ => 0 end) with de by done.
        assert (0 <= de <= 1) as Hde. { unfold de. destruct i; try lia. destruct (acc e); lia. }
        set (dw := if is_ready r && negb (is_ready (p_refl s1)) then 1 else 0). rewrite !Z.add_0_r.
        destruct Hst as [Hpc Hans Hw|Hpc Hor|items v Hi Hpc Hpc'|Hi Hpc Hpc'|e rv n Hi Hcl Hpc Hpc'|short n Hi Hpc Hsh Hpc'|n Hi Hpc Hpc'|Hi Hpc'].
        + assert (dw = 0) as ->. { unfold dw, is_ready. rewrite Hpc. by destruct (r_pc (p_refl s1)). }
          assert (match i with IWatch => if is_ready (p_refl s1) then p_wall s1 else p_start s1 | _ => p_start s1 end = p_start s1) as ->.
          { destruct i; try done. unfold is_ready. specialize (Hw eq_refl). by destruct (r_pc (p_refl s1)). }
          rewrite Hpc. unfold kinv in IH. destruct (r_pc (p_refl s1)) eqn:Hp1; try nia.
          destruct (list_answer i); [by destruct (Hans eq_refl)|]. rewrite andb_true_r. nia.
        + assert (dw = 0) as ->. { unfold dw, is_ready. by rewrite Hpc. } rewrite Hpc.
          destruct Hor as [[Hp Hans]|[Hp Hans]].
          * rewrite Hans, andb_false_r. nia.
          * rewrite Hans, andb_true_r. destruct (p_listing s1) eqn:Hl; [|nia]. destruct (Hli eq_refl) as [?|Hc]; [done|].
            rewrite (Hcan Hc) in Hpc. done.
        + subst i. simpl in Hal. unfold kinv in IH. rewrite Hpc, Hal in IH. rewrite Hpc'. assert (dw = 1) as ->. { unfold dw, is_ready. by rewrite Hpc', Hpc. }
          unfold de. nia.
        + subst i. unfold kinv in IH. rewrite Hpc in IH. rewrite Hpc'. assert (dw = 0) as ->. { unfold dw, is_ready. by rewrite Hpc'. }
          unfold is_ready. rewrite Hpc. unfold de. simpl. split; nia.
        + subst i. unfold kinv in IH. rewrite Hpc in IH. rewrite Hpc'. assert (dw = 0) as ->. { unfold dw, is_ready. by rewrite Hpc'. }
          unfold de. rewrite (Hacc e rv) by (by apply take_accepted).
          replace (nw tr' + 0 - nl tr' - (ne tr' + 1) + Z.of_nat (n + 1)) with (nw tr' - nl tr' - ne tr' + Z.of_nat n) by lia. done.
        + subst i. unfold kinv in IH. rewrite Hpc in IH. rewrite Hpc'. assert (dw = 1) as ->. { unfold dw, is_ready. by rewrite Hpc', Hpc. }
          unfold de. simpl in Hal. destruct IH as [IH1 IH2]. destruct (decide (n = 0%nat)) as [->|Hn].
          * destruct short; [by destruct (Hsh eq_refl)|]. symmetry in Hal. simpl in IH1. nia.
          * nia.
        + subst i. rewrite Hpc'. assert (dw = 0) as ->. { unfold dw, is_ready. by rewrite Hpc'. } unfold de. nia.
        + subst i. rewrite Hpc'. assert (dw = 0) as ->. { unfold dw, is_ready. by rewrite Hpc'. } unfold de. nia.
    Qed.
    Lemma watches_number (s0 : S) tr s : clocks_agree δ tr → reach pst (p_init s0 t0 (t0 + δ)) tr s →
      sec * (nw tr - nl tr - ne tr) <= pclock t0 tr - t0.
    Proof. intros Hag Hr. rewrite <-(clock_reach t0 tr (p_init s0 t0 (t0 + δ)) s eq_refl Hr). eapply kinv_all, kinv_reach; [exact Hag|exact Hr]. Qed.
  End count.

  (** ** Watches that deliver an event *)
  Lemma burst (s0 st1 : S) items v e rv t w : so_replace q s0 items v = (st1, true) → classify g e = KTake rv → 0 < sec → ∀ n, ∃ tr s,
    reach pst (p_init s0 t w) tr s ∧ length (list_times tr) = 1%nat ∧ length (watch_times tr) = Datatypes.S n ∧ (∀ t' w', PPass t' w' ∉ tr) ∧
    (∀ t', t' ∈ watch_times tr → t' = t) ∧ r_pc (p_refl s) = RReady ∧ r_err (p_refl s) = ENone ∧ p_listing s = false ∧ p_now s = t ∧ p_wall s = w.
  Proof.
    intros Hrep Hcl Hs. induction n as [|n (tr & s & Hr & Hl & Hw & Hnp & Hin & Hpc & He & Hli & Hnow & Hwall)].
    - eexists [PSendList t; PIn (IList items v) [CReplace items v true] true t w], _. split.
      { eapply reach_cons; [by apply (p_send_list g q sec res (p_init s0 t w))|].
        eapply reach_cons; [|apply reach_nil].
        refine (p_in g q sec res (PState refl_init s0 true t w None 0) (IList items v) (Refl RReady (Some v) (Some v) ENone) st1 [CReplace items v true] _ _); [done|]. simpl. by rewrite Hrep. }
      simpl. repeat split; try done.
      + intros t' w'. rewrite !elem_of_cons, elem_of_nil. naive_solver.
      + intros t'. rewrite !elem_of_cons, elem_of_nil. naive_solver.
    - destruct (apply_event q e (p_store s)) as [st' out] eqn:Hap.
      set (s1 := after (O:=O) sec s IWatch (Refl (RWatching 0) (r_last (p_refl s)) (r_opt (p_refl s)) ENone) (p_store s)).
      set (s2 := after sec s1 (IEvent e) (Refl (RWatching 1) (Some rv) (Some rv) ENone) st').
      set (s3 := after (O:=O) sec s2 (IClose true) (Refl RReady (Some rv) (Some rv) ENone) st').
      assert (R1 : pst s (PIn IWatch [CWatch (r_opt (p_refl s))] false t w) s1).
      { rewrite <-Hnow, <-Hwall. refine (p_in g q sec res s IWatch (Refl (RWatching 0) (r_last (p_refl s)) (r_opt (p_refl s)) ENone) (p_store s) [CWatch (r_opt (p_refl s))] I _). unfold rstep. rewrite Hpc, He. done. }
      assert (R2 : pst s1 (PIn (IEvent e) out false t w) s2).
      { rewrite <-Hnow, <-Hwall. refine (p_in g q sec res s1 (IEvent e) (Refl (RWatching 1) (Some rv) (Some rv) ENone) st' out I _). unfold rstep, s1, after. simpl. rewrite Hcl, Hap. done. }
      assert (R3 : pst s2 (PIn (IClose true) [] true t w) s3).
      { rewrite <-Hnow, <-Hwall. refine (p_in g q sec res s2 (IClose true) (Refl RReady (Some rv) (Some rv) ENone) st' [] _ _); [|done].
        unfold s2, s1, after, allowed. simpl. unfold is_ready. rewrite Hpc. symmetry. apply Z.ltb_lt. lia. }
      exists (tr ++ [PIn IWatch [CWatch (r_opt (p_refl s))] false t w; PIn (IEvent e) out false t w; PIn (IClose true) [] true t w]), s3. split.
      { eapply reach_app; [exact Hr|]. eapply reach_cons; [exact R1|]. eapply reach_cons; [exact R2|]. eapply reach_cons; [exact R3|apply reach_nil]. }
      unfold list_times, watch_times in *. rewrite !omap_app, !app_length, Hl, Hw. simpl. repeat split; try done; try lia.
      + intros t' w'. rewrite elem_of_app, !elem_of_cons, elem_of_nil. intros [H|H]; [by apply (Hnp t' w')|naive_solver].
      + intros t'. rewrite elem_of_app, !elem_of_cons, elem_of_nil. naive_solver.
      + unfold s3, s2, s1, after. simpl. rewrite Hli. done.
  Qed.
  Lemma burst_accepted (s0 st1 : S) items v e rv t w : so_replace q s0 items v = (st1, true) → accepted g e rv → 0 < sec → ∀ n, ∃ tr s,
    reach pst (p_init s0 t w) tr s ∧ length (list_times tr) = 1%nat ∧ length (watch_times tr) = Datatypes.S n ∧ ∀ t', t' ∈ watch_times tr → t' = t.
  Proof.
    intros Hrep Hcl%classify_take Hs n. destruct (burst s0 st1 items v e rv t w Hrep Hcl Hs n) as (tr & s & H1 & H2 & H3 & _ & H4 & _). by exists tr, s.
  Qed.
End pace.

Lemma step_in {O RV S} (g : rcfg O RV) (q : sops O RV S) sec res s i : allowed sec s i →
  pstep g q sec res s (PIn i (rstep g q (p_refl s, p_store s) i).2 (is_ready (rstep g q (p_refl s, p_store s) i).1.1 && negb (is_ready (p_refl s))) (p_now s) (p_wall s))
    (after sec s i (rstep g q (p_refl s, p_store s) i).1.1 (rstep g q (p_refl s, p_store s) i).1.2).
Proof. intros H. apply p_in; [done|]. by destruct (rstep g q (p_refl s, p_store s) i) as [[r st] o]. Qed.

Local Open Scope Z_scope.
(** runs computed from what happens *)
Inductive pcmd O RV := MPass (t w : Z) | MSend | MIn (i : rinput O RV).
Arguments MPass {_ _} _ _. Arguments MSend {_ _}. Arguments MIn {_ _} _.
Section run.
  Context {O RV S : Type} (g : rcfg O RV) (q : sops O RV S) (sec res : Z).
  Definition allowedb (s : pstate RV S) (i : rinput O RV) : bool :=
    match i with IListFails | IList _ _ => p_listing s | IClose short => Bool.eqb short (p_wall s - p_start s <? sec) | _ => true end.
  Definition pcmd_step (s : pstate RV S) (c : pcmd O RV) : option (plabel O RV * pstate RV S) :=
    match c with
    | MPass t w => if p_now s <=? t then Some (PPass t w, PState (p_refl s) (p_store s) (p_listing s) t w (p_wake s) (p_start s)) else None
    | MSend => if pausing s && awake res s then Some (PSendList (p_now s), PState (p_refl s) (p_store s) true (p_now s) (p_wall s) (p_wake s) (p_start s)) else None
    | MIn i => if allowedb s i then
        Some (PIn i (rstep g q (p_refl s, p_store s) i).2 (is_ready (rstep g q (p_refl s, p_store s) i).1.1 && negb (is_ready (p_refl s))) (p_now s) (p_wall s),
              after sec s i (rstep g q (p_refl s, p_store s) i).1.1 (rstep g q (p_refl s, p_store s) i).1.2) else None
    end.
  Fixpoint prun (s : pstate RV S) (cs : list (pcmd O RV)) : option (list (plabel O RV) * pstate RV S) :=
    match cs with
    | [] => Some ([], s)
    | c :: cs => match pcmd_step s c with Some (l, s1) => match prun s1 cs with Some (ls, s2) => Some (l :: ls, s2) | None => None end | None => None end
    end.
  Lemma prun_reach cs : ∀ s tr s', prun s cs = Some (tr, s') → reach (pstep g q sec res) s tr s'.
  Proof.
    induction cs as [|c cs IH]; simpl; intros s tr s' H; [simplify_eq; apply reach_nil|].
    destruct (pcmd_step s c) as [[l s1]|] eqn:Hc; [|done]. destruct (prun s1 cs) as [[ls s2]|] eqn:Hr; [|done]. simplify_eq.
    eapply reach_cons; [|by apply IH]. destruct c as [t w| |i]; unfold pcmd_step in Hc.
    - destruct (p_now s <=? t) eqn:Hle; [|done]. simplify_eq. apply p_pass. by apply Z.leb_le.
    - destruct (pausing s && awake res s) eqn:Hb; [|done]. simplify_eq. apply andb_true_iff in Hb as [??]. by apply p_send_list.
    - destruct (allowedb s i) eqn:Ha; [|done]. simplify_eq. apply step_in. destruct i; try done. by apply Bool.eqb_prop.
  Qed.
End run.

Local Close Scope Z_scope.
(** ** Concrete case (a second is 10): list fails, list again, an idle watch of a second, a watch with an event *)
Definition pcase_trace : list (plabel (nat * nat) nat) :=
  [PSendList 0; PIn IListFails [] false 0 100; PPass 10 110; PSendList 10; PIn (IList [(1, 3)] 3) [CReplace [(1, 3)] 3 true] true 10 110; PIn IWatch [CWatch (Some 3)] false 10 110;
   PPass 20 120; PIn (IClose false) [] true 20 120; PIn IWatch [CWatch (Some 3)] false 20 120;
   PIn (IEvent (Event EvAdded (2, 4))) [CAdd (2, 4) true] false 20 120; PIn (IClose true) [] true 20 120].
Definition pcase_cmds : list (pcmd (nat * nat) nat) :=
  [MSend; MIn IListFails; MPass 10 110; MSend; MIn (IList [(1, 3)%nat] 3%nat); MIn IWatch; MPass 20 120; MIn (IClose false); MIn IWatch; MIn (IEvent (Event EvAdded (2, 4)%nat)); MIn (IClose true)].
Lemma pcase_runs : ∃ s, reach (pstep ocase_cfg ocase_sops 10 1) (p_init (store_init []) 0 100) pcase_trace s ∧
  list_times pcase_trace = [0; 10]%Z ∧ watch_times pcase_trace = [10; 20; 20]%Z ∧ arrived (λ _, true) pcase_trace = [Event EvAdded (2, 4)%nat] ∧ clocks_agree 100 pcase_trace.
Proof.
  eexists. split; [|split; [done|split; [done|split; [done|]]]].
  - apply (prun_reach _ _ _ _ pcase_cmds). vm_compute. reflexivity.
  - intros t w. unfold pcase_trace. rewrite !elem_of_cons, elem_of_nil. naive_solver.
Qed.
Lemma burst_case : ∃ tr t1 t2 s, reach (pstep ocase_cfg ocase_sops 10 1) (p_init (store_init []) 0 100) tr s ∧ watch_times tr = [t1; t2] ∧ length (list_times tr) = 1%nat ∧ clocks_agree 100 tr ∧ (t2 < t1 + 10)%Z.
Proof.
  destruct (burst ocase_cfg ocase_sops 10 1 (store_init []) (store_init []) [] 1%nat (Event EvAdded (2, 4)) 4 0 100 eq_refl eq_refl eq_refl 1) as (tr & s & H1 & H2 & H3 & Hnp & H4 & _).
  destruct (watch_times tr) as [|t1 [|t2 [|]]] eqn:Ew; try done. exists tr, t1, t2, s. split; [done|]. split; [done|]. split; [done|].
  split. { intros t w Hin. by destruct (Hnp t w). } rewrite (H4 t1), (H4 t2); [lia|right; left|left].
Qed.
