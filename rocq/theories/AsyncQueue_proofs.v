(** Proofs about asyncio queues. *)
From Verif Require Import Base AsyncQueue_model AsyncQueue_spec.

Section queue.
  Context {A : Type} (max : nat).
  Notation aqueue := (aqueue A).
  Notation task := (task A).
  Notation qop := (qop A).
  Notation qstep := (qstep (A := A) max).
  Implicit Types (s : aqueue) (ts : list task) (k : task) (o : qop).

  Notation wait_get := (T (A:=A) OGet (SWait FPending)).
  Notation wait_join := (T (A:=A) OJoin (SWait FPending)).
  Notation wait_put a := (T (A:=A) (OPut a) (SWait FPending)).

  Lemma set_st_eq t x ts k : ts !! t = Some k → set_st t x ts = <[t := T (t_op k) x]> ts.
  Proof.
    intros H. unfold set_st. apply list_eq. intros i. destruct (decide (i = t)) as [->|Hn].
    - rewrite list_lookup_alter, H, list_lookup_insert; [done|]. by eapply lookup_lt_Some.
    - by rewrite list_lookup_alter_ne, list_lookup_insert_ne.
  Qed.
  Lemma look_insert ts t k k' i j : ts !! t = Some k → <[t := k']> ts !! i = Some j → i = t ∧ j = k' ∨ i ≠ t ∧ ts !! i = Some j.
  Proof.
    intros H1 H2. destruct (decide (i = t)) as [->|Hn].
    - rewrite list_lookup_insert in H2 by (by eapply lookup_lt_Some). left. by simplify_eq.
    - rewrite list_lookup_insert_ne in H2 by done. by right.
  Qed.
  Lemma look_same ts t k k' : ts !! t = Some k → <[t := k']> ts !! t = Some k'.
  Proof. intros. apply list_lookup_insert. by eapply lookup_lt_Some. Qed.

  (** counting *)
  Definition b2n (b : bool) : nat := if b then 1 else 0.
  Fixpoint cnt (p : task → bool) ts : nat := match ts with [] => 0 | k :: ts => b2n (p k) + cnt p ts end.
  Lemma cnt_insert p ts t k k' : ts !! t = Some k → cnt p (<[t := k']> ts) + b2n (p k) = cnt p ts + b2n (p k').
  Proof. revert t. induction ts as [|x ts IH]; intros [|t] H; simpl in *; [done|done|simplify_eq; lia|]. specialize (IH t H). lia. Qed.
  Lemma cnt_app p ts ts' : cnt p (ts ++ ts') = cnt p ts + cnt p ts'.
  Proof. induction ts as [|x ts IH]; simpl; lia. Qed.
  Lemma cnt_pos p ts : cnt p ts ≠ 0 → ∃ t k, ts !! t = Some k ∧ p k = true.
  Proof. induction ts as [|x ts IH]; simpl; [done|]. destruct (p x) eqn:E; [intros _; by exists 0, x|]. simpl. intros (t&k&?&?)%IH. by exists (S t), k. Qed.
  Lemma cnt_le p ts : cnt p ts ≤ length ts.
  Proof. induction ts as [|x ts IH]; simpl; [lia|]. destruct (p x); simpl; lia. Qed.
  Definition woken_get k : bool := match k with T OGet (SWait (FWoken _)) => true | _ => false end.
  Definition woken_put k : bool := match k with T (OPut _) (SWait (FWoken _)) => true | _ => false end.

  (** the lists of waiters *)
  Record WL (gs ps : list nat) ts : Prop := {
    w_gd : NoDup gs;
    w_pd : NoDup ps;
    w_g : ∀ t, t ∈ gs → ts !! t = Some wait_get ∨ ts !! t = Some (T OGet (SWait FCancelled));
    w_p : ∀ t, t ∈ ps → ∃ a, ts !! t = Some (wait_put a) ∨ ts !! t = Some (T (OPut a) (SWait FCancelled));
    w_pg : ∀ t, ts !! t = Some wait_get → t ∈ gs;
    w_pp : ∀ t a, ts !! t = Some (wait_put a) → t ∈ ps
  }.
  Definition listed (x : qstate) : bool := match x with SWait FPending | SWait FCancelled => true | _ => false end.
  Lemma wl_set gs ps ts t k x : WL gs ps ts → ts !! t = Some k → listed (t_st k) = false → listed x = false → WL gs ps (<[t := T (t_op k) x]> ts).
  Proof.
    intros [H1 H2 H3 H4 H5 H6] Hk Hl Hx. split; try done.
    - intros i Hi. destruct (decide (i = t)) as [->|Hn]; [|rewrite list_lookup_insert_ne by done; auto]. destruct (H3 t Hi); simplify_eq.
    - intros i Hi. destruct (decide (i = t)) as [->|Hn]; [|rewrite list_lookup_insert_ne by done; auto]. destruct (H4 t Hi) as (a&[|]); simplify_eq.
    - intros i Hi. destruct (look_insert _ _ _ _ _ _ Hk Hi) as [[_ E]|[Hn Ho]]; [|auto]. by simplify_eq.
    - intros i a Hi. destruct (look_insert _ _ _ _ _ _ Hk Hi) as [[_ E]|[Hn Ho]]; [|eauto]. by simplify_eq.
  Qed.
  Lemma wl_cancel gs ps ts t o : WL gs ps ts → ts !! t = Some (T o (SWait FPending)) → WL gs ps (<[t := T o (SWait FCancelled)]> ts).
  Proof.
    intros [H1 H2 H3 H4 H5 H6] Hk. split; try done.
    - intros i Hi. destruct (decide (i = t)) as [->|Hn]; [|rewrite list_lookup_insert_ne by done; auto]. rewrite (look_same _ _ _ _ Hk). right. destruct (H3 t Hi); by simplify_eq.
    - intros i Hi. destruct (decide (i = t)) as [->|Hn]; [|rewrite list_lookup_insert_ne by done; auto]. rewrite (look_same _ _ _ _ Hk). destruct (H4 t Hi) as (a&[|]); simplify_eq. exists a. by right.
    - intros i Hi. destruct (look_insert _ _ _ _ _ _ Hk Hi) as [[_ E]|[Hn Ho]]; [|auto]. by simplify_eq.
    - intros i a Hi. destruct (look_insert _ _ _ _ _ _ Hk Hi) as [[_ E]|[Hn Ho]]; [|eauto]. by simplify_eq.
  Qed.
  Lemma wl_wait_get gs ps ts t x : WL gs ps ts → ts !! t = Some (T OGet x) → listed x = false → WL (gs ++ [t]) ps (<[t := wait_get]> ts).
  Proof.
    intros [H1 H2 H3 H4 H5 H6] Hk Hl. assert (t ∉ gs) as Hg by (intros Hi; destruct (H3 t Hi); simplify_eq). split; try done.
    - apply NoDup_app. split_and!; [done| |apply NoDup_singleton]. intros i Hi ->%elem_of_list_singleton. done.
    - intros i [Hi| ->%elem_of_list_singleton]%elem_of_app; [|left; by eapply look_same]. rewrite list_lookup_insert_ne by congruence. auto.
    - intros i Hi. destruct (decide (i = t)) as [->|Hn]; [|rewrite list_lookup_insert_ne by done; auto]. destruct (H4 t Hi) as (a&[|]); simplify_eq.
    - intros i Hi. apply elem_of_app. destruct (look_insert _ _ _ _ _ _ Hk Hi) as [[-> _]|[Hn Ho]]; [right; by apply elem_of_list_singleton|auto].
    - intros i a Hi. destruct (look_insert _ _ _ _ _ _ Hk Hi) as [[_ E]|[Hn Ho]]; [|eauto]. by simplify_eq.
  Qed.
  Lemma wl_wait_put gs ps ts t a x : WL gs ps ts → ts !! t = Some (T (OPut a) x) → listed x = false → WL gs (ps ++ [t]) (<[t := wait_put a]> ts).
  Proof.
    intros [H1 H2 H3 H4 H5 H6] Hk Hl. assert (t ∉ ps) as Hg by (intros Hi; destruct (H4 t Hi) as (?&[|]); simplify_eq). split; try done.
    - apply NoDup_app. split_and!; [done| |apply NoDup_singleton]. intros i Hi ->%elem_of_list_singleton. done.
    - intros i Hi. destruct (decide (i = t)) as [->|Hn]; [|rewrite list_lookup_insert_ne by done; auto]. destruct (H3 t Hi) as [|]; simplify_eq.
    - intros i [Hi| ->%elem_of_list_singleton]%elem_of_app; [|exists a; left; by eapply look_same]. rewrite list_lookup_insert_ne by congruence. auto.
    - intros i Hi. destruct (look_insert _ _ _ _ _ _ Hk Hi) as [[_ E]|[Hn Ho]]; [|eauto]. by simplify_eq.
    - intros i b Hi. apply elem_of_app. destruct (look_insert _ _ _ _ _ _ Hk Hi) as [[-> _]|[Hn Ho]]; [right; by apply elem_of_list_singleton|eauto].
  Qed.
  Lemma remove_in i t ws : i ∈ remove t ws ↔ i ∈ ws ∧ i ≠ t.
  Proof. unfold remove. rewrite elem_of_list_filter. tauto. Qed.
  Lemma remove_nodup t ws : NoDup ws → NoDup (remove t ws).
  Proof. apply NoDup_filter. Qed.
  Lemma wl_remove gs ps ts t k : WL gs ps ts → ts !! t = Some k →
    WL (match t_op k with OGet => remove t gs | _ => gs end) (match t_op k with OPut _ => remove t ps | _ => ps end) (<[t := T (t_op k) SCancelled]> ts).
  Proof.
    intros [H1 H2 H3 H4 H5 H6] Hk. split.
    - destruct (t_op k); [by apply remove_nodup|done|done].
    - destruct (t_op k); [done|by apply remove_nodup|done].
    - intros i Hi. assert (i ∈ gs ∧ i ≠ t) as [Hi' Hn].
      { destruct k as [[|a|] x]; simpl in Hi; [by apply remove_in in Hi|..]; (split; [done|]; intros ->; destruct (H3 t Hi); simplify_eq). }
      rewrite list_lookup_insert_ne by done. auto.
    - intros i Hi. assert (i ∈ ps ∧ i ≠ t) as [Hi' Hn].
      { destruct k as [[|a|] x]; simpl in Hi; [|by apply remove_in in Hi|]; (split; [done|]; intros ->; destruct (H4 t Hi) as (?&[|]); simplify_eq). }
      rewrite list_lookup_insert_ne by done. auto.
    - intros i Hi. destruct (look_insert _ _ _ _ _ _ Hk Hi) as [[_ E]|[Hn Ho]]; [by simplify_eq|]. apply H5 in Ho. destruct (t_op k); [by apply remove_in|done|done].
    - intros i a Hi. destruct (look_insert _ _ _ _ _ _ Hk Hi) as [[_ E]|[Hn Ho]]; [by simplify_eq|]. apply H6 in Ho. destruct (t_op k); [done|by apply remove_in|done].
  Qed.
  Lemma wl_new gs ps ts o : WL gs ps ts → WL gs ps (ts ++ [T o (SNew false)]).
  Proof.
    intros [H1 H2 H3 H4 H5 H6]. split; try done.
    - intros i Hi. destruct (H3 i Hi) as [H|H]; [left|right]; by apply lookup_app_l_Some.
    - intros i Hi. destruct (H4 i Hi) as (a&[H|H]); exists a; [left|right]; by apply lookup_app_l_Some.
    - intros i [Hi|[_ Hi%list_lookup_singleton_Some]]%lookup_app_Some; [auto|]. by destruct Hi.
    - intros i a [Hi|[_ Hi%list_lookup_singleton_Some]]%lookup_app_Some; [eauto|]. by destruct Hi.
  Qed.
  Lemma joins_other ts i k : t_op k ≠ OJoin → wake_joins ts !! i = Some k ↔ ts !! i = Some k.
  Proof.
    intros Ho. unfold wake_joins. rewrite list_lookup_fmap. split.
    - destruct (ts !! i) as [[[|a|] x]|]; simpl; try done. intros [= <-]. by destruct x as [|[]| |].
    - intros ->. by destruct k as [[|a|] x].
  Qed.
  Lemma wl_joins gs ps ts : WL gs ps ts → WL gs ps (wake_joins ts).
  Proof.
    intros [H1 H2 H3 H4 H5 H6]. split; try done.
    - intros i Hi. rewrite !joins_other by done. auto.
    - intros i Hi. destruct (H4 i Hi) as (a&Ha). exists a. rewrite !joins_other by done. done.
    - intros i. rewrite joins_other by done. auto.
    - intros i a. rewrite joins_other by done. eauto.
  Qed.

  (** waking *)
  Lemma wake_cases ws ts : (wake ws ts = ([], ts) ∧ ∀ t o, t ∈ ws → ts !! t ≠ Some (T o (SWait FPending))) ∨
    ∃ l t (r : list nat) o, ws = l ++ t :: r ∧ (∀ i o, i ∈ l → ts !! i ≠ Some (T o (SWait FPending))) ∧ ts !! t = Some (T o (SWait FPending)) ∧ wake ws ts = (r, <[t := T o (SWait (FWoken false))]> ts).
  Proof.
    induction ws as [|t ws IH]; simpl; [left; split; [done|]; intros t o H; by apply elem_of_nil in H|].
    destruct (ts !! t) as [[o x]|] eqn:Et; simpl.
    - assert (x = SWait FPending ∨ x ≠ SWait FPending) as [->|Hx] by (destruct x as [|[]| |]; (by left) || by right).
      + right. exists [], t, ws, o. split_and!; try done; [intros i o' H; by apply elem_of_nil in H|]. by rewrite (set_st_eq _ _ _ _ Et).
      + assert (match x with SWait FPending => (ws, set_st t (SWait (FWoken false)) ts) | _ => wake ws ts end = wake ws ts) as -> by (by destruct x as [|[]| |]).
        destruct IH as [[E H]|(l&t'&k&o'&->&H1&H2&E)]; [left|right].
        * split; [done|]. intros i o' [->|Hi]%elem_of_cons; [|by apply H]. rewrite Et. congruence.
        * exists (t :: l), t', k, o'. split_and!; try done. intros i o2 [->|Hi]%elem_of_cons; [|by apply H1]. rewrite Et. congruence.
    - destruct IH as [[E H]|(l&t'&k&o'&->&H1&H2&E)]; [left|right].
      * split; [done|]. intros i o' [->|Hi]%elem_of_cons; [|by apply H]. by rewrite Et.
      * exists (t :: l), t', k, o'. split_and!; try done. intros i o2 [->|Hi]%elem_of_cons; [|by apply H1]. by rewrite Et.
  Qed.
  Lemma wake_get gs ps ts gs' ts' : WL gs ps ts → wake gs ts = (gs', ts') → WL gs' ps ts' ∧
    (ts' = ts ∧ (∀ t, ts !! t ≠ Some wait_get) ∨ ∃ t, ts !! t = Some wait_get ∧ ts' = <[t := T OGet (SWait (FWoken false))]> ts).
  Proof.
    intros Hw E. pose proof Hw as [H1 H2 H3 H4 H5 H6]. destruct (wake_cases gs ts) as [[E' H]|(l&t&k&o&->&Hl&Ht&E')]; rewrite E in E'; simplify_eq.
    - split; [|left; split; [done|]; intros t Ht; eapply H; [by apply H5|done]]. split; try done; [apply NoDup_nil_2|intros t Ht; by apply elem_of_nil in Ht|].
      intros t Ht. exfalso. eapply H; [by apply H5|done].
    - assert (o = OGet) as -> by (destruct (H3 t ltac:(set_solver)); by simplify_eq). split; [|right; by eexists].
      apply NoDup_app in H1 as (N1&N2&N3). apply NoDup_cons in N3 as [N3 N4]. split; try done.
      + intros i Hi. rewrite list_lookup_insert_ne by (intros ->; done). apply H3. set_solver.
      + intros i Hi. rewrite list_lookup_insert_ne; [auto|]. intros ->. destruct (H4 i Hi) as (?&[|]); simplify_eq.
      + intros i Hi. destruct (look_insert _ _ _ _ _ _ Ht Hi) as [[_ E2]|[Hn Ho]]; [done|]. pose proof (H5 i Ho) as [?|[?|?]%elem_of_cons]%elem_of_app; [by edestruct Hl|done|done].
      + intros i a Hi. destruct (look_insert _ _ _ _ _ _ Ht Hi) as [[_ E2]|[Hn Ho]]; [done|]. eauto.
  Qed.
  Lemma wake_put gs ps ts ps' ts' : WL gs ps ts → wake ps ts = (ps', ts') → WL gs ps' ts' ∧
    (ts' = ts ∧ (∀ t a, ts !! t ≠ Some (wait_put a)) ∨ ∃ t a, ts !! t = Some (wait_put a) ∧ ts' = <[t := T (OPut a) (SWait (FWoken false))]> ts).
  Proof.
    intros Hw E. pose proof Hw as [H1 H2 H3 H4 H5 H6]. destruct (wake_cases ps ts) as [[E' H]|(l&t&k&o&->&Hl&Ht&E')]; rewrite E in E'; simplify_eq.
    - split; [|left; split; [done|]; intros t a Ht; eapply H; [by eapply H6|done]]. split; try done; [apply NoDup_nil_2|intros t Ht; by apply elem_of_nil in Ht|].
      intros t a Ht. exfalso. eapply H; [by eapply H6|done].
    - assert (∃ a, o = OPut a) as [a ->] by (destruct (H4 t ltac:(set_solver)) as (?&[|]); simplify_eq; by eexists). split; [|right; by eexists _, _].
      apply NoDup_app in H2 as (N1&N2&N3). apply NoDup_cons in N3 as [N3 N4]. split; try done.
      + intros i Hi. rewrite list_lookup_insert_ne; [auto|]. intros ->. destruct (H3 i Hi) as [|]; simplify_eq.
      + intros i Hi. rewrite list_lookup_insert_ne by (intros ->; done). apply H4. set_solver.
      + intros i Hi. destruct (look_insert _ _ _ _ _ _ Ht Hi) as [[_ E2]|[Hn Ho]]; [done|]. eauto.
      + intros i b Hi. destruct (look_insert _ _ _ _ _ _ Ht Hi) as [[_ E2]|[Hn Ho]]; [done|]. pose proof (H6 i b Ho) as [?|[?|?]%elem_of_cons]%elem_of_app; [by edestruct Hl|done|done].
  Qed.

  (** wakeups *)
  Record WK (n u : nat) ts : Prop := {
    k_get : ∀ t, ts !! t = Some wait_get → n ≤ cnt woken_get ts;
    k_put : ∀ t a, ts !! t = Some (wait_put a) → 0 < max ∧ max - n ≤ cnt woken_put ts;
    k_join : ∀ t, ts !! t = Some wait_join → u ≠ 0
  }.
  (** what was put and taken *)
  Record LG ts (i u : list (nat * A)) : Prop := {
    g_in : ∀ t a, (t, a) ∈ i ↔ ts !! t = Some (T (OPut a) SDone);
    g_out : ∀ t, t ∈ u.*1 ↔ ts !! t = Some (T OGet SDone);
    g_ind : NoDup i.*1;
    g_outd : NoDup u.*1
  }.
  Record inv s : Prop := {
    v_wl : WL (q_getters s) (q_putters s) (q_tasks s);
    v_wk : WK (length (q_items s)) (q_unfinished s) (q_tasks s);
    v_lg : LG (q_tasks s) (q_in s) (q_out s);
    v_items : (q_in s).*2 = (q_out s).*2 ++ q_items s;
    v_unf : q_unfinished s + q_done s = length (q_in s);
    v_done : q_done s ≤ length (q_out s);
    v_max : 0 < max → length (q_items s) ≤ max
  }.

  Lemma lg_same ts ts' (i u : list (nat * A)) : LG ts i u → (∀ t o, ts' !! t = Some (T o SDone) ↔ ts !! t = Some (T o SDone)) → LG ts' i u.
  Proof. intros [H1 H2 H3 H4] H. split; try done; [intros t a; by rewrite H|intros t; by rewrite H]. Qed.
  Lemma done_set ts t k k' : ts !! t = Some k → t_st k ≠ SDone → t_st k' ≠ SDone → ∀ i o, <[t := k']> ts !! i = Some (T o SDone) ↔ ts !! i = Some (T o SDone).
  Proof.
    intros Hk H1 H2 i o. destruct (decide (i = t)) as [->|Hn]; [|by rewrite list_lookup_insert_ne]. rewrite (look_same _ _ _ _ Hk), Hk. split; intros; simplify_eq; done.
  Qed.
  Lemma done_joins ts i o : wake_joins ts !! i = Some (T o SDone) ↔ ts !! i = Some (T o SDone).
  Proof.
    unfold wake_joins. rewrite list_lookup_fmap. split.
    - destruct (ts !! i) as [[[|a|] x]|]; simpl; try done. destruct x as [|[]| |]; done.
    - intros ->. by destruct o.
  Qed.
  Lemma cnt_joins p ts : (∀ x, p (T OJoin x) = false) → cnt p (wake_joins ts) = cnt p ts.
  Proof. intros Hp. induction ts as [|[[|a|] x] ts IH]; simpl; [done|by rewrite IH|by rewrite IH|]. rewrite <-IH. destruct x as [|[]| |]; by rewrite !Hp. Qed.
  Lemma joins_none ts i : wake_joins ts !! i ≠ Some wait_join.
  Proof. unfold wake_joins. rewrite list_lookup_fmap. destruct (ts !! i) as [[[|a|] x]|]; simpl; try done. destruct x as [|[]| |]; done. Qed.
  Lemma joins_get ts i k : wake_joins ts !! i = Some k → t_op k ≠ OJoin → ts !! i = Some k.
  Proof. intros H Hk. by apply joins_other. Qed.

  Ltac cnt_at H := pose proof (cnt_insert woken_get _ _ _ _ H); pose proof (cnt_insert woken_put _ _ _ _ H).

  Definition starts k : Prop := t_st k = SNew false ∨ t_st k = SWait (FWoken false).
  Lemma starts_nl k : starts k → listed (t_st k) = false ∧ t_st k ≠ SDone.
  Proof. destruct k as [o x]. intros [Hx|Hx]; simpl in Hx; subst x; done. Qed.

  Lemma get_inv s t k : inv s → q_tasks s !! t = Some k → t_op k = OGet → starts k → inv (get t s).
  Proof.
    intros [HW HK HL Hi Hu Hu' Hm] Hk Ho Hs. destruct (starts_nl k Hs) as [Hnl Hnd]. destruct k as [o x]. simpl in *. subst o. unfold get. destruct (q_items s) as [|a items] eqn:Ei.
    - rewrite (set_st_eq _ _ _ _ Hk). simpl. split; simpl; try done.
      + by eapply wl_wait_get.
      + destruct HK as [K1 K2 K3]. pose proof (cnt_insert woken_put _ _ _ wait_get Hk) as Hc. simpl in Hc. split.
        * intros. lia.
        * intros i a Hi'. destruct (look_insert _ _ _ _ _ _ Hk Hi') as [[_ E]|[Hn Hold]]; [done|]. destruct (K2 _ _ Hold). simpl in *. lia.
        * intros i Hi'. destruct (look_insert _ _ _ _ _ _ Hk Hi') as [[_ E]|[Hn Hold]]; [done|]. by apply K3 in Hold.
      + eapply lg_same; [done|]. by eapply done_set.
    - destruct (wake (q_putters s) (q_tasks s)) as [ps ts] eqn:Ew. destruct (wake_put _ _ _ _ _ HW Ew) as [HW1 Hc].
      assert (ts !! t = Some (T OGet x)) as Hk1. { destruct Hc as [[-> _]|(t1&a1&Ht1&->)]; [done|]. rewrite list_lookup_insert_ne; [done|]. intros ->. by simplify_eq. }
      rewrite (set_st_eq _ _ _ _ Hk1). simpl.
      assert (∀ i o, ts !! i = Some (T o SDone) ↔ q_tasks s !! i = Some (T o SDone)) as Hdone.
      { intros i o. destruct Hc as [[-> _]|(t1&a1&Ht1&->)]; [done|]. by eapply done_set. }
      split; simpl.
      + by eapply (wl_set _ _ _ _ (T OGet x)).
      + destruct HK as [K1 K2 K3]. pose proof (cnt_insert woken_get _ _ _ (T OGet SDone) Hk1) as Cg. pose proof (cnt_insert woken_put _ _ _ (T OGet SDone) Hk1) as Cp. change (b2n (woken_get (T OGet SDone))) with 0 in Cg. simpl in Cp.
        assert (b2n (woken_get (T OGet x)) ≤ 1) as Hb by (by destruct (woken_get _); simpl; lia). split.
        * intros i Hi'. destruct (look_insert _ _ _ _ _ _ Hk1 Hi') as [[_ E]|[Hn Hold]]; [done|].
          assert (cnt woken_get ts = cnt woken_get (q_tasks s)) as Ec. { destruct Hc as [[-> _]|(t1&a1&Ht1&->)]; [done|]. pose proof (cnt_insert woken_get _ _ _ (T (OPut a1) (SWait (FWoken false))) Ht1). simpl in *. lia. }
          assert (q_tasks s !! i = Some wait_get) as Hold2. { destruct Hc as [[-> _]|(t1&a1&Ht1&->)]; [done|]. by destruct (look_insert _ _ _ _ _ _ Ht1 Hold) as [[_ E]|[_ ?]]. }
          apply K1 in Hold2. simpl in Hold2. lia.
        * intros i b Hi'. destruct (look_insert _ _ _ _ _ _ Hk1 Hi') as [[_ E]|[Hn Hold]]; [done|].
          destruct Hc as [[-> Hno]|(t1&a1&Ht1&->)]; [by apply Hno in Hold|]. destruct (look_insert _ _ _ _ _ _ Ht1 Hold) as [[_ E]|[_ Hold2]]; [done|].
          pose proof (cnt_insert woken_put _ _ _ (T (OPut a1) (SWait (FWoken false))) Ht1) as C1. simpl in C1. destruct (K2 _ _ Hold2) as [? K]. simpl in K. split; [done|]. lia.
        * intros i Hi'. destruct (look_insert _ _ _ _ _ _ Hk1 Hi') as [[_ E]|[Hn Hold]]; [done|].
          assert (q_tasks s !! i = Some wait_join) as Hold2. { destruct Hc as [[-> _]|(t1&a1&Ht1&->)]; [done|]. by destruct (look_insert _ _ _ _ _ _ Ht1 Hold) as [[_ E]|[_ ?]]. }
          by apply K3 in Hold2.
      + destruct HL as [L1 L2 L3 L4]. split.
        * intros i b. rewrite L1, <-Hdone. destruct (decide (i = t)) as [->|Hn]; [|by rewrite list_lookup_insert_ne]. rewrite Hk1, (look_same _ _ _ _ Hk1). split; intros; simplify_eq; done.
        * intros i. rewrite fmap_app, elem_of_app, L2. simpl. rewrite elem_of_list_singleton, <-Hdone. destruct (decide (i = t)) as [->|Hn].
          -- rewrite (look_same _ _ _ _ Hk1). split; [done|by right].
          -- rewrite list_lookup_insert_ne by done. split; [by intros [?|?]|by left].
        * done.
        * rewrite fmap_app. apply NoDup_app. split_and!; [done| |apply NoDup_singleton]. intros i Hi' ->%elem_of_list_singleton. apply L2 in Hi'. simpl in Hi'. rewrite Hk in Hi'. congruence.
      + rewrite fmap_app, <-app_assoc. simpl. done.
      + done.
      + rewrite app_length. simpl. lia.
      + intros Hp. specialize (Hm Hp). simpl in Hm. lia.
  Qed.

  Lemma full_true (items : list A) : full max items = true ↔ 0 < max ∧ max ≤ length items.
  Proof. unfold full. rewrite andb_true_iff, Nat.ltb_lt, Nat.leb_le. done. Qed.
  Lemma full_false (items : list A) : full max items = false ↔ max = 0 ∨ length items < max.
  Proof. unfold full. rewrite andb_false_iff, Nat.ltb_ge, Nat.leb_gt. lia. Qed.
  Lemma put_inv s t a k : inv s → q_tasks s !! t = Some k → t_op k = OPut a → starts k → inv (put max t a s).
  Proof.
    intros [HW HK HL Hi Hu Hu' Hm] Hk Ho Hs. destruct (starts_nl k Hs) as [Hnl Hnd]. destruct k as [o x]. simpl in *. subst o. unfold put. destruct (full max (q_items s)) eqn:Ef.
    - apply full_true in Ef as [F1 F2]. rewrite (set_st_eq _ _ _ _ Hk). simpl. split; simpl; try done.
      + by eapply wl_wait_put.
      + destruct HK as [K1 K2 K3]. pose proof (cnt_insert woken_get _ _ _ (wait_put a) Hk) as Hc. simpl in Hc. split.
        * intros i Hi'. destruct (look_insert _ _ _ _ _ _ Hk Hi') as [[_ E]|[Hn Hold]]; [done|]. apply K1 in Hold. lia.
        * intros. lia.
        * intros i Hi'. destruct (look_insert _ _ _ _ _ _ Hk Hi') as [[_ E]|[Hn Hold]]; [done|]. by apply K3 in Hold.
      + eapply lg_same; [done|]. by eapply done_set.
    - apply full_false in Ef. destruct (wake (q_getters s) (q_tasks s)) as [gs ts] eqn:Ew. destruct (wake_get _ _ _ _ _ HW Ew) as [HW1 Hc].
      assert (ts !! t = Some (T (OPut a) x)) as Hk1. { destruct Hc as [[-> _]|(t1&Ht1&->)]; [done|]. rewrite list_lookup_insert_ne; [done|]. intros ->. by simplify_eq. }
      rewrite (set_st_eq _ _ _ _ Hk1). simpl.
      assert (∀ i o, ts !! i = Some (T o SDone) ↔ q_tasks s !! i = Some (T o SDone)) as Hdone.
      { intros i o. destruct Hc as [[-> _]|(t1&Ht1&->)]; [done|]. by eapply done_set. }
      split; simpl.
      + by eapply (wl_set _ _ _ _ (T (OPut a) x)).
      + destruct HK as [K1 K2 K3]. pose proof (cnt_insert woken_get _ _ _ (T (OPut a) SDone) Hk1) as Cg. pose proof (cnt_insert woken_put _ _ _ (T (OPut a) SDone) Hk1) as Cp. change (b2n (woken_put (T (OPut a) SDone))) with 0 in Cp. simpl in Cg.
        assert (b2n (woken_put (T (OPut a) x)) ≤ 1) as Hb by (by destruct (woken_put _); simpl; lia). split.
        * intros i Hi'. destruct (look_insert _ _ _ _ _ _ Hk1 Hi') as [[_ E]|[Hn Hold]]; [done|].
          destruct Hc as [[-> Hno]|(t1&Ht1&->)]; [by apply Hno in Hold|]. destruct (look_insert _ _ _ _ _ _ Ht1 Hold) as [[_ E]|[_ Hold2]]; [done|].
          pose proof (cnt_insert woken_get _ _ _ (T OGet (SWait (FWoken false))) Ht1) as C1. simpl in C1. apply K1 in Hold2. rewrite app_length. simpl. lia.
        * intros i b Hi'. destruct (look_insert _ _ _ _ _ _ Hk1 Hi') as [[_ E]|[Hn Hold]]; [done|].
          assert (cnt woken_put ts = cnt woken_put (q_tasks s)) as Ec. { destruct Hc as [[-> _]|(t1&Ht1&->)]; [done|]. pose proof (cnt_insert woken_put _ _ _ (T OGet (SWait (FWoken false))) Ht1). simpl in *. lia. }
          assert (q_tasks s !! i = Some (wait_put b)) as Hold2. { destruct Hc as [[-> _]|(t1&Ht1&->)]; [done|]. by destruct (look_insert _ _ _ _ _ _ Ht1 Hold) as [[_ E]|[_ ?]]. }
          destruct (K2 _ _ Hold2). split; [done|]. rewrite app_length. simpl. lia.
        * done.
      + destruct HL as [L1 L2 L3 L4]. split.
        * intros i b. rewrite elem_of_app, elem_of_list_singleton, L1, <-Hdone. destruct (decide (i = t)) as [->|Hn].
          -- rewrite (look_same _ _ _ _ Hk1). split; [intros [E|E]; [rewrite Hk1 in E; congruence|by simplify_eq]|intros; simplify_eq; by right].
          -- rewrite list_lookup_insert_ne by done. split; [intros [?|?]; [done|congruence]|by left].
        * intros i. rewrite L2, <-Hdone. destruct (decide (i = t)) as [->|Hn]; [|by rewrite list_lookup_insert_ne]. rewrite Hk1, (look_same _ _ _ _ Hk1). split; intros; simplify_eq; done.
        * rewrite fmap_app. apply NoDup_app. split_and!; [done| |apply NoDup_singleton]. intros i Hi' Hs'%elem_of_list_singleton. simpl in Hs'. subst i. apply elem_of_list_fmap in Hi' as ([t' b]&Et&Hin). simpl in Et. subst t'. apply L1 in Hin. rewrite Hk in Hin. congruence.
        * done.
      + rewrite fmap_app, Hi, app_assoc. done.
      + rewrite app_length. simpl. lia.
      + done.
      + intros Hp. rewrite app_length. simpl. lia.
  Qed.

  (** a change of one task that puts and takes nothing *)
  Lemma plain_inv s t k x : inv s → q_tasks s !! t = Some k → listed (t_st k) = false → listed x = false → t_st k ≠ SDone → (x = SDone → t_op k = OJoin) →
    woken_get (T (t_op k) x) = woken_get k → woken_put (T (t_op k) x) = woken_put k → inv (with_tasks s (<[t := T (t_op k) x]> (q_tasks s))).
  Proof.
    intros [HW HK HL Hi Hu Hu' Hm] Hk Hl Hx Hnd Hd Eg Ep. split; simpl; try done.
    - by eapply wl_set.
    - pose proof (cnt_insert woken_get _ _ _ (T (t_op k) x) Hk) as Cg. pose proof (cnt_insert woken_put _ _ _ (T (t_op k) x) Hk) as Cp. rewrite Eg in Cg. rewrite Ep in Cp. destruct HK as [K1 K2 K3]. split.
      + intros i Hi'. destruct (look_insert _ _ _ _ _ _ Hk Hi') as [[_ E]|[Hn Hold]]; [by simplify_eq|]. apply K1 in Hold. lia.
      + intros i b Hi'. destruct (look_insert _ _ _ _ _ _ Hk Hi') as [[_ E]|[Hn Hold]]; [by simplify_eq|]. destruct (K2 _ _ Hold). lia.
      + intros i Hi'. destruct (look_insert _ _ _ _ _ _ Hk Hi') as [[_ E]|[Hn Hold]]; [by simplify_eq|]. by apply K3 in Hold.
    - destruct HL as [L1 L2 L3 L4]. split; try done.
      + intros i b. rewrite L1. destruct (decide (i = t)) as [->|Hn]; [|by rewrite list_lookup_insert_ne]. rewrite Hk, (look_same _ _ _ _ Hk). split; intros E; [apply (inj Some) in E; by subst k|]. injection E as E1 E2. specialize (Hd E2). congruence.
      + intros i. rewrite L2. destruct (decide (i = t)) as [->|Hn]; [|by rewrite list_lookup_insert_ne]. rewrite Hk, (look_same _ _ _ _ Hk). split; intros E; [apply (inj Some) in E; by subst k|]. injection E as E1 E2. specialize (Hd E2). congruence.
  Qed.

  Lemma give_up_inv s t k b : inv s → q_tasks s !! t = Some k → t_st k = SWait (FWoken true) ∧ b = true ∨ t_st k = SWait FCancelled ∧ b = false → inv (give_up max t (t_op k) b s).
  Proof.
    intros [HW HK HL Hi Hu Hu' Hm] Hk Hs. unfold give_up. rewrite (set_st_eq _ _ _ _ Hk). pose proof (wl_remove _ _ _ _ _ HW Hk) as HW1.
    set (gs := match t_op k with OGet => remove t (q_getters s) | _ => q_getters s end) in *. set (ps := match t_op k with OPut _ => remove t (q_putters s) | _ => q_putters s end) in *.
    set (ts := <[t := T (t_op k) SCancelled]> (q_tasks s)) in *.
    assert (t_st k ≠ SDone) as Hnd by (destruct Hs as [[-> _]|[-> _]]; done).
    assert (∀ i o, ts !! i = Some (T o SDone) ↔ q_tasks s !! i = Some (T o SDone)) as Hdone by (by eapply done_set).
    pose proof (lg_same _ _ _ _ HL Hdone) as HL1.
    pose proof (cnt_insert woken_get _ _ _ (T (t_op k) SCancelled) Hk) as Cg. pose proof (cnt_insert woken_put _ _ _ (T (t_op k) SCancelled) Hk) as Cp. fold ts in Cg, Cp.
    assert (∀ i o, ts !! i = Some (T o (SWait FPending)) → q_tasks s !! i = Some (T o (SWait FPending))) as Hpend.
    { intros i o Hi'. destruct (look_insert _ _ _ _ _ _ Hk Hi') as [[_ E]|[Hn Hold]]; [done|done]. }
    assert (∀ gs' ps' ts', WL gs' ps' ts' → WK (length (q_items s)) (q_unfinished s) ts' → LG ts' (q_in s) (q_out s) → inv (AQ (q_items s) (q_unfinished s) gs' ps' ts' (q_in s) (q_out s) (q_done s))) as Hfin by (intros; by split).
    destruct HK as [K1 K2 K3]. destruct k as [[|a|] x]; simpl in *.
    - destruct (b && negb (bool_decide (q_items s = []))) eqn:Eb.
      + apply andb_prop in Eb as [-> Hne]. destruct Hs as [[-> _]|[_ ?]]; [|done]. simpl in *. destruct (wake gs ts) as [gs' ts'] eqn:Ew. destruct (wake_get _ _ _ _ _ HW1 Ew) as [HW2 Hc]. apply Hfin; [done| |].
        * destruct Hc as [[-> Hno]|(t1&Ht1&->)].
          -- split; [intros i Hi'; by apply Hno in Hi'|intros i c Hi'%Hpend; destruct (K2 _ _ Hi'); lia|intros i Hi'%Hpend; by apply K3 in Hi'].
          -- pose proof (cnt_insert woken_get _ _ _ (T OGet (SWait (FWoken false))) Ht1) as C1. pose proof (cnt_insert woken_put _ _ _ (T OGet (SWait (FWoken false))) Ht1) as C2. simpl in C1, C2. split.
             ++ intros i Hi'. destruct (look_insert _ _ _ _ _ _ Ht1 Hi') as [[_ E]|[Hn Hold]]; [done|]. apply Hpend, K1 in Hold. lia.
             ++ intros i c Hi'. destruct (look_insert _ _ _ _ _ _ Ht1 Hi') as [[_ E]|[Hn Hold]]; [done|]. apply Hpend, K2 in Hold. lia.
             ++ intros i Hi'. destruct (look_insert _ _ _ _ _ _ Ht1 Hi') as [[_ E]|[Hn Hold]]; [done|]. by apply Hpend, K3 in Hold.
        * eapply lg_same; [done|]. destruct Hc as [[-> Hno]|(t1&Ht1&->)]; [done|by eapply done_set].
      + apply Hfin; try done. split; [|intros i c Hi'%Hpend; destruct (K2 _ _ Hi'); lia|intros i Hi'%Hpend; by apply K3 in Hi'].
        intros i Hi'%Hpend%K1. destruct Hs as [[-> ->]|[-> ->]]; simpl in *; [|lia]. apply negb_false_iff, bool_decide_eq_true in Eb. rewrite Eb. simpl. lia.
    - destruct (b && negb (full max (q_items s))) eqn:Eb.
      + apply andb_prop in Eb as [-> Hne]. destruct Hs as [[-> _]|[_ ?]]; [|done]. simpl in *. destruct (wake ps ts) as [ps' ts'] eqn:Ew. destruct (wake_put _ _ _ _ _ HW1 Ew) as [HW2 Hc]. apply Hfin; [done| |].
        * destruct Hc as [[-> Hno]|(t1&a1&Ht1&->)].
          -- split; [intros i Hi'%Hpend%K1; lia|intros i c Hi'; by apply Hno in Hi'|intros i Hi'%Hpend; by apply K3 in Hi'].
          -- pose proof (cnt_insert woken_get _ _ _ (T (OPut a1) (SWait (FWoken false))) Ht1) as C1. pose proof (cnt_insert woken_put _ _ _ (T (OPut a1) (SWait (FWoken false))) Ht1) as C2. simpl in C1, C2. split.
             ++ intros i Hi'. destruct (look_insert _ _ _ _ _ _ Ht1 Hi') as [[_ E]|[Hn Hold]]; [done|]. apply Hpend, K1 in Hold. lia.
             ++ intros i c Hi'. destruct (look_insert _ _ _ _ _ _ Ht1 Hi') as [[_ E]|[Hn Hold]]; [done|]. apply Hpend, K2 in Hold. lia.
             ++ intros i Hi'. destruct (look_insert _ _ _ _ _ _ Ht1 Hi') as [[_ E]|[Hn Hold]]; [done|]. by apply Hpend, K3 in Hold.
        * eapply lg_same; [done|]. destruct Hc as [[-> Hno]|(t1&a1&Ht1&->)]; [done|by eapply done_set].
      + apply Hfin; try done. split; [intros i Hi'%Hpend%K1; lia| |intros i Hi'%Hpend; by apply K3 in Hi'].
        intros i c Hi'%Hpend%K2. destruct Hs as [[-> ->]|[-> ->]]; simpl in *; [|lia]. apply negb_false_iff, full_true in Eb. lia.
    - apply Hfin; try done. split; [intros i Hi'%Hpend%K1; lia|intros i c Hi'%Hpend%K2; lia|intros i Hi'%Hpend; by apply K3 in Hi'].
  Qed.

  Lemma step_inv s l s' : inv s → qstep s l s' → inv s'.
  Proof.
    intros Hi Hs. unfold AsyncQueue_model.qstep in Hs. destruct l as [o|t|t|]; simpl in Hs.
    - simplify_eq. destruct Hi as [HW HK HL Hi Hu Hu' Hm]. split; simpl; try done; [by apply wl_new| |].
      + destruct HK as [K1 K2 K3]. split.
        * intros i [Hi'|[_ [_ ?]%list_lookup_singleton_Some]]%lookup_app_Some; [|done]. rewrite cnt_app. apply K1 in Hi'. lia.
        * intros i a [Hi'|[_ [_ ?]%list_lookup_singleton_Some]]%lookup_app_Some; [|done]. rewrite cnt_app. destruct (K2 _ _ Hi'). lia.
        * intros i [Hi'|[_ [_ ?]%list_lookup_singleton_Some]]%lookup_app_Some; [|done]. by apply K3 in Hi'.
      + eapply lg_same; [done|]. intros i o'. split; [|by apply lookup_app_l_Some]. by intros [Hi'|[_ [_ ?]%list_lookup_singleton_Some]]%lookup_app_Some.
    - destruct (q_tasks s !! t) as [k|] eqn:Hk; [|done]. simpl in Hs. destruct k as [o x]. simpl in Hs. destruct x as [[]|[|[]|]| |]; try done; simplify_eq.
      + rewrite (set_st_eq _ _ _ _ Hk). eapply (plain_inv s t (T o (SNew true))); try done; by destruct o.
      + destruct o as [|a|]; [eapply get_inv; try done; by left|eapply put_inv; try done; by left|].
        unfold join. rewrite (set_st_eq _ _ _ _ Hk). case_decide as Hz; [by eapply (plain_inv s t (T OJoin (SNew false)))|].
        destruct Hi as [HW HK HL Hi Hu Hu' Hm]. simpl. split; simpl; try done.
        * destruct HW as [H1 H2 H3 H4 H5 H6]. split; try done.
          -- intros i Hi'. rewrite list_lookup_insert_ne; [auto|]. intros ->. destruct (H3 i Hi'); simplify_eq.
          -- intros i Hi'. rewrite list_lookup_insert_ne; [auto|]. intros ->. destruct (H4 i Hi') as (?&[|]); simplify_eq.
          -- intros i Hi'. destruct (look_insert _ _ _ _ _ _ Hk Hi') as [[_ E]|[Hn Hold]]; [done|auto].
          -- intros i a Hi'. destruct (look_insert _ _ _ _ _ _ Hk Hi') as [[_ E]|[Hn Hold]]; [done|eauto].
        * destruct HK as [K1 K2 K3]. pose proof (cnt_insert woken_get _ _ _ wait_join Hk) as Cg. pose proof (cnt_insert woken_put _ _ _ wait_join Hk) as Cp. simpl in Cg, Cp. split.
          -- intros i Hi'. destruct (look_insert _ _ _ _ _ _ Hk Hi') as [[_ E]|[Hn Hold]]; [done|]. apply K1 in Hold. lia.
          -- intros i b Hi'. destruct (look_insert _ _ _ _ _ _ Hk Hi') as [[_ E]|[Hn Hold]]; [done|]. apply K2 in Hold. lia.
          -- intros. congruence.
        * eapply lg_same; [done|]. by eapply done_set.
      + by eapply (give_up_inv s t (T o (SWait (FWoken true)))); [..|by left].
      + destruct o as [|a|]; [eapply get_inv; try done; by right|eapply put_inv; try done; by right|]. rewrite (set_st_eq _ _ _ _ Hk). by eapply (plain_inv s t (T OJoin (SWait (FWoken false)))).
      + by eapply (give_up_inv s t (T o (SWait FCancelled))); [..|by right].
    - destruct (q_tasks s !! t) as [k|] eqn:Hk; [|done]. simpl in Hs. destruct k as [o x]. simpl in Hs. destruct x as [b|[|b|]| |]; simplify_eq; try done.
      + rewrite (set_st_eq _ _ _ _ Hk). eapply (plain_inv s t (T o (SNew b))); try done; by destruct o.
      + rewrite (set_st_eq _ _ _ _ Hk). destruct Hi as [HW HK HL Hi Hu Hu' Hm]. simpl. split; simpl; try done; [by apply wl_cancel| |].
        * destruct HK as [K1 K2 K3]. pose proof (cnt_insert woken_get _ _ _ (T o (SWait FCancelled)) Hk) as Cg. pose proof (cnt_insert woken_put _ _ _ (T o (SWait FCancelled)) Hk) as Cp.
          assert (cnt woken_get (<[t:=T o (SWait FCancelled)]> (q_tasks s)) = cnt woken_get (q_tasks s)) as E1 by (destruct o; simpl in *; lia).
          assert (cnt woken_put (<[t:=T o (SWait FCancelled)]> (q_tasks s)) = cnt woken_put (q_tasks s)) as E2 by (destruct o; simpl in *; lia). split.
          -- intros i Hi'. destruct (look_insert _ _ _ _ _ _ Hk Hi') as [[_ E]|[Hn Hold]]; [done|]. apply K1 in Hold. lia.
          -- intros i c Hi'. destruct (look_insert _ _ _ _ _ _ Hk Hi') as [[_ E]|[Hn Hold]]; [done|]. apply K2 in Hold. lia.
          -- intros i Hi'. destruct (look_insert _ _ _ _ _ _ Hk Hi') as [[_ E]|[Hn Hold]]; [done|]. by apply K3 in Hold.
        * eapply lg_same; [done|]. by eapply done_set.
      + rewrite (set_st_eq _ _ _ _ Hk). eapply (plain_inv s t (T o (SWait (FWoken b)))); try done; by destruct o.
    - case_decide as Hlt; [|done]. simplify_eq. destruct Hi as [HW HK HL Hi Hu Hu' Hm]. pose proof Hi as Hlen. apply (f_equal length) in Hlen. rewrite app_length, !fmap_length in Hlen.
      unfold task_done. set (ts := if decide (Nat.pred (q_unfinished s) = 0) then wake_joins (q_tasks s) else q_tasks s).
      assert (∀ i k, t_op k ≠ OJoin → ts !! i = Some k ↔ q_tasks s !! i = Some k) as Ho by (intros i k Hk; unfold ts; case_decide; [by apply joins_other|done]).
      assert (∀ p, (∀ x, p (T OJoin x) = false) → cnt p ts = cnt p (q_tasks s)) as Hcj by (intros p Hp; unfold ts; case_decide; [by apply cnt_joins|done]). split; simpl; try done.
      + unfold ts. case_decide; [by apply wl_joins|done].
      + destruct HK as [K1 K2 K3]. split; rewrite ?Hcj by done.
        * intros i Hi'. apply Ho in Hi'; [|done]. eauto.
        * intros i a Hi'. apply Ho in Hi'; [|done]. eauto.
        * intros i. unfold ts. case_decide as Hz; [intros Hi'; by apply joins_none in Hi'|done].
      + eapply lg_same; [done|]. intros i o. unfold ts. case_decide; [apply done_joins|done].
      + lia.
  Qed.
  Lemma init_inv : inv aq_init.
  Proof.
    assert (∀ (X : Type) (x : X), x ∉ []) as Hn by (intros X x H; by apply elem_of_nil in H).
    split; simpl; try done; try lia; split; simpl; try done; try apply NoDup_nil_2.
    - intros t H. by apply Hn in H.
    - intros t H. by apply Hn in H.
    - intros t a. split; [intros H; by apply Hn in H|done].
    - intros t. split; [intros H; by apply Hn in H|done].
  Qed.
  Lemma reach_inv' ls s : reach qstep aq_init ls s → inv s.
  Proof. apply reach_inv; [|apply init_inv]. intros; by eapply step_inv. Qed.

  Lemma fifo ls s : reach qstep aq_init ls s → (q_in s).*2 = (q_out s).*2 ++ q_items s.
  Proof. intros H%reach_inv'. apply H. Qed.
  Lemma effects ls s : reach qstep aq_init ls s → (∀ t a, (t, a) ∈ q_in s ↔ is_at s t (OPut a) SDone) ∧ (∀ t, t ∈ (q_out s).*1 ↔ is_at s t OGet SDone) ∧ NoDup (q_in s).*1 ∧ NoDup (q_out s).*1.
  Proof. intros H%reach_inv'. destruct (v_lg _ H). done. Qed.
  Lemma bound ls s : reach qstep aq_init ls s → 0 < max → length (q_items s) ≤ max.
  Proof. intros H%reach_inv'. apply H. Qed.

  (** the tasks themselves *)
  Lemma ops_set t x ts : t_op <$> set_st t x ts = t_op <$> ts.
  Proof.
    unfold set_st. apply list_eq. intros i. rewrite !list_lookup_fmap. destruct (decide (i = t)) as [->|Hn].
    - rewrite list_lookup_alter. by destruct (ts !! t).
    - by rewrite list_lookup_alter_ne.
  Qed.
  Lemma ops_wake ws ts : t_op <$> (wake ws ts).2 = t_op <$> ts.
  Proof. induction ws as [|t ws IH]; simpl; [done|]. destruct (t_st <$> ts !! t) as [[|[]| |]|]; try done. apply ops_set. Qed.
  Lemma ops_joins ts : t_op <$> wake_joins ts = t_op <$> ts.
  Proof. unfold wake_joins. rewrite <-list_fmap_compose. apply list_fmap_ext. intros i [[|a|] [|[]| |]] _; done. Qed.
  Lemma ops_step s l s' : qstep s l s' → t_op <$> q_tasks s' = (t_op <$> q_tasks s) ++ made [l].
  Proof.
    unfold AsyncQueue_model.qstep. destruct l as [o|t|t|]; simpl.
    - intros [= <-]. simpl. by rewrite fmap_app.
    - rewrite app_nil_r. destruct (q_tasks s !! t) as [[o x]|]; [|done]. simpl.
      assert (∀ b, t_op <$> q_tasks (give_up max t o b s) = t_op <$> q_tasks s) as Hgu.
      { intros b. unfold give_up. destruct o as [|a|].
        - destruct (b && negb (bool_decide (q_items s = []))); simpl; [|by rewrite ops_set].
          destruct (wake (remove t (q_getters s)) (set_st t SCancelled (q_tasks s))) as [g u] eqn:Ew. simpl. pose proof (ops_wake (remove t (q_getters s)) (set_st t SCancelled (q_tasks s))) as E. rewrite Ew in E. simpl in E. by rewrite E, ops_set.
        - destruct (b && negb (full max (q_items s))); simpl; [|by rewrite ops_set].
          destruct (wake (remove t (q_putters s)) (set_st t SCancelled (q_tasks s))) as [g u] eqn:Ew. simpl. pose proof (ops_wake (remove t (q_putters s)) (set_st t SCancelled (q_tasks s))) as E. rewrite Ew in E. simpl in E. by rewrite E, ops_set.
        - simpl. by rewrite ops_set. }
      assert (t_op <$> q_tasks (get t s) = t_op <$> q_tasks s) as Hget.
      { unfold get. destruct (q_items s); simpl; [by rewrite ops_set|]. destruct (wake (q_putters s) (q_tasks s)) as [p u] eqn:Ew. simpl. pose proof (ops_wake (q_putters s) (q_tasks s)) as E. rewrite Ew in E. simpl in E. by rewrite ops_set. }
      assert (∀ a, t_op <$> q_tasks (put max t a s) = t_op <$> q_tasks s) as Hput.
      { intros a. unfold put. destruct (full max (q_items s)); simpl; [by rewrite ops_set|]. destruct (wake (q_getters s) (q_tasks s)) as [p u] eqn:Ew. simpl. pose proof (ops_wake (q_getters s) (q_tasks s)) as E. rewrite Ew in E. simpl in E. by rewrite ops_set. }
      destruct x as [[]|[|[]|]| |]; try done; intros [= <-]; try apply Hgu; [simpl; by rewrite ops_set|destruct o as [|a|]; [done|done|simpl; by rewrite ops_set]..].
    - rewrite app_nil_r. destruct (q_tasks s !! t) as [[o x]|]; [|done]. simpl. destruct x as [b|[|b|]| |]; try done; intros [= <-]; simpl; try apply ops_set; done.
    - case_decide; [|done]. intros [= <-]. simpl. rewrite app_nil_r. case_decide; [apply ops_joins|done].
  Qed.
  Lemma tasks_made ls s : reach qstep aq_init ls s → t_op <$> q_tasks s = made ls.
  Proof. induction 1 as [|ls s1 l s2 Hr IH Hs]; [done|]. rewrite (ops_step _ _ _ Hs), IH. unfold made. by rewrite omap_app. Qed.

  (** the logs grow *)
  Lemma grow_step s l s' : qstep s l s' → q_in s `prefix_of` q_in s' ∧ q_out s `prefix_of` q_out s'.
  Proof.
    unfold AsyncQueue_model.qstep. destruct l as [o|t|t|]; simpl.
    - by intros [= <-].
    - destruct (q_tasks s !! t) as [[o x]|]; [|done]. simpl.
      assert (∀ b, q_in (give_up max t o b s) = q_in s ∧ q_out (give_up max t o b s) = q_out s) as Hgu.
      { intros b. unfold give_up. destruct o as [|a|]; [case_match; [destruct (wake _ _)|]|case_match; [destruct (wake _ _)|]|]; done. }
      assert (q_in (get t s) = q_in s ∧ q_out s `prefix_of` q_out (get t s)) as Hget.
      { unfold get. destruct (q_items s); [done|]. destruct (wake _ _). simpl. split; [done|by eexists]. }
      assert (∀ a, q_in s `prefix_of` q_in (put max t a s) ∧ q_out (put max t a s) = q_out s) as Hput.
      { intros a. unfold put. destruct (full max (q_items s)); [done|]. destruct (wake _ _). simpl. split; [by eexists|done]. }
      destruct x as [[]|[|[]|]| |]; try done; intros [= <-]; try (destruct (Hgu true) as [-> ->]; done); try (destruct (Hgu false) as [-> ->]; done); [done|..].
      all: destruct o as [|a|]; [destruct Hget as [-> ?]; done|destruct (Hput a) as [? ->]; done|done].
    - destruct (q_tasks s !! t) as [[o x]|]; [|done]. simpl. by destruct x as [b|[|b|]| |]; try done; intros [= <-].
    - case_decide; [|done]. by intros [= <-].
  Qed.
  Lemma grow s ls s' : reach qstep s ls s' → q_in s `prefix_of` q_in s' ∧ q_out s `prefix_of` q_out s'.
  Proof. induction 1 as [|ls s1 l s2 Hr [IH1 IH2] Hs]; [done|]. destruct (grow_step _ _ _ Hs). split; by etrans. Qed.

  (** when nothing runs *)
  Lemma quiet_tasks s t k : quiet max s → q_tasks s !! t = Some k → t_st k ∈ [SWait FPending; SDone; SCancelled].
  Proof.
    intros Hq Hk. assert (qrun max s (QRun t) = None) as E by (destruct (qrun max s (QRun t)) as [s'|] eqn:E; [by apply Hq in E|done]).
    simpl in E. rewrite Hk in E. simpl in E. destruct (t_st k) as [[]|[|[]|]| |]; try done; set_solver.
  Qed.
  Lemma quiet_cnt s p : quiet max s → (∀ o x, x ∈ [SWait FPending; SDone; SCancelled] → p (T o x) = false) → cnt p (q_tasks s) = 0.
  Proof.
    intros Hq Hp. destruct (decide (cnt p (q_tasks s) = 0)) as [|Hn]; [done|]. destruct (cnt_pos _ _ Hn) as (t&[o x]&Hk&Ht). pose proof (quiet_tasks _ _ _ Hq Hk) as Hx. rewrite Hp in Ht; done.
  Qed.
  Lemma at_rest ls s : reach qstep aq_init ls s → quiet max s →
    (∀ t, pending s t OGet → q_items s = []) ∧ (∀ t a, pending s t (OPut a) → 0 < max ∧ length (q_items s) = max) ∧ (∀ t, pending s t OJoin → q_done s < length (q_in s)) ∧
    (∀ t k, q_tasks s !! t = Some k → t_st k ∈ [SWait FPending; SDone; SCancelled]).
  Proof.
    intros Hi%reach_inv' Hq. destruct (v_wk _ Hi) as [K1 K2 K3].
    assert (cnt woken_get (q_tasks s) = 0) as E1 by (apply quiet_cnt; [done|]; intros [|a|] x Hx; set_unfold; by destruct Hx as [->|[->|[->|[]]]]).
    assert (cnt woken_put (q_tasks s) = 0) as E2 by (apply quiet_cnt; [done|]; intros [|a|] x Hx; set_unfold; by destruct Hx as [->|[->|[->|[]]]]). split_and!.
    - intros t Ht%K1. apply nil_length_inv. lia.
    - intros t a Ht. destruct (K2 _ _ Ht). pose proof (v_max _ Hi). lia.
    - intros t Ht%K3. pose proof (v_unf _ Hi). lia.
    - intros. by eapply quiet_tasks.
  Qed.

  (** runs end *)
  Definition unfinished k : bool := match t_st k with SDone | SCancelled => false | _ => true end.
  Definition runnable k : bool := match t_st k with SDone | SCancelled | SWait FPending => false | _ => true end.
  Definition weight s : nat := cnt unfinished (q_tasks s) * S (length (q_tasks s)) + cnt runnable (q_tasks s).
  Lemma unf_wake ws ts : cnt unfinished (wake ws ts).2 = cnt unfinished ts ∧ length (wake ws ts).2 = length ts ∧ (∀ t k, ts !! t = Some k → t_st k ≠ SWait FPending → (wake ws ts).2 !! t = Some k).
  Proof.
    destruct (wake_cases ws ts) as [[-> _]|(l&t&r&o&->&_&Ht&->)]; [done|]. simpl. split_and!.
    - pose proof (cnt_insert unfinished _ _ _ (T o (SWait (FWoken false))) Ht). simpl in *. lia.
    - apply insert_length.
    - intros i k Hk Hn. rewrite list_lookup_insert_ne; [done|]. intros ->. by simplify_eq.
  Qed.
  Lemma less_weight s s' : cnt unfinished (q_tasks s') < cnt unfinished (q_tasks s) → length (q_tasks s') = length (q_tasks s) → weight s' < weight s.
  Proof. intros H E. unfold weight. pose proof (cnt_le runnable (q_tasks s')) as L. rewrite E in *. nia. Qed.
  Lemma finish_unf ts t k x : ts !! t = Some k → unfinished k = true → unfinished (T (t_op k) x) = false → cnt unfinished (set_st t x ts) < cnt unfinished ts ∧ length (set_st t x ts) = length ts.
  Proof.
    intros Hk Hu Hx. rewrite (set_st_eq _ _ _ _ Hk). pose proof (cnt_insert unfinished _ _ _ (T (t_op k) x) Hk) as C. rewrite Hu, Hx in C. simpl in C. rewrite insert_length. lia.
  Qed.
  Lemma wait_weight ts t k : ts !! t = Some k → runnable k = true → let ts' := set_st t (SWait FPending) ts in
    cnt unfinished ts' * S (length ts') + cnt runnable ts' < cnt unfinished ts * S (length ts) + cnt runnable ts.
  Proof.
    intros Hk Hr. simpl. rewrite (set_st_eq _ _ _ _ Hk). pose proof (cnt_insert unfinished _ _ _ (T (t_op k) (SWait FPending)) Hk) as C1. pose proof (cnt_insert runnable _ _ _ (T (t_op k) (SWait FPending)) Hk) as C2. rewrite Hr in C2. simpl in *.
    assert (unfinished k = true) as E by (destruct k as [o [|[]| |]]; done). rewrite E in C1. simpl in C1. rewrite insert_length. nia.
  Qed.
  Lemma weight_step s t s' : qstep s (QRun t) s' → weight s' < weight s.
  Proof.
    unfold AsyncQueue_model.qstep. simpl. destruct (q_tasks s !! t) as [k|] eqn:Hk; [|done]. simpl. destruct k as [o x]. simpl.
    assert (unfinished (T o x) = true → cnt unfinished (set_st t SCancelled (q_tasks s)) < cnt unfinished (q_tasks s) ∧ length (set_st t SCancelled (q_tasks s)) = length (q_tasks s)) as Hc by (intros Hu; by eapply finish_unf).
    assert (∀ b, unfinished (T o x) = true → weight (give_up max t o b s) < weight s) as Hgu.
    { intros b Hu. destruct (Hc Hu) as [C1 C2].
      assert (∀ ws gs ts, wake ws (set_st t SCancelled (q_tasks s)) = (gs, ts) → cnt unfinished ts < cnt unfinished (q_tasks s) ∧ length ts = length (q_tasks s)) as Hw.
      { intros ws gs ts Ew. destruct (unf_wake ws (set_st t SCancelled (q_tasks s))) as (E1&E2&_). rewrite Ew in E1, E2. simpl in E1, E2. lia. }
      unfold give_up. destruct o as [|a|].
      - destruct (b && _); [|by apply less_weight]. destruct (wake _ _) as [gs ts] eqn:Ew. destruct (Hw _ _ _ Ew). by apply less_weight.
      - destruct (b && _); [|by apply less_weight]. destruct (wake _ _) as [gs ts] eqn:Ew. destruct (Hw _ _ _ Ew). by apply less_weight.
      - by apply less_weight. }
    assert (t_st (T o x) ≠ SWait FPending → unfinished (T o x) = true → ∀ ws gs ts, wake ws (q_tasks s) = (gs, ts) → cnt unfinished (set_st t SDone ts) < cnt unfinished (q_tasks s) ∧ length (set_st t SDone ts) = length (q_tasks s)) as Hd.
    { intros Hx Hu ws gs ts Ew. destruct (unf_wake ws (q_tasks s)) as (E1&E2&E3). rewrite Ew in E1, E2, E3. simpl in E1, E2, E3. specialize (E3 _ _ Hk Hx). destruct (finish_unf _ _ _ SDone E3 Hu eq_refl). lia. }
    assert (runnable (T o x) = true → weight (get t s) < weight s) as Hget.
    { intros Hr. unfold get. destruct (q_items s) as [|a items]; [by apply (wait_weight _ _ _ Hk)|].
      destruct (wake _ _) as [ps ts] eqn:Ew. destruct (Hd ltac:(by destruct x as [|[]| |]) ltac:(by destruct x as [|[]| |]) _ _ _ Ew) as (?&?). by apply less_weight. }
    assert (∀ a, runnable (T o x) = true → weight (put max t a s) < weight s) as Hput.
    { intros a Hr. unfold put. destruct (full max (q_items s)); [by apply (wait_weight _ _ _ Hk)|].
      destruct (wake _ _) as [ps ts] eqn:Ew. destruct (Hd ltac:(by destruct x as [|[]| |]) ltac:(by destruct x as [|[]| |]) _ _ _ Ew) as (?&?). by apply less_weight. }
    assert (unfinished (T o x) = true → weight (with_tasks s (set_st t SDone (q_tasks s))) < weight s) as Hdone.
    { intros Hu. destruct (finish_unf _ _ _ SDone Hk Hu eq_refl). by apply less_weight. }
    destruct x as [[]|[|[]|]| |]; try done; intros [= <-]; try (by apply Hgu).
    - destruct (Hc eq_refl). by apply less_weight.
    - destruct o as [|a|]; [by apply Hget|by apply Hput|]. unfold join. case_decide; [by apply Hdone|]. by apply (wait_weight _ _ _ Hk).
    - destruct o as [|a|]; [by apply Hget|by apply Hput|by apply Hdone].
  Qed.
  Lemma runs_weight s ls s' : reach qstep s ls s' → Forall is_run ls → weight s' + length ls ≤ weight s.
  Proof.
    induction 1 as [|ls s1 l s2 Hr IH Hs]; intros Hf; simpl; [lia|]. apply Forall_app in Hf as [Hf1 Hf2]. apply Forall_inv in Hf2. destruct l as [o|t|t|]; [destruct Hf2| |destruct Hf2|destruct Hf2]. specialize (IH Hf1). apply weight_step in Hs. rewrite app_length. simpl. lia.
  Qed.
  Lemma settles s ls s' : reach qstep s ls s' → Forall is_run ls → length ls ≤ length (q_tasks s) * (length (q_tasks s) + 2).
  Proof.
    intros Hr Hf. pose proof (runs_weight _ _ _ Hr Hf). unfold weight in *. pose proof (cnt_le unfinished (q_tasks s)). pose proof (cnt_le runnable (q_tasks s)). nia.
  Qed.
  Lemma quiet_dec s : quiet max s ∨ ∃ t s', qstep s (QRun t) s'.
  Proof.
    destruct (decide (cnt runnable (q_tasks s) = 0)) as [Hz|Hn].
    - left. intros t s' Hs. unfold AsyncQueue_model.qstep in Hs. simpl in Hs. destruct (q_tasks s !! t) as [k|] eqn:Hk; [|done]. simpl in Hs.
      destruct (runnable k) eqn:Er; [|destruct k as [o [|[]| |]]; done]. pose proof (cnt_insert runnable _ _ _ (T OGet SDone) Hk) as C. rewrite Er in C. simpl in C. lia.
    - right. destruct (cnt_pos _ _ Hn) as (t&[o x]&Hk&Hr). exists t. unfold AsyncQueue_model.qstep. simpl. rewrite Hk. simpl. destruct x as [[]|[|[]|]| |]; try done; by eexists.
  Qed.
  Lemma comes_to_rest s : ∃ ls s', Forall is_run ls ∧ reach qstep s ls s' ∧ quiet max s'.
  Proof.
    remember (weight s) as n eqn:En. revert s En. induction n as [n IH] using lt_wf_ind. intros s ->. destruct (quiet_dec s) as [|(t&s1&Hs)]; [exists [], s; by split_and!; [|constructor|]|].
    destruct (IH (weight s1) (weight_step _ _ _ Hs) s1 eq_refl) as (ls&s2&Hf&Hr&Hq). exists (QRun t :: ls), s2. split_and!; [by constructor| |done]. by eapply reach_cons.
  Qed.

  (** join *)
  Definition join_ok (n : nat) (x : qstate) s : Prop := match x with SWait (FWoken _) | SDone => n ≤ q_done s | _ => True end.
  Lemma done_step s l s' : qstep s l s' → q_done s ≤ q_done s'.
  Proof.
    unfold AsyncQueue_model.qstep. destruct l as [o|t|t|]; simpl.
    - by intros [= <-].
    - destruct (q_tasks s !! t) as [[o x]|]; [|done]. simpl.
      assert (∀ b, q_done (give_up max t o b s) = q_done s) as Hgu by (intros b; unfold give_up; destruct o as [|a|]; [case_match; [destruct (wake _ _)|]|case_match; [destruct (wake _ _)|]|]; done).
      assert (q_done (get t s) = q_done s) as Hget by (unfold get; destruct (q_items s); [done|]; by destruct (wake _ _)).
      assert (∀ a, q_done (put max t a s) = q_done s) as Hput by (intros a; unfold put; destruct (full max (q_items s)); [done|]; by destruct (wake _ _)).
      destruct x as [[]|[|[]|]| |]; try done; intros [= <-]; rewrite ?Hgu; try done; destruct o as [|a|]; rewrite ?Hget, ?Hput; done.
    - destruct (q_tasks s !! t) as [[o x]|]; [|done]. simpl. by destruct x as [b|[|b|]| |]; try done; intros [= <-].
    - case_decide; [|done]. intros [= <-]. simpl. lia.
  Qed.
  Lemma join_step t x n s l s' : inv s → qstep s l s' → q_tasks s !! t = Some (T OJoin x) → join_ok n x s → n ≤ length (q_in s) → ∃ x', q_tasks s' !! t = Some (T OJoin x') ∧ join_ok n x' s'.
  Proof.
    intros Hi Hs Ht Hj Hn. pose proof (step_inv _ _ _ Hi Hs) as Hi'. pose proof (done_step _ _ _ Hs) as Gd.
    assert (q_tasks s' !! t = Some (T OJoin x) → ∃ x', q_tasks s' !! t = Some (T OJoin x') ∧ join_ok n x' s') as Hsame.
    { intros E. exists x. split; [done|]. destruct x as [|[]| |]; simpl in *; lia. }
    assert (∀ i k y ts, i ≠ t → ts !! i = Some k → set_st i y ts !! t = ts !! t) as Hset.
    { intros i k y ts Hit Hk. rewrite (set_st_eq _ _ _ _ Hk). by apply list_lookup_insert_ne. }
    assert (∀ gs ps ts gs' ts' y, WL gs ps ts → wake gs ts = (gs', ts') → ts !! t = Some (T OJoin y) → ts' !! t = Some (T OJoin y)) as Hwg.
    { intros gs ps ts gs' ts' y HW Ew Hy. destruct (wake_get _ _ _ _ _ HW Ew) as [_ [[-> _]|(j&Hjt&->)]]; [done|]. rewrite list_lookup_insert_ne; [done|]. intros ->. by simplify_eq. }
    assert (∀ gs ps ts ps' ts' y, WL gs ps ts → wake ps ts = (ps', ts') → ts !! t = Some (T OJoin y) → ts' !! t = Some (T OJoin y)) as Hwp.
    { intros gs ps ts ps' ts' y HW Ew Hy. destruct (wake_put _ _ _ _ _ HW Ew) as [_ [[-> _]|(j&b'&Hjt&->)]]; [done|]. rewrite list_lookup_insert_ne; [done|]. intros ->. by simplify_eq. }
    unfold AsyncQueue_model.qstep in Hs. destruct l as [o|i|i|]; simpl in Hs.
    - simplify_eq. apply Hsame. simpl. by apply lookup_app_l_Some.
    - destruct (q_tasks s !! i) as [k|] eqn:Hk; [|done]. simpl in Hs. destruct (decide (i = t)) as [->|Hit].
      + rewrite Ht in Hk. simplify_eq. simpl in Hs. pose proof (set_st_eq t) as Hst. destruct x as [[]|[|[]|]| |]; simplify_eq; simpl.
        * exists SCancelled. rewrite (Hst _ _ _ Ht), (look_same _ _ _ _ Ht). done.
        * unfold join. simpl. rewrite (Hst _ _ _ Ht), (look_same _ _ _ _ Ht). eexists. split; [done|]. case_decide as Hz; [|done]. simpl. pose proof (v_unf _ Hi). lia.
        * exists SCancelled. rewrite (Hst _ _ _ Ht), (look_same _ _ _ _ Ht). done.
        * exists SDone. rewrite (Hst _ _ _ Ht), (look_same _ _ _ _ Ht). done.
        * exists SCancelled. rewrite (Hst _ _ _ Ht), (look_same _ _ _ _ Ht). done.
      + assert (∀ b, s' = give_up max i (t_op k) b s → q_tasks s' !! t = Some (T OJoin x)) as Hgu.
        { intros b ->. pose proof (wl_remove _ _ _ _ _ (v_wl _ Hi) Hk) as HW. rewrite <-(set_st_eq _ _ _ _ Hk) in HW. pose proof (Hset _ _ SCancelled _ Hit Hk) as E. rewrite Ht in E.
          unfold give_up. destruct (t_op k) as [|a|].
          - destruct (b && _); [|done]. destruct (wake _ _) as [gs ts] eqn:Ew. simpl. by eapply Hwg.
          - destruct (b && _); [|done]. destruct (wake _ _) as [gs ts] eqn:Ew. simpl. by eapply Hwp.
          - done. }
        assert (t_op k = OGet → s' = get i s → q_tasks s' !! t = Some (T OJoin x)) as Hget.
        { intros Ho ->. unfold get. destruct (q_items s) as [|a items] eqn:Ei; [simpl; by rewrite (Hset _ _ _ _ Hit Hk)|]. destruct (wake (q_putters s) (q_tasks s)) as [ps ts] eqn:Ew. simpl.
          pose proof (Hwp _ _ _ _ _ _ (v_wl _ Hi) Ew Ht) as Hts.
          assert (∃ k', ts !! i = Some k') as (k'&Hk').
          { destruct (wake_put _ _ _ _ _ (v_wl _ Hi) Ew) as [_ [[-> _]|(j&b'&Hjt&->)]]; [by exists k|]. exists k. rewrite list_lookup_insert_ne; [done|]. intros ->. rewrite Hk in Hjt. by simplify_eq. }
          by rewrite (Hset _ _ _ _ Hit Hk'). }
        assert (∀ a, t_op k = OPut a → s' = put max i a s → q_tasks s' !! t = Some (T OJoin x)) as Hput.
        { intros a Ho ->. unfold put. destruct (full max (q_items s)); [simpl; by rewrite (Hset _ _ _ _ Hit Hk)|]. destruct (wake (q_getters s) (q_tasks s)) as [gs ts] eqn:Ew. simpl.
          pose proof (Hwg _ _ _ _ _ _ (v_wl _ Hi) Ew Ht) as Hts.
          assert (∃ k', ts !! i = Some k') as (k'&Hk').
          { destruct (wake_get _ _ _ _ _ (v_wl _ Hi) Ew) as [_ [[-> _]|(j&Hjt&->)]]; [by exists k|]. exists k. rewrite list_lookup_insert_ne; [done|]. intros ->. rewrite Hk in Hjt. by simplify_eq. }
          by rewrite (Hset _ _ _ _ Hit Hk'). }
        destruct k as [o y]. simpl in *. destruct y as [[]|[|[]|]| |]; try done; injection Hs as Hs; try (apply Hsame; by eapply Hgu).
        * subst s'. apply Hsame. simpl. by rewrite (Hset _ _ _ _ Hit Hk).
        * destruct o as [|a|]; [apply Hsame; by apply Hget|apply Hsame; by eapply Hput|]. subst s'. apply Hsame. unfold join. simpl. by rewrite (Hset _ _ _ _ Hit Hk).
        * destruct o as [|a|]; [apply Hsame; by apply Hget|apply Hsame; by eapply Hput|]. subst s'. apply Hsame. simpl. by rewrite (Hset _ _ _ _ Hit Hk).
    - destruct (q_tasks s !! i) as [k|] eqn:Hk; [|done]. simpl in Hs. destruct (decide (i = t)) as [->|Hit].
      + rewrite Ht in Hk. simplify_eq. simpl in Hs. pose proof (set_st_eq t) as Hst. destruct x as [b|[|b|]| |]; simplify_eq; simpl; try (rewrite (Hst _ _ _ Ht), (look_same _ _ _ _ Ht); by eexists). by apply Hsame.
      + apply Hsame. destruct k as [o y]. simpl in Hs. destruct y as [b|[|b|]| |]; simplify_eq; simpl; try (by rewrite (Hset _ _ _ _ Hit Hk)). done.
    - case_decide as Hlt; [|done]. simplify_eq. unfold task_done in Hsame |- *. simpl in Hsame |- *. case_decide as Hz; [|by apply Hsame]. unfold wake_joins. rewrite list_lookup_fmap, Ht. simpl.
      assert (n ≤ S (q_done s)) by (pose proof (v_unf _ Hi); lia). destruct x as [|[]| |]; eexists; (split; [done|]); done.
  Qed.
  Lemma joined l1 s1 l2 s2 t : reach qstep aq_init l1 s1 → is_at s1 t OJoin (SNew false) ∨ pending s1 t OJoin → reach qstep s1 l2 s2 → is_at s2 t OJoin SDone → length (q_in s1) ≤ q_done s2 ≤ length (q_out s2).
  Proof.
    intros H1 Ht H2 Hd. set (n := length (q_in s1)). assert (q_done s2 ≤ length (q_out s2)) as Hle by (apply v_done; eapply reach_inv', reach_app; done). split; [|done]. clear Hle.
    assert (∃ x, is_at s2 t OJoin x ∧ join_ok n x s2) as (x&Hx&Hj); [|unfold is_at in *; by simplify_eq].
    clear Hd. induction H2 as [|ls s2 l s3 Hr IH Hs].
    - destruct Ht as [Ht|Ht]; by eexists.
    - destruct IH as (x&Hx&Hj). assert (inv s2) as Hi by (eapply reach_inv', reach_app; done). eapply join_step; try done. destruct (grow _ _ _ Hr) as [Hg _]. by apply prefix_length.
  Qed.
End queue.

(** ** Cases *)
Definition q_run (max : nat) (ls : list (qlabel nat)) : option (aqueue nat) := foldl (λ s l, s ← s; qrun max s l) (Some aq_init) ls.
Lemma q_reach max ls s : q_run max ls = Some s → reach (qstep max) aq_init ls s.
Proof.
  revert s. induction ls as [|l ls IH] using rev_ind; intros s H; unfold q_run in *; [simpl in H; simplify_eq; constructor|].
  rewrite foldl_app in H. simpl in H. destruct (foldl _ _ ls) as [s1|] eqn:E; [|done]. eapply reach_snoc; [by apply IH|done].
Qed.
Lemma overtake_case : ∃ s, reach (qstep 25) aq_init overtake_trace s ∧ made overtake_trace !! 25 = Some (OPut 25) ∧ made overtake_trace !! 27 = Some (OPut 99) ∧ 
  is_at s 27 (OPut 99) SDone ∧ pending s 25 (OPut 25) ∧ (q_in s).*2 = seq 0 25 ++ [99].
Proof. eexists. split; [apply q_reach; by vm_compute|by split_and!]. Qed.
Lemma barge_case : ∃ s, reach (qstep 1) aq_init barge_trace s ∧ q_out s = [(3, 5)] ∧ pending s 0 OGet ∧ pending s 1 OGet ∧ q_getters s = [1; 0].
Proof. eexists. split; [apply q_reach; by vm_compute|by split_and!]. Qed.
Lemma join_case : ∃ s, reach (qstep 0) aq_init join_trace s ∧ is_at s 1 OJoin SDone ∧ q_items s = [6].
Proof. eexists. split; [apply q_reach; by vm_compute|by split_and!]. Qed.
Lemma pass_case : ∃ s, reach (qstep 1) aq_init pass_trace s ∧ q_in s = [(2, 5)] ∧ q_out s = [(1, 5)] ∧ is_at s 0 OGet SCancelled ∧ is_at s 3 OJoin SDone.
Proof. eexists. split; [apply q_reach; by vm_compute|by split_and!]. Qed.
