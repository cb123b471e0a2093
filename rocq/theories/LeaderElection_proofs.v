From Verif Require Import Base LeaderElection_model LeaderElection_spec.
From Coq Require Import ZArith QArith.

Local Open Scope nat_scope.

(** construction *)
Lemma check_ok c : lec_check c = None ↔ consistent c.
Proof.
  unfold lec_check, consistent, Qleb, jitter_factor.
  destruct (Qle_bool (lec_lease c) (lec_renew c)) eqn:H1; [apply Qle_bool_iff in H1; split; [done|]; intros (_&_&H&_); exfalso; by apply (Qlt_not_le _ _ H)|].
  destruct (Qle_bool (lec_renew c) ((6 # 5) * lec_retry c)) eqn:H2.
  { apply Qle_bool_iff in H2. split; [done|]. intros (_&H&_). exfalso. apply (Qlt_not_le _ _ H). by rewrite Qmult_comm. }
  assert (Hn : ∀ x y, Qle_bool x y = false → (y < x)%Q).
  { intros x y Hxy. apply Qnot_le_lt. intros Hle%Qle_bool_iff. congruence. }
  apply Hn in H1, H2. rewrite Qmult_comm in H2.
  destruct (Qle_bool (lec_retry c) 0) eqn:H5.
  { assert ((lec_retry c <= 0)%Q) as H5' by by apply Qle_bool_iff.
    split; [|intros [H _]; exfalso; by apply (Qlt_not_le _ _ H)].
    intros Hx. exfalso. repeat case_match; done. }
  apply Hn in H5.
  assert ((0 < lec_renew c)%Q) as Hr.
  { eapply Qlt_trans; [|exact H2]. rewrite <-(Qmult_0_l (6 # 5)). by apply Qmult_lt_compat_r. }
  assert ((0 < lec_lease c)%Q) as Hl by by eapply Qlt_trans.
  assert (Hp : ∀ x, (0 < x)%Q → Qle_bool x 0 = false).
  { intros x Hx. destruct (Qle_bool x 0) eqn:He; [|done]. apply Qle_bool_iff in He. exfalso. by apply (Qlt_not_le _ _ Hx). }
  rewrite (Hp _ Hr), (Hp _ Hl).
  destruct (lec_started c), (lec_stopped c), (lec_lock c); simpl; naive_solver.
Qed.

(** is_leader and _maybe_report_transition always raise *)
Lemma holder_raises a : observed_holder a = inl AttributeError.
Proof. unfold observed_holder. by destruct (a_obs a). Qed.
Lemma leader_raises c a : is_leader c a = inl AttributeError.
Proof. unfold is_leader. by rewrite holder_raises. Qed.
Lemma report_raises a : report a = inl AttributeError.
Proof. unfold report. by rewrite holder_raises. Qed.

(** what an elector can be *)
Definition good_ph (p : phase) : Prop :=
  match p with
  | ENew => True
  | EGet c => c = Acquiring ∨ c = Renewing
  | EReq c q | EServed c q _ => (c = Acquiring ∨ c = Renewing) ∧ ∃ r, q = RCreate r
  | EAcqWait | ERenPause => False
  | ERenWait => True
  | EStopping x => x = Some AttributeError
  | EEnded x => is_Some x
  end.
Definition good (e : elector) : Prop := a_raw (e_at e) = None ∧ good_ph (e_ph e).

Lemma renew_left_good x e : a_raw (e_at e) = None → x = Some AttributeError → good (renew_left x e) ∧ e_task (renew_left x e) = e_task e ∧ e_cfg (renew_left x e) = e_cfg e ∧ e_ph (renew_left x e) = EStopping (Some AttributeError).
Proof. intros Hr ->. unfold renew_left. rewrite leader_raises. by destruct (c_release (e_cfg e)). Qed.
Lemma try_done_renewing o e : try_done Renewing o e = match o with OBool false => to ERenWait (e_at e) e | _ => renew_left (Some AttributeError) e end.
Proof. unfold try_done. rewrite report_raises. by destruct o as [[]|[]]. Qed.
Lemma try_done_acquiring o e : try_done Acquiring o e = acquire_done (match o with OBool b => b | _ => false end) e.
Proof. unfold try_done. rewrite report_raises. by destruct o as [[]|[]]. Qed.
Lemma try_done_good c o e : a_raw (e_at e) = None → c = Acquiring ∨ c = Renewing → good (try_done c o e).
Proof.
  intros Hr [->| ->].
  - rewrite try_done_acquiring. unfold acquire_done. destruct o as [[]|]; (split; [done|simpl; eauto]).
  - rewrite try_done_renewing. destruct o as [[]|]; [by apply renew_left_good|by split|by apply renew_left_good].
Qed.
Lemma after_get_good c a now t ans : a_raw a = None →
  a_raw (after_get c a now t ans).1 = None ∧
  match (after_get c a now t ans).2 with
  | NDone o => o = OBool false ∨ o = ORaise AttributeError
  | NAsk q => (∃ r, q = RCreate r) ∧ is_Some ans
  end.
Proof.
  intros Hr. unfold after_get. destruct ans as [[rv an]|]; simpl; [|by auto].
  destruct an as [| | |[]]; simpl; rewrite ?Hr; simpl; eauto 10.
Qed.
Lemma cancelled_good e : good e → good (cancelled e).
Proof.
  intros [Hr Hp]. unfold cancelled. destruct (e_ph e) as [ |c|c q|c q ok| | | |x|x] eqn:Hph; simpl in Hp; try done.
  - split; [done|]. simpl. eauto.
  - by apply try_done_good.
  - apply try_done_good; naive_solver.
  - apply try_done_good; naive_solver.
  - apply try_done_good; auto.
  - split; [done|]. simpl. eauto.
  - split; [done|]. by rewrite Hph.
Qed.

Definition winv (w : world) : Prop :=
  (∀ i e, w_es w !! i = Some e → good e) ∧ (∀ q, q ∈ w_orphans w → ∃ r, q = RCreate r).
Lemma set_e_inv w i e : winv w → good e → winv (set_e i e w).
Proof.
  intros [H1 H2] He. split; [|done]. intros j e' Hj. simpl in Hj.
  destruct (decide (i = j)) as [<-|]; [|rewrite list_lookup_insert_ne in Hj by done; eauto].
  apply list_lookup_insert_Some in Hj as [(?&->&?)|(?&?)]; [done|congruence].
Qed.
Lemma served_eq q w : w_es (served q w) = w_es w ∧ w_orphans (served q w) = w_orphans w.
Proof. unfold served. by case_match. Qed.
Lemma winv_step w l w' : winv w → lstep w l w' → winv w'.
Proof.
  intros Hw Hs. pose proof Hw as [H1 H2].
  destruct Hs as [i e He Hp|i e c now t fault He Hp|i e c q He Hp ok|i e c q ok t lost He Hp|i e c q t He Hp|i e c He Hp|i e He|i e He Ht|i e x He Hp Ht|i e x He Hp|qs1 q qs2 Hq|cm Hc|a];
    try (destruct (H1 _ _ He) as [Hr Hg]; try rewrite Hp in Hg; simpl in Hg).
  - apply set_e_inv; [done|]. split; [done|]. simpl. auto.
  - apply set_e_inv; [done|].
    pose proof (after_get_good (e_cfg e) (e_at e) now t (if fault then None else w_cm w) Hr) as [Hr' Hn].
    destruct (after_get _ _ _ _ _) as [a n]. simpl in *. destruct n as [o|q]; [by apply try_done_good|]. destruct Hn as [? _]. split; [done|]. simpl. auto.
  - apply set_e_inv; [|by split]. destruct (served_eq q w) as [E1 E2]. split; rewrite ?E1, ?E2; done.
  - apply set_e_inv; [done|]. destruct Hg as [Hc _]. destruct lost; simpl; [by apply try_done_good|]. destruct ok; by apply try_done_good.
  - destruct Hg as [Hc Hq]. destruct (set_e_inv w i (try_done c (OBool false) e) Hw) as [A B]; [by apply try_done_good|].
    split; [done|]. simpl. intros q' [?| ->%elem_of_list_singleton]%elem_of_app; eauto.
  - destruct Hp as [[Hp ->]|[[Hp|Hp] ->]]; rewrite Hp in Hg; try done. apply set_e_inv; [done|]. split; [done|]. simpl. auto.
  - destruct (set_e_inv w i (cancelled e) Hw) as [A B]; [by apply cancelled_good|].
    split; [done|]. simpl. intros q' [?|Hq']%elem_of_app; [eauto|].
    unfold left_behind in Hq'. destruct (e_ph e) eqn:Hp; try by apply elem_of_nil in Hq'. apply elem_of_list_singleton in Hq' as ->. simpl in Hg. naive_solver.
  - apply set_e_inv; [done|]. split; [done|]. done.
  - subst x. apply set_e_inv; [done|]. split; [done|]. simpl. eauto.
  - apply set_e_inv; [done|]. split; [done|]. simpl. eauto.
  - assert (winv (World (w_cm w) (w_rv w) (qs1 ++ qs2) (w_es w))) as [A B].
    { split; [done|]. simpl. intros q' Hq'. apply H2. rewrite Hq. rewrite elem_of_app in *. rewrite elem_of_cons. naive_solver. }
    destruct (served_eq q (World (w_cm w) (w_rv w) (qs1 ++ qs2) (w_es w))) as [E1 E2]. split; rewrite ?E1, ?E2; done.
  - done.
  - done.
Qed.
Lemma init_inv a cs : winv (world_init a cs).
Proof.
  split; [|simpl; by intros ? ?%elem_of_nil]. intros i e. simpl. rewrite list_lookup_fmap. intros (c&_&->)%fmap_Some. split; done.
Qed.
Lemma reach_winv a cs tr w : reach lstep (world_init a cs) tr w → winv w.
Proof. intros H. apply (reach_inv lstep winv (world_init a cs) tr w); [|apply init_inv|done]. intros. by eapply winv_step. Qed.

(** counting *)
Lemma countb_insert {X} (f : X → bool) l i x y : l !! i = Some x →
  countb f (<[i:=y]> l) + (if f x then 1 else 0) = countb f l + (if f y then 1 else 0).
Proof.
  revert i. induction l as [|z l IH]; intros [|i] Hi; simplify_eq/=; rewrite ?countb_cons; [lia|].
  specialize (IH _ Hi). lia.
Qed.
Definition present (w : world) : nat := match w_cm w with Some _ => 1 | None => 0 end.
Lemma present_le w : present w ≤ 1.
Proof. unfold present. destruct (w_cm w); lia. Qed.
(** somebody else made the config map *)
Definition is_set (l : label) : bool := match l with LSet _ => true | _ => false end.
Lemma count_snoc {X} (f : X → bool) l x : countb f (l ++ [x]) = countb f l + (if f x then 1 else 0).
Proof. rewrite countb_app, countb_cons, countb_nil. lia. Qed.
Lemma served_present q w : (∃ r, q = RCreate r) →
  present (served q w) = present w + (if bool_decide (is_Some (serve (w_rv w) q (w_cm w))) then 1 else 0).
Proof.
  intros [r ->]. unfold served, present. destruct (w_cm w) eqn:Hc; simpl; rewrite ?Hc; done.
Qed.

Lemma set_e_present i e w : present (set_e i e w) = present w. Proof. done. Qed.
Lemma step_count w l w' : winv w → lstep w l w' →
  (if is_create l then 1 else 0) + present w + (if is_set l then 1 else 0) = (if is_delete l then 1 else 0) + present w' + (if is_set l then present w else 0).
Proof.
  intros Hw Hs. pose proof Hw as [H1 H2].
  destruct Hs as [i e He Hp|i e c now t fault He Hp|i e c q He Hp ok|i e c q ok t lost He Hp|i e c q t He Hp|i e c He Hp|i e He|i e He Ht|i e x He Hp Ht|i e x He Hp|qs1 q qs2 Hq|cm Hc|a];
    simpl is_set; simpl is_delete; simpl is_create; rewrite ?set_e_present; try (unfold present; simpl; lia).
  - destruct (H1 _ _ He) as [_ Hg]. rewrite Hp in Hg. destruct Hg as [_ [r ->]]. rewrite served_present by eauto. subst ok. simpl. lia.
  - destruct (H2 q) as [r ->]; [rewrite Hq; apply elem_of_app; right; left|].
    rewrite served_present by eauto. simpl. unfold present. simpl. lia.
  - unfold present. simpl. rewrite Hc. done.
Qed.
Lemma count_inv w tr w' : winv w → reach lstep w tr w' → creates tr + present w ≤ deletes tr + present w'.
Proof.
  intros Hw H. enough (winv w' ∧ creates tr + present w ≤ deletes tr + present w') as [_ ?] by done.
  apply (reach_trace_inv lstep (λ tr w', winv w' ∧ creates tr + present w ≤ deletes tr + present w') w tr w'); [by split| |done].
  intros tr1 w1 l w2 _ [Hi IH] Hs. split; [by eapply winv_step|].
  unfold creates, deletes in *. rewrite !count_snoc. pose proof (step_count _ _ _ Hi Hs). pose proof (present_le w1).
  destruct (is_set l); lia.
Qed.

(** nobody creates before the object was there *)
Definition asks_create (e : elector) : Prop := match e_ph e with EReq _ _ | EServed _ _ _ => True | _ => False end.
Definition quiet_inv (w : world) : Prop :=
  w_cm w = None ∧ w_orphans w = [] ∧ ∀ i e, w_es w !! i = Some e → ¬ asks_create e.
Lemma try_done_not_asks c o e : a_raw (e_at e) = None → c = Acquiring ∨ c = Renewing → ¬ asks_create (try_done c o e).
Proof.
  intros Hr [->| ->].
  - rewrite try_done_acquiring. unfold acquire_done, asks_create. destruct o as [[]|]; simpl; tauto.
  - rewrite try_done_renewing. unfold asks_create. destruct o as [[]|]; [|simpl; tauto|]; destruct (renew_left_good (Some AttributeError) e Hr eq_refl) as (_&_&_&->); tauto.
Qed.
Lemma set_e_quiet i e w : quiet_inv w → ¬ asks_create e → quiet_inv (set_e i e w).
Proof.
  intros (A&B&C) He. split; [done|]. split; [done|]. intros j e' Hj. simpl in Hj.
  destruct (decide (i = j)) as [<-|]; [|rewrite list_lookup_insert_ne in Hj by done; eauto].
  apply list_lookup_insert_Some in Hj as [(?&->&?)|(?&?)]; [done|congruence].
Qed.
Lemma quiet_step w l w' : winv w → quiet_inv w → lstep w l w' → is_set l = false → quiet_inv w' ∧ is_create l = false.
Proof.
  intros Hw Hq Hs Hn. pose proof Hw as [H1 H2]. pose proof Hq as (A&B&C).
  destruct Hs as [i e He Hp|i e c now t fault He Hp|i e c q He Hp ok|i e c q ok t lost He Hp|i e c q t He Hp|i e c He Hp|i e He|i e He Ht|i e x He Hp Ht|i e x He Hp|qs1 q qs2 Hqs|cm Hc|a];
    try (destruct (H1 _ _ He) as [Hr Hg]; pose proof (C _ _ He) as Hna); try rewrite Hp in Hg; try (simpl in Hg).
  - split; [|done]. apply set_e_quiet; [done|]. unfold asks_create. simpl. tauto.
  - split; [|done]. apply set_e_quiet; [done|].
    pose proof (after_get_good (e_cfg e) (e_at e) now t (if fault then None else w_cm w) Hr) as [Hr' Hn'].
    destruct (after_get _ _ _ _ _) as [a n]. simpl in *. destruct n as [o|q]; [by apply try_done_not_asks|].
    destruct Hn' as [_ Hs]. rewrite A in Hs. destruct fault; by destruct Hs.
  - exfalso. apply Hna. unfold asks_create. by rewrite Hp.
  - exfalso. apply Hna. unfold asks_create. by rewrite Hp.
  - exfalso. apply Hna. unfold asks_create. by rewrite Hp.
  - split; [|done]. apply set_e_quiet; [done|]. unfold asks_create. simpl. tauto.
  - split; [|done]. assert (quiet_inv (set_e i (cancelled e) w)) as (A'&B'&C').
    { apply set_e_quiet; [done|]. unfold cancelled. unfold asks_create in Hna.
      destruct (e_ph e) as [ |c|c q|c q ok| | | |x|x] eqn:Hph; simpl in Hg; try (exfalso; by apply Hna).
      - unfold asks_create. simpl. tauto.
      - by apply try_done_not_asks.
      - apply try_done_not_asks; auto.
      - unfold asks_create. simpl. tauto.
      - unfold asks_create. by rewrite Hph. }
    split; [done|]. split; [|done]. simpl. rewrite B. simpl. unfold left_behind. unfold asks_create in Hna. destruct (e_ph e); try done.
  - split; [|done]. apply set_e_quiet; [done|]. unfold asks_create in *. done.
  - split; [|done]. apply set_e_quiet; [done|]. unfold asks_create. simpl. tauto.
  - split; [|done]. apply set_e_quiet; [done|]. unfold asks_create. simpl. tauto.
  - rewrite B in Hqs. by destruct qs1.
  - congruence.
  - done.
Qed.
Definition quiet_or (a : option annotations) (tr : list label) (w : world) : Prop :=
  winv w ∧ ((quiet_inv w ∧ creates tr = 0) ∨ creates tr + 1 ≤ deletes tr + present w).
Lemma creates_deletes a cs tr w : reach lstep (world_init a cs) tr w → creates tr ≤ deletes tr.
Proof.
  intros H. enough (quiet_or a tr w) as [_ [[_ ->]|Hle]].
  { lia. } { pose proof (present_le w). lia. }
  apply (reach_trace_inv lstep (quiet_or a) (world_init a cs) tr w); [| |done].
  - split; [apply init_inv|]. destruct a as [an|].
    + right. unfold creates, deletes, present. simpl. lia.
    + left. split; [|done]. split; [done|]. split; [done|]. intros i e. simpl. rewrite list_lookup_fmap. intros (c&_&->)%fmap_Some. unfold asks_create. simpl. tauto.
  - intros tr1 w1 l w2 _ [Hi IH] Hs. split; [by eapply winv_step|].
    unfold creates, deletes in *. rewrite !count_snoc. pose proof (step_count _ _ _ Hi Hs) as Hc.
    pose proof (present_le w1).
    destruct IH as [[Hq Hz]|IH]; [|right; destruct (is_set l); lia].
    destruct (is_set l) eqn:Hset.
    + right. destruct l; try done. simpl in *. inversion Hs; subst. unfold present. simpl. lia.
    + destruct (quiet_step _ _ _ Hi Hq Hs Hset) as [Hq' Hcr]. left. split; [done|]. rewrite Hcr. lia.
Qed.
