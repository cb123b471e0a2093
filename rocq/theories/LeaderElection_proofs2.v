From Verif Require Import Base LeaderElection_model LeaderElection_spec LeaderElection_proofs.
From stdpp Require Import strings.
From Coq Require Import ZArith QArith.
Local Open Scope nat_scope.

(** an elector that leads, or whose creation of the config map succeeded *)
Definition made (p : phase) : bool := match p with EServed _ (RCreate _) (Some _) => true | _ => false end.
Definition consumed (e : elector) : bool := e_task e || made (e_ph e).
Lemma not_asks_made e : ¬ asks_create e → made (e_ph e) = false.
Proof. unfold asks_create. destruct (e_ph e); try done. Qed.
Lemma try_done_task c o e : a_raw (e_at e) = None → c = Acquiring ∨ c = Renewing →
  e_task (try_done c o e) = true → e_task e = true ∨ o = OBool true.
Proof.
  intros Hr [->| ->].
  - rewrite try_done_acquiring. unfold acquire_done. destruct o as [[]|]; simpl; auto.
  - rewrite try_done_renewing. destruct o as [[]|]; simpl; auto.
    intros H. destruct (renew_left_good (Some AttributeError) e Hr eq_refl) as (_&Ht&_). rewrite Ht in H. auto.
Qed.
Lemma try_done_consumed c o e : a_raw (e_at e) = None → c = Acquiring ∨ c = Renewing →
  consumed (try_done c o e) = true → e_task e = true ∨ o = OBool true.
Proof.
  intros Hr Hc. unfold consumed. rewrite (not_asks_made (try_done c o e)) by by apply try_done_not_asks.
  rewrite orb_false_r. by apply try_done_task.
Qed.
Lemma consumed_task e : e_task e = true → consumed e = true.
Proof. unfold consumed. by intros ->. Qed.
(** which elector changes, and when it may become one of those *)
Lemma consumed_step w l w' : winv w → lstep w l w' →
  w_es w' = w_es w ∨ ∃ i e e', w_es w !! i = Some e ∧ w_es w' = <[i:=e']> (w_es w) ∧
    (consumed e' = true → consumed e = true ∨ ∃ r, l = LServe i (RCreate r) true).
Proof.
  intros Hw Hs. pose proof Hw as [H1 H2].
  destruct Hs as [i e He Hp|i e c now t fault He Hp|i e c q He Hp ok|i e c q ok t lost He Hp|i e c q t He Hp|i e c He Hp|i e He|i e He Ht|i e x He Hp Ht|i e x He Hp|qs1 q qs2 Hqs|cm Hc|a];
    try (destruct (H1 _ _ He) as [Hr Hg]); try rewrite Hp in Hg; try (simpl in Hg);
    try (right; exists i, e; eexists; split; [done|]; split; [by simpl; rewrite ?(proj1 (served_eq _ _))|]); try by left.
  - unfold consumed. rewrite Hp. simpl. auto.
  - pose proof (after_get_good (e_cfg e) (e_at e) now t (if fault then None else w_cm w) Hr) as [Hr' Hn'].
    destruct (after_get _ _ _ _ _) as [a n]. simpl in *. destruct n as [o|q].
    + intros [?|Ho]%try_done_consumed; [|subst; destruct Hn'; congruence|done|done]. left. by apply consumed_task.
    + unfold consumed. simpl. rewrite orb_false_r. intros ->. by left.
  - destruct Hg as [_ [r ->]]. unfold consumed. rewrite Hp. simpl. rewrite !orb_false_r. subst ok.
    destruct (serve (w_rv w) (RCreate r) (w_cm w)) eqn:Hsv; [|rewrite orb_false_r; auto]. intros _. right. exists r. by rewrite bool_decide_eq_true_2 by eauto.
  - destruct Hg as [Hc [r ->]]. intros H. left.
    destruct lost; simpl in *.
    + apply try_done_consumed in H as [?|?]; [|done..]. by apply consumed_task.
    + destruct ok; simpl in *; [unfold consumed; rewrite Hp; by rewrite orb_true_r|]. apply try_done_consumed in H as [?|?]; [|done..]. by apply consumed_task.
  - intros H. left. apply try_done_consumed in H as [?|?]; [|naive_solver..]. by apply consumed_task.
  - unfold consumed. destruct Hp as [[Hp _]|[[Hp|Hp] _]]; rewrite Hp; simpl; auto.
  - intros H. left. unfold cancelled in H.
    assert (∀ c, c = Acquiring ∨ c = Renewing → consumed (try_done c (ORaise Cancelled) e) = true → consumed e = true) as Htd.
    { intros c Hc [Ht|?]%try_done_consumed; [|done..]. unfold consumed. by rewrite Ht. }
    assert (∀ x, consumed (to (EEnded x) (e_at e) e) = true → consumed e = true) as Hte.
    { intros x. unfold consumed. simpl. rewrite orb_false_r. by intros ->. }
    destruct (e_ph e) as [ |c|c q|c q ok| | | |x|x]; simpl in Hg; eauto; naive_solver.
  - unfold consumed. simpl. intros ->. left. by rewrite orb_true_r.
  - unfold consumed. simpl. rewrite orb_false_r. intros ->. auto.
  - unfold consumed. simpl. rewrite orb_false_r. intros ->. auto.
  - left. by rewrite (proj1 (served_eq _ _)).
Qed.
Lemma leaders_creates a cs tr w : reach lstep (world_init a cs) tr w → leaders w ≤ creates tr.
Proof.
  intros H. enough (winv w ∧ countb consumed (w_es w) ≤ creates tr) as [_ Hle].
  { etrans; [|exact Hle]. unfold leaders. generalize (w_es w). intros l. induction l as [|e l IH]; [done|]. rewrite !countb_cons.
    unfold consumed at 1. destruct (e_task e); simpl; [lia|]. destruct (made (e_ph e)); lia. }
  apply (reach_trace_inv lstep (λ tr w, winv w ∧ countb consumed (w_es w) ≤ creates tr) (world_init a cs) tr w); [| |done].
  - split; [apply init_inv|]. simpl. enough (countb consumed ((λ c, Elec c ENew attrs_init false) <$> cs) = 0) by lia.
    clear H. induction cs as [|c cs IH]; [done|]. csimpl. rewrite countb_cons. apply IH.
  - intros tr1 w1 l w2 _ [Hi IH] Hs. split; [by eapply winv_step|].
    unfold creates in *. rewrite count_snoc. destruct (consumed_step _ _ _ Hi Hs) as [->|(i&e&e'&He&->&Hc)]; [lia|].
    pose proof (countb_insert consumed _ i e e' He). destruct (consumed e') eqn:E; [|destruct (consumed e); lia].
    destruct (Hc eq_refl) as [Hce|[r ->]]; [rewrite Hce in *; lia|]. simpl. destruct (consumed e); lia.
Qed.
Lemma leader_created a cs tr w i : reach lstep (world_init a cs) tr w → leads i w → ∃ r, LServe i (RCreate r) true ∈ tr.
Proof.
  intros H (e&He&Ht).
  enough (winv w ∧ ∀ i e, w_es w !! i = Some e → consumed e = true → ∃ r, LServe i (RCreate r) true ∈ tr) as [_ HP].
  { apply (HP i e He). unfold consumed. by rewrite Ht. }
  clear i e He Ht.
  apply (reach_trace_inv lstep (λ tr w, winv w ∧ ∀ i e, w_es w !! i = Some e → consumed e = true → ∃ r, LServe i (RCreate r) true ∈ tr) (world_init a cs) tr w); [| |done].
  - split; [apply init_inv|]. intros i e. simpl. rewrite list_lookup_fmap. by intros (c&_&->)%fmap_Some.
  - intros tr1 w1 l w2 _ [Hi IH] Hs. split; [by eapply winv_step|]. intros i e He Hc.
    assert (Hm : ∀ r, LServe i (RCreate r) true ∈ tr1 → ∃ r, LServe i (RCreate r) true ∈ tr1 ++ [l]).
    { intros r Hr. exists r. apply elem_of_app. by left. }
    destruct (consumed_step _ _ _ Hi Hs) as [Heq|(j&e0&e'&He0&Heq&Hc')].
    { rewrite Heq in He. destruct (IH _ _ He Hc) as [r Hr]. eauto. }
    rewrite Heq in He. apply list_lookup_insert_Some in He as [(->&->&_)|(Hne&He)]; [|destruct (IH _ _ He Hc); eauto].
    destruct (Hc' Hc) as [Hc0|[r ->]]; [destruct (IH _ _ He0 Hc0); eauto|]. exists r. apply elem_of_app. right. by left.
Qed.

(** a deletion lies between two creations, and before the first *)
Lemma elem_of_deletes tr : 0 < deletes tr → LDelete ∈ tr.
Proof.
  unfold deletes. induction tr as [|l tr IH]; rewrite ?countb_nil, ?countb_cons; [lia|]. destruct l; simpl; intros; try (right; apply IH; lia). left.
Qed.
Lemma between_creates a cs tr1 c1 tr2 c2 tr3 w : reach lstep (world_init a cs) (tr1 ++ c1 :: tr2 ++ c2 :: tr3) w → is_create c1 = true → is_create c2 = true → LDelete ∈ tr2.
Proof.
  intros H H1 H2. apply reach_app_inv in H as (w1&Hr1&H). change (c1 :: tr2 ++ c2 :: tr3) with ([c1] ++ tr2 ++ [c2] ++ tr3) in H.
  apply reach_app_inv in H as (w2&Hr2&H). rewrite app_assoc in H. apply reach_app_inv in H as (w3&Hr3&_).
  pose proof (reach_winv _ _ _ _ Hr1) as Hi1. pose proof (reach_one_inv _ _ _ _ Hr2) as Hs1.
  pose proof (winv_step _ _ _ Hi1 Hs1) as Hi2. pose proof (step_count _ _ _ Hi1 Hs1) as Hc1. pose proof (count_inv _ _ _ Hi2 Hr3) as Hc3.
  rewrite H1 in Hc1. assert (is_set c1 = false) as E1 by by destruct c1. assert (is_delete c1 = false) as E2 by by destruct c1.
  rewrite E1, E2 in Hc1. unfold creates, deletes in Hc3. rewrite !count_snoc in Hc3. rewrite H2 in Hc3.
  assert (is_delete c2 = false) as E3 by by destruct c2. rewrite E3 in Hc3.
  apply elem_of_deletes. unfold deletes. pose proof (present_le w3). lia.
Qed.
Lemma before_create a cs tr1 c1 tr2 w : reach lstep (world_init a cs) (tr1 ++ c1 :: tr2) w → is_create c1 = true → LDelete ∈ tr1.
Proof.
  intros H H1. change (c1 :: tr2) with ([c1] ++ tr2) in H. rewrite app_assoc in H. apply reach_app_inv in H as (w1&H&_).
  apply creates_deletes in H. unfold creates, deletes in H. rewrite !count_snoc in H. rewrite H1 in H.
  assert (is_delete c1 = false) as E2 by by destruct c1. rewrite E2 in H. apply elem_of_deletes. unfold deletes. lia.
Qed.
Lemma leaders_deletes a cs tr w : reach lstep (world_init a cs) tr w → leaders w ≤ deletes tr.
Proof. intros H. etrans; [by eapply leaders_creates|by eapply creates_deletes]. Qed.
Lemma two_leaders_deleted a cs tr w i j : reach lstep (world_init a cs) tr w → leads i w → leads j w → i ≠ j →
  ∃ tr1 tr2 tr3 r k k', tr = tr1 ++ LServe k (RCreate r) true :: tr2 ++ LDelete :: tr3 ∧ (k = i ∧ k' = j ∨ k = j ∧ k' = i) ∧ ∃ r', LServe k' (RCreate r') true ∈ tr3.
Proof.
  intros H Hi Hj Hne. destruct (leader_created _ _ _ _ _ H Hi) as [r1 M1]. destruct (leader_created _ _ _ _ _ H Hj) as [r2 M2].
  apply elem_of_list_split in M1 as (t1&t2&->). apply elem_of_app in M2 as [M2|[M2|M2]%elem_of_cons].
  - apply elem_of_list_split in M2 as (t3&t4&->). rewrite <-app_assoc in H. simpl in H.
    pose proof (between_creates _ _ _ _ _ _ _ _ H eq_refl eq_refl) as Hd. apply elem_of_list_split in Hd as (t5&t6&->).
    exists t3, t5, (t6 ++ LServe i (RCreate r1) true :: t2), r2, j, i. split; [by simplify_list_eq|]. split; [auto|]. exists r1. apply elem_of_app. right. left.
  - congruence.
  - apply elem_of_list_split in M2 as (t3&t4&->).
    pose proof (between_creates _ _ _ _ _ _ _ _ H eq_refl eq_refl) as Hd. apply elem_of_list_split in Hd as (t5&t6&->).
    exists t1, t5, (t6 ++ LServe j (RCreate r2) true :: t4), r1, i, j. split; [by simplify_list_eq|]. split; [auto|]. exists r2. apply elem_of_app. right. left.
Qed.

(** renewing *)
Lemma never_updates a cs tr w l : reach lstep (world_init a cs) tr w → l ∈ tr → is_update l = false.
Proof.
  intros H Hl. enough (winv w ∧ ∀ l, l ∈ tr → is_update l = false) as [_ HP] by by apply HP.
  apply (reach_trace_inv lstep (λ tr w, winv w ∧ ∀ l, l ∈ tr → is_update l = false) (world_init a cs) tr w); [| |done].
  - split; [apply init_inv|]. by intros ? ?%elem_of_nil.
  - intros tr1 w1 l1 w2 _ [Hi IH] Hs. split; [by eapply winv_step|]. intros l2 [?| ->%elem_of_list_singleton]%elem_of_app; [by apply IH|].
    destruct Hi as [H1 H2]. destruct Hs as [ | |i e c q He Hp ok| | | | | | | |qs1 q qs2 Hq| |]; try done.
    + destruct (H1 _ _ He) as [_ Hg]. rewrite Hp in Hg. by destruct Hg as [_ [r ->]].
    + destruct (H2 q) as [r ->]; [rewrite Hq; apply elem_of_app; right; left|]. done.
Qed.
Lemma answered_stops a cs tr w i now t w' : reach lstep (world_init a cs) tr w → renewing i w →
  (∃ rv r, w_cm w = Some (CMap rv (AnnKey (RawObj r)))) → lstep w (LGet i now t false) w' → stopping i (Some AttributeError) w'.
Proof.
  intros H (e&He&Hp) (rv&r&Hc) Hs. apply reach_winv in H as [H1 _]. destruct (H1 _ _ He) as [Hr _].
  inversion Hs as [|j e' c now' t' f He' Hp' E1 E2| | | | | | | | | | |]; subst.
  assert (e' = e) as -> by congruence. assert (c = Renewing) as -> by congruence.
  rewrite Hc. unfold after_get. simpl. rewrite Hr. simpl. unfold stopping. simpl.
  eexists. split; [by apply list_lookup_insert; eapply lookup_lt_Some|].
  rewrite report_raises. by apply (renew_left_good (Some AttributeError)).
Qed.
(** while the object is there, an attempt to acquire ends run *)
Lemma no_takeover a cs tr w i now t fault w' : reach lstep (world_init a cs) tr w → acquiring i w →
  (∃ rv r, w_cm w = Some (CMap rv (AnnKey (RawObj r)))) → lstep w (LGet i now t fault) w' → run_ended i (Some UnboundLocalError) w'.
Proof.
  intros H (e&He&Hp) (rv&r&Hc) Hs. apply reach_winv in H as [H1 _]. destruct (H1 _ _ He) as [Hr _].
  inversion Hs as [|j e' c now' t' f He' Hp' E1 E2| | | | | | | | | | |]; subst.
  assert (e' = e) as -> by congruence. assert (c = Acquiring) as -> by congruence.
  rewrite Hc. unfold run_ended. destruct fault; simpl.
  - eexists. split; [by apply list_lookup_insert; eapply lookup_lt_Some|]. by rewrite report_raises.
  - unfold after_get. simpl. rewrite Hr. simpl. eexists. split; [by apply list_lookup_insert; eapply lookup_lt_Some|]. done.
Qed.
Lemma no_deletion_nobody a cs tr w : reach lstep (world_init a cs) tr w → LDelete ∉ tr → leaders w = 0.
Proof.
  intros H Hn. pose proof (leaders_deletes _ _ _ _ H). destruct (decide (0 < deletes tr)) as [Hd%elem_of_deletes|]; [done|lia].
Qed.
Lemma ended_raises a cs tr w i x : reach lstep (world_init a cs) tr w → run_ended i x w → is_Some x.
Proof. intros H (e&He&Hp). apply reach_winv in H as [H1 _]. destruct (H1 _ _ He) as [_ Hg]. by rewrite Hp in Hg. Qed.
Lemma stopping_attribute a cs tr w i x : reach lstep (world_init a cs) tr w → stopping i x w → x = Some AttributeError.
Proof. intros H (e&He&Hp). apply reach_winv in H as [H1 _]. destruct (H1 _ _ He) as [_ Hg]. by rewrite Hp in Hg. Qed.

(** the task of on_started_leading is over when run ends, unless on_stopped_leading failed or run was cancelled *)
Definition tinv (e : elector) : Prop :=
  match e_ph e with
  | ENew | EGet Acquiring | EReq Acquiring _ | EServed Acquiring _ _ | EAcqWait => e_task e = false
  | EEnded x => x = Some CallbackError ∨ x = Some Cancelled ∨ e_task e = false
  | _ => True
  end.
Lemma try_done_tinv c o e : a_raw (e_at e) = None → c = Acquiring ∨ c = Renewing → (c = Acquiring → e_task e = false) → tinv (try_done c o e).
Proof.
  intros Hr [->| ->] Ht.
  - rewrite try_done_acquiring. unfold acquire_done, tinv. destruct o as [[]|]; simpl; auto.
  - rewrite try_done_renewing. destruct o as [[]|]; [|done|].
    all: destruct (renew_left_good (Some AttributeError) e Hr eq_refl) as (_&_&_&Hp); unfold tinv; by rewrite Hp.
Qed.
Lemma set_e_tinv i e w : (∀ j e', w_es w !! j = Some e' → tinv e') → tinv e → ∀ j e', w_es (set_e i e w) !! j = Some e' → tinv e'.
Proof. intros H He j e'. simpl. intros [(->&->&_)|(_&?)]%list_lookup_insert_Some; eauto. Qed.
Lemma tinv_step w l w' : winv w → (∀ i e, w_es w !! i = Some e → tinv e) → lstep w l w' → ∀ i e, w_es w' !! i = Some e → tinv e.
Proof.
  intros Hw HT Hs. pose proof Hw as [H1 H2].
  destruct Hs as [i e He Hp|i e c now t fault He Hp|i e c q He Hp ok|i e c q ok t lost He Hp|i e c q t He Hp|i e c He Hp|i e He|i e He Ht|i e x He Hp Ht|i e x He Hp|qs1 q qs2 Hq|cm Hc|a];
    try (destruct (H1 _ _ He) as [Hr Hg]; pose proof (HT _ _ He) as Hte; unfold tinv in Hte; try rewrite Hp in Hg, Hte; simpl in Hg).
  - apply set_e_tinv; [done|]. done.
  - apply set_e_tinv; [done|].
    pose proof (after_get_good (e_cfg e) (e_at e) now t (if fault then None else w_cm w) Hr) as [Hr' Hn].
    destruct (after_get _ _ _ _ _) as [a n]. simpl in *. destruct n as [o|q].
    + apply try_done_tinv; [done|done|]. simpl. by intros ->.
    + unfold tinv. simpl. by destruct c.
  - apply set_e_tinv; [by rewrite (proj1 (served_eq q w))|]. unfold tinv. simpl. by destruct c.
  - apply set_e_tinv; [done|]. destruct Hg as [Hc _].
    destruct lost; simpl; [|destruct ok]; (apply try_done_tinv; [done|done|]; simpl; by intros ->).
  - destruct Hg as [Hc Hq]. apply (set_e_tinv i (try_done c (OBool false) e) w); [done|]. apply try_done_tinv; [done|done|]. by intros ->.
  - apply set_e_tinv; [done|]. destruct Hp as [[Hp ->]|[[Hp|Hp] ->]]; unfold tinv; simpl; try done. by rewrite Hp in Hte.
  - apply (set_e_tinv i (cancelled e) w); [done|]. unfold cancelled.
    destruct (e_ph e) as [ |c|c q|c q ok| | | |x|x] eqn:Hph; simpl in Hg; try done.
    + unfold tinv. simpl. auto.
    + apply try_done_tinv; [done|done|]. by intros ->.
    + apply try_done_tinv; [done|by destruct Hg|]. by intros ->.
    + apply try_done_tinv; [done|by destruct Hg|]. by intros ->.
    + apply try_done_tinv; [done|by right|done].
    + unfold tinv. simpl. auto.
    + unfold tinv. by rewrite Hph.
  - apply set_e_tinv; [done|]. unfold tinv. simpl. destruct (e_ph e) as [ |[]|[]|[]| | | | |]; auto.
  - apply set_e_tinv; [done|]. unfold tinv. simpl. auto.
  - apply set_e_tinv; [done|]. unfold tinv. simpl. auto.
  - by rewrite (proj1 (served_eq _ _)).
  - done.
  - done.
Qed.
Lemma ended_not_leading a cs tr w i x : reach lstep (world_init a cs) tr w → run_ended i x w → x ≠ Some CallbackError → x ≠ Some Cancelled → ¬ leads i w.
Proof.
  intros H (e&He&Hp) Hx1 Hx2 (e'&He'&Ht). assert (e' = e) as -> by congruence.
  enough (winv w ∧ ∀ i e, w_es w !! i = Some e → tinv e) as [_ HT].
  { specialize (HT _ _ He). unfold tinv in HT. rewrite Hp in HT. destruct HT as [?|[?|?]]; congruence. }
  apply (reach_inv lstep (λ w, winv w ∧ ∀ i e, w_es w !! i = Some e → tinv e) (world_init a cs) tr w); [| |done].
  - intros s l s' [Hw HT] Hs. split; [by eapply winv_step|by eapply tinv_step].
  - split; [apply init_inv|]. intros j e'. simpl. rewrite list_lookup_fmap. by intros (c&_&->)%fmap_Some.
Qed.

(** cases *)
Ltac cstate := match goal with |- reach ?t ?s ?l ?u => let s' := eval vm_compute in s in
  refine (eq_ind_r (λ x, reach t x l u) _ (_ : s = s')); [|vm_compute; reflexivity] end.
Lemma do_serve w i e c q b : w_es w !! i = Some e → e_ph e = EReq c q → bool_decide (is_Some (serve (w_rv w) q (w_cm w))) = b →
  lstep w (LServe i q b) (set_e i (to (EServed c q (serve (w_rv w) q (w_cm w))) (e_at e) e) (served q w)).
Proof. intros He Hp <-. by apply (l_serve w i e c q). Qed.
Tactic Notation "go" tactic3(tac) := eapply reach_cons; [tac|]; cstate.
Definition c1 : ecfg := ECfg "a"%string 15 false.
Definition c2 : ecfg := ECfg "b"%string 15 false.
Definition rec1 : lrec := LRec (Some "a"%string) (Some 5%Z) None.
Definition rec2 : lrec := LRec (Some "b"%string) (Some 6%Z) None.
Definition two_trace : list label :=
  [LStart 0; LStart 1; LGet 0 5 5 false; LGet 1 6 6 false; LDelete; LServe 0 (RCreate rec1) true; LReply 0 7 false;
   LDelete; LServe 1 (RCreate rec2) true; LReply 1 8 false].
Lemma two_leaders : ∃ w, reach lstep (world_init (Some AnnNone) [c1; c2]) two_trace w ∧ leads 0 w ∧ leads 1 w.
Proof.
  eexists. split.
  - unfold two_trace. go (by eapply (l_start _ 0)). go (by eapply (l_start _ 1)).
    go (by eapply (l_get _ 0)). go (by eapply (l_get _ 1)). go (by eapply l_delete).
    go (by eapply (do_serve _ 0)). go (by eapply (l_reply _ 0)). go (by eapply l_delete).
    go (by eapply (do_serve _ 1)). go (by eapply (l_reply _ 1)). apply reach_nil.
  - split; eexists; (split; [reflexivity|reflexivity]).
Qed.
Definition one_trace : list label :=
  [LStart 0; LGet 0 5 5 false; LDelete; LServe 0 (RCreate rec1) true; LReply 0 7 false].
Definition one_trace' : list label := [LGet 0 8 8 false; LTaskDone 0; LFinish 0 true].
Lemma healthy_stops : ∃ w w', reach lstep (world_init (Some AnnNone) [c1]) one_trace w ∧ leads 0 w ∧ holds 0 w ∧
  reach lstep w one_trace' w' ∧ holds 0 w' ∧ run_ended 0 (Some AttributeError) w' ∧ leaders w' = 0.
Proof.
  eexists _, _. split; [|split; [|split; [|split; [|split; [|split]]]]].
  - unfold one_trace. go (by eapply (l_start _ 0)).
    go (by eapply (l_get _ 0)). go (by eapply l_delete).
    go (by eapply (do_serve _ 0)). go (by eapply (l_reply _ 0)). apply reach_nil.
  - eexists; (split; [reflexivity|reflexivity]).
  - eexists _, _, _. split; [reflexivity|]. split; reflexivity.
  - unfold one_trace'. go (by eapply (l_get _ 0)). go (by eapply (l_task _ 0)). go (by eapply (l_finish _ 0)). apply reach_nil.
  - eexists _, _, _. split; [reflexivity|]. split; reflexivity.
  - eexists; (split; [reflexivity|reflexivity]).
  - reflexivity.
Qed.
(** a leader that never reaches the server leads on *)
Lemma unreachable_leads w i : renewing i w → leads i w → ∀ n : nat, ∃ tr w', reach lstep w tr w' ∧ length tr = 2 * n ∧ (∀ l, l ∈ tr → l = LGet i 0 0 true ∨ l = LTick i) ∧ leads i w' ∧ renewing i w'.
Proof.
  intros Hr Hl n. induction n as [|n IH].
  - exists [], w. split; [constructor|]. split; [done|]. split; [by intros ? ?%elem_of_nil|]. done.
  - destruct IH as (tr&w'&Hre&Hlen&Hall&(e&He&Ht)&(e'&He'&Hp)). assert (e' = e) as -> by congruence.
    pose proof (lookup_lt_Some _ _ _ He) as Hlt.
    set (e1 := to ERenWait (e_at e) e). set (w1 := set_e i e1 w'). set (w2 := set_e i (to (EGet Renewing) (e_at e1) e1) w1).
    exists (tr ++ [LGet i 0 0 true; LTick i]), w2. split; [|split; [|split; [|split]]].
    + eapply reach_app; [exact Hre|]. eapply (reach_cons _ _ _ w1).
      { pose proof (l_get w' i e Renewing 0 0 true He Hp) as Hg. simpl in Hg. exact Hg. }
      apply reach_one. apply (l_tick w1 i e1 Renewing); [by apply list_lookup_insert|]. right. split; [by left|done].
    + rewrite app_length. simpl. lia.
    + intros l [?|Hl']%elem_of_app; [by apply Hall|]. apply elem_of_cons in Hl' as [->| ->%elem_of_list_singleton]; auto.
    + eexists. split; [apply list_lookup_insert; simpl; by rewrite insert_length|]. done.
    + eexists. split; [apply list_lookup_insert; simpl; by rewrite insert_length|]. done.
Qed.
(** on_stopped_leading raises: run is over, the task of on_started_leading is not *)
Definition raise_trace : list label := one_trace ++ [LGet 0 8 8 false; LFinish 0 false].
Lemma ended_leading : ∃ w, reach lstep (world_init (Some AnnNone) [c1]) raise_trace w ∧ run_ended 0 (Some CallbackError) w ∧ leads 0 w.
Proof.
  eexists. split; [|split].
  - unfold raise_trace, one_trace. simpl. go (by eapply (l_start _ 0)).
    go (by eapply (l_get _ 0)). go (by eapply l_delete).
    go (by eapply (do_serve _ 0)). go (by eapply (l_reply _ 0)). go (by eapply (l_get _ 0)). go (by eapply (l_finish_raise _ 0)). apply reach_nil.
  - eexists; (split; [reflexivity|reflexivity]).
  - eexists; (split; [reflexivity|reflexivity]).
Qed.
(** a server that has no object: nobody acquires, run raises *)
Definition miss_trace : list label := [LStart 0; LGet 0 5 5 false].
Lemma missing_raises : ∃ w, reach lstep (world_init None [c1]) miss_trace w ∧ run_ended 0 (Some UnboundLocalError) w ∧ leaders w = 0.
Proof.
  eexists. split; [|split].
  - unfold miss_trace. go (by eapply (l_start _ 0)). go (by eapply (l_get _ 0)). apply reach_nil.
  - eexists; (split; [reflexivity|reflexivity]).
  - reflexivity.
Qed.
(** the configuration of the defaults *)
Definition lec_case : lec := Lec (15 # 1) (10 # 1) (2 # 1) true true true.
Lemma lec_case_ok : lec_check lec_case = None ∧ lec_check (Lec (15 # 1) (10 # 1) (9 # 1) true true true) = Some ERenew.
Proof. done. Qed.
