(** Proofs about the end of an informer. *)
From Verif Require Import Base Listener_model Listener_spec Listener_proofs InformerStop_model InformerStop_spec.
Ltac icases Hs := destruct Hs as [Hr Ha|Hr|st Hr Hb|n js Hr Hl Hj|n j js ls' Hr Hx|n j js b x Hr Hj Hx|n st Hr|Hr|Hr|Hr|n j js c Hr|Hr|Hr|Hr|Hr|Hf|Hf|Hr Hf|Hr Ha|Hr Hq|Hq Hl|Hq Hst|Hq Hl|Hq Hall|
  |w Hw Ha Hst|w Hw Ha Hst Hr|Ha Hb|Ha Hl|j n ns ls' Ha Hx|j n ns b x Ha Hj Hx|j Ha|a Ha|w Hw|j l ls' x Hj Hl Hx|j l ls' Hl Hx].
Section proofs.
  Context {N : Type}.
  Notation ist := (ist N).
  Notation istep := (istep (N:=N)).
  Implicit Types (s : ist) (l : ilab N) (ls : list (ilab N)).

  Lemma drop_call_step (x : bool * lis N) : lstep x.2 LAddCancel (drop_call x).2.
  Proof. destruct x as [b []]. apply l_cancel. Qed.
  Lemma stop_lis_step (x : bool * lis N) : lstep x.2 LStop (stop_lis x).2.
  Proof. destruct x as [b []]. apply l_stopping. Qed.
  Lemma tasks_task_step (l : llabel N) : of_tasks l = true ∨ of_call l = true ↔ task_step l.
  Proof. destruct l; simpl; naive_solver. Qed.

  (** ** the measure *)
  Definition lis_weight (x : bool * lis N) : nat := weight x.2.
  Definition lweight (xs : list (bool * lis N)) : nat := sum_list_with lis_weight xs.
  Lemma lweight_insert xs j x y : xs !! j = Some x → lweight (<[j:=y]> xs) + lis_weight x = lweight xs + lis_weight y.
  Proof. revert j. induction xs as [|z xs IH]; intros [|j] H; simplify_eq/=; [lia|]. specialize (IH _ H). unfold lweight in *. lia. Qed.
  Lemma lweight_alter xs j f : (∀ x, lis_weight (f x) ≤ lis_weight x) → lweight (alter f j xs) ≤ lweight xs.
  Proof. intros Hf. revert j. induction xs as [|z xs IH]; intros [|j]; simpl; [done|done|specialize (Hf z); lia|]. specialize (IH j). unfold lweight in *. change (lis_weight z + sum_list_with lis_weight (alter f j xs) ≤ lis_weight z + sum_list_with lis_weight xs). lia. Qed.
  Lemma lweight_fmap xs f : (∀ x, lis_weight (f x) = lis_weight x) → lweight (f <$> xs) = lweight xs.
  Proof. intros Hf. induction xs as [|z xs IH]; [done|]. unfold lweight in *. simpl. rewrite Hf. by f_equal. Qed.
  Lemma lweight_app xs ys : lweight (xs ++ ys) = lweight xs + lweight ys.
  Proof. apply sum_list_with_app. Qed.
  Lemma drop_weight x : lis_weight (drop_call x) ≤ lis_weight x.
  Proof. destruct x as [b []]. unfold lis_weight, weight; simpl. unfold got_part, cur_part; simpl. lia. Qed.
  Lemma stop_weight x : lis_weight (stop_lis x) = lis_weight x.
  Proof. by destruct x as [b []]. Qed.

  Definition cost (st : list N) : nat := 8 + 14 * length st.
  Definition aweight (st : list N) (a : option (aphase N)) : nat :=
    match a with
    | None => 0
    | Some ABlock => 3 + cost st
    | Some AReg => 2 + cost st
    | Some (AAll _ [] _) => 1
    | Some (AAll _ (_ :: ns) c) => 1 + 14 * length ns + (if c then 1 else 14)
    end.
  Definition iweight s : nat :=
    match i_run s with RClose => 4 | RRefl => 3 | RStLock => 2 | RProc => 1 | _ => 0 end +
    match i_refl s with FRun _ => 1 | _ => 0 end +
    match i_proc s with QNew => 4 | QWait => 3 | QLock => 2 | QGather => 1 | _ => 0 end +
    lweight (i_lis s) + aweight (i_store s) (i_adder s) + i_waiting s * (4 + cost (i_store s)).
  (** run has been cancelled *)
  Definition past s : Prop := match i_run s with RClose | RRefl | RStLock | RProc | REnd => True | _ => False end.
  Lemma past_step s l s' : past s → istep s l s' → past s'.
  Proof.
    unfold past. intros Hp Hs. icases Hs; simpl; try done; try (rewrite Hr in Hp; done).
    - destruct Hr as [[n Hr]|Hr]; by rewrite Hr in Hp.
    - by destruct (i_stopped s).
    - by destruct a.
  Qed.
  Lemma past_reach ls s : reach istep is_init ls s → ICancel ∈ ls → past s.
  Proof.
    apply (reach_trace_inv istep (λ ls s, ICancel ∈ ls → past s)); [by intros ?%elem_of_nil|]. clear. intros ls s l s' _ IH Hs [Hin|Hin%elem_of_list_singleton]%elem_of_app.
    - eapply past_step; eauto.
    - subst l. by inversion Hs.
  Qed.
  Lemma weight_task j (l : llabel N) (xs xs' : list (bool * lis N)) : lis_step j l xs xs' → task_step l → lweight xs' < lweight xs.
  Proof. intros (b&x&x'&Hj&Hs&->) Ht. apply weight_step in Hs; [|done]. pose proof (lweight_insert _ _ _ (b, x') Hj) as H. unfold lis_weight in H; simpl in H. lia. Qed.
  Lemma weight_add j n (xs xs' : list (bool * lis N)) : lis_step j (LAdd n) xs xs' → lweight xs' = lweight xs + 12.
  Proof.
    intros (b&x&x'&Hj&Hs&->). pose proof (lweight_insert _ _ _ (b, x') Hj) as H. unfold lis_weight in H; simpl in H. inversion Hs; subst. unfold weight in H. unfold got_part, cur_part in H. cbn [l_adder l_addq l_pump l_pend l_nextq l_run] in H. lia.
  Qed.
  Lemma iweight_step s l s' : past s → istep s l s' → calm l → iweight s' < iweight s.
  Proof.
    unfold past. intros Hp Hs [Hc1 Hc2]. unfold iweight. icases Hs; simpl; try done; try (rewrite Hr in Hp; done).
    - destruct Hr as [[n Hr]|Hr]; by rewrite Hr in Hp.
    - destruct Hr as [Hr|[Hr|[Hr|[n Hr]]]]; by rewrite Hr in Hp.
    - rewrite Hr. lia.
    - rewrite Hf. lia.
    - rewrite Hf. lia.
    - rewrite Hr. lia.
    - rewrite Hr. lia.
    - rewrite Hr. lia.
    - rewrite Hq, lweight_fmap by done. lia.
    - rewrite Hq. lia.
    - rewrite Hq, lweight_fmap by apply stop_weight. lia.
    - rewrite Hq. lia.
    - rewrite Hw. destruct (i_stopped s); simpl; rewrite ?lweight_app, Ha; change (lweight [(false, lis_init)]) with 7; unfold cost; simpl; lia.
    - rewrite Hw, Ha. simpl. unfold cost. lia.
    - rewrite Ha. simpl. lia.
    - rewrite Ha, lweight_app. change (lweight [(listeners_started s, lis_init)]) with 7. simpl. unfold cost. destruct (i_store s); simpl; lia.
    - rewrite Ha. rewrite (weight_add _ _ _ _ Hx). simpl. lia.
    - rewrite Ha. simpl. destruct ns; simpl; lia.
    - rewrite Ha. simpl. lia.
    - rewrite Ha. destruct a as [| |j ns c]; simpl; unfold cost; try lia. pose proof (lweight_alter (i_lis s) j _ drop_weight). destruct ns, c; lia.
    - rewrite Hw. unfold cost. lia.
    - assert (task_step l) by (apply tasks_task_step; by left). pose proof (weight_task _ _ _ _ Hx H). lia.
    - assert (task_step l) by (apply tasks_task_step; by right). pose proof (weight_task _ _ _ _ Hx H). lia.
  Qed.
  Lemma iweight_reach s ls s' : past s → reach istep s ls s' → (∀ l, l ∈ ls → calm l) → length ls + iweight s' ≤ iweight s.
  Proof.
    intros Hp. induction 1 as [|ls s1 l s2 Hr IH Hs]; intros Hin; [simpl; lia|]. assert (past s1) by (eapply (reach_inv istep past); [apply past_step|exact Hp|exact Hr]).
    assert (length ls + iweight s1 ≤ iweight s) by (apply IH; intros; apply Hin, elem_of_app; by left).
    assert (iweight s2 < iweight s1) by (eapply iweight_step; [done|done|]; apply Hin, elem_of_app; right; by apply elem_of_list_singleton). rewrite app_length. simpl. lia.
  Qed.

  (** ** what holds in every state *)
  Definition busy_ok s : Prop := ∀ k b x, i_lis s !! k = Some (b, x) → l_adder x ≠ AIdle → (∃ n js, i_run s = RAdd n (k :: js) true) ∨ (∃ ns, i_adder s = Some (AAll k ns true)).
  Definition has_block_run (r : rphase N) : Prop := match r with RDist | RAdd _ _ _ => True | _ => False end.
  Definition has_block_adder (a : option (aphase N)) : Prop := match a with Some AReg | Some (AAll _ _ _) => True | _ => False end.
  Definition processing (r : rphase N) : Prop := match r with RLock | RPop | RBlock | RDist | RAdd _ _ _ => True | _ => False end.
  Record inv s : Prop := {
    v_shape : Forall (λ x, shape x.2) (i_lis s);
    v_stop : match i_proc s with QGather | QEnd => Forall (λ x, l_stop x.2 = true) (i_lis s) | _ => Forall (λ x, l_stop x.2 = false) (i_lis s) end;
    v_made : Forall (λ x, x.1 = listeners_started s) (i_lis s);
    v_over : i_proc s = QEnd → Forall lis_ended (i_lis s);
    v_stopped : i_stopped s = true → i_adder s = None ∧ (i_run s = RProc ∨ i_run s = REnd) ∧ i_proc s ≠ QNone;
    v_unstopped : i_stopped s = false → match i_proc s with QNone | QNew | QWait => True | _ => False end;
    v_none : i_proc s = QNone → i_adder s = None ∧ (i_run s = RLock ∨ i_run s = REnd);
    v_proc : i_run s = RProc → i_stopped s = true;
    v_busy : busy_ok s;
    v_excl : has_block_run (i_run s) → has_block_adder (i_adder s) → False;
    v_adder : match i_adder s with Some (AAll j ns c) => j < length (i_lis s) ∧ (c = true → ns ≠ []) | _ => True end;
    v_run : match i_run s with RAdd n js c => Forall (λ j, j < length (i_lis s)) js | _ => True end;
    v_lock : i_run s = RLock → i_proc s = QNone
  }.
  Lemma inv_init : inv is_init.
  Proof. split; try done; try constructor; try done. by left. Qed.

  Lemma lis_step_length j (l : llabel N) xs xs' : lis_step j l xs xs' → length xs' = length xs.
  Proof. intros (b&x&x'&Hj&Hs&->). by rewrite insert_length. Qed.
  Lemma lis_step_shape j (l : llabel N) xs xs' : lis_step j l xs xs' → Forall (λ x, shape x.2) xs → Forall (λ x : bool * lis N, shape x.2) xs'.
  Proof. intros (b&x&x'&Hj&Hs&->) H. apply Forall_insert; [done|]. eapply shape_step; [|exact Hs]. by apply (Forall_lookup_1 _ _ _ _ H Hj). Qed.
  Lemma lis_step_stop j (l : llabel N) xs xs' c : lis_step j l xs xs' → l ≠ LStop → Forall (λ x, l_stop x.2 = c) xs → Forall (λ x : bool * lis N, l_stop x.2 = c) xs'.
  Proof.
    intros (b&x&x'&Hj&Hs&->) Hl H. apply Forall_insert; [done|]. pose proof (Forall_lookup_1 _ _ _ _ H Hj) as Hx. simpl in *.
    destruct Hs; simpl in *; try done. by destruct got, cur.
  Qed.
  Lemma lis_step_made j (l : llabel N) xs xs' c : lis_step j l xs xs' → Forall (λ x, x.1 = c) xs → Forall (λ x : bool * lis N, x.1 = c) xs'.
  Proof. intros (b&x&x'&Hj&Hs&->) H. apply Forall_insert; [done|]. by apply (Forall_lookup_1 _ _ _ _ H Hj). Qed.
  Lemma lis_step_over j (l : llabel N) xs xs' : lis_step j l xs xs' → Forall lis_ended xs → Forall (lis_ended (N:=N)) xs'.
  Proof.
    intros (b&x&x'&Hj&Hs&->) H. apply Forall_insert; [done|]. pose proof (Forall_lookup_1 _ _ _ _ H Hj) as Hx. intros Hb. specialize (Hx Hb) as [H1 H2]. simpl in *.
    destruct Hs; simpl in *; try done; simplify_eq.
  Qed.
  Lemma lis_step_adder j (l : llabel N) xs xs' k b x : lis_step j l xs xs' → of_tasks l = true ∨ of_call l = true → xs' !! k = Some (b, x) → l_adder x ≠ AIdle → ∃ x0, xs !! k = Some (b, x0) ∧ l_adder x0 ≠ AIdle.
  Proof.
    intros (b'&y&y'&Hj&Hs&->) Hl Hk Hx. destruct (decide (k = j)) as [->|Hne]; [|rewrite list_lookup_insert_ne in Hk by done; by exists x].
    rewrite list_lookup_insert in Hk by by apply lookup_lt_Some in Hj. injection Hk as <- <-. exists y. split; [done|]. destruct Hs; simpl in *; try done; try (destruct Hl; done). by destruct got, cur.
  Qed.
  Lemma lis_step_adder_add j n xs xs' k b (x : lis N) : lis_step j (LAdd n) xs xs' → xs' !! k = Some (b, x) → l_adder x ≠ AIdle → k = j ∨ xs !! k = Some (b, x).
  Proof. intros (b'&y&y'&Hj&Hs&->) Hk Hx. destruct (decide (k = j)) as [->|Hne]; [by left|]. rewrite list_lookup_insert_ne in Hk by done. by right. Qed.
  Lemma drop_forall (P : bool * lis N → Prop) (j : nat) (xs : list (bool * lis N)) : (∀ x, P x → P (drop_call x)) → Forall P xs → Forall P (alter drop_call j xs).
  Proof. intros HP H. apply Forall_alter; [done|]. intros x _. apply HP. Qed.
  Lemma drop_shape x : shape x.2 → shape (@drop_call N x).2.
  Proof. intros H. eapply shape_step; [exact H|apply drop_call_step]. Qed.
  Lemma stop_shape x : shape x.2 → shape (@stop_lis N x).2.
  Proof. intros H. eapply shape_step; [exact H|apply stop_lis_step]. Qed.
  Lemma drop_adder (j : nat) (xs : list (bool * lis N)) k b (x : lis N) : alter drop_call j xs !! k = Some (b, x) → l_adder x ≠ AIdle → k ≠ j ∧ xs !! k = Some (b, x).
  Proof.
    destruct (decide (k = j)) as [->|Hne]; [|by rewrite list_lookup_alter_ne]. rewrite list_lookup_alter. destruct (xs !! j) as [y|]; [|done]. intros [= <- <-]. done.
  Qed.
  Lemma shape_new : shape (lis_init (N:=N)).
  Proof. by repeat split. Qed.

  (** the fields other than those of the listeners *)
  Lemma inv_same_lis s s' : inv s → i_lis s' = i_lis s → i_proc s' = i_proc s → 
    (i_stopped s' = true → i_adder s' = None ∧ (i_run s' = RProc ∨ i_run s' = REnd) ∧ i_proc s' ≠ QNone) →
    (i_stopped s' = false → match i_proc s' with QNone | QNew | QWait => True | _ => False end) →
    (i_proc s' = QNone → i_adder s' = None ∧ (i_run s' = RLock ∨ i_run s' = REnd)) →
    (i_run s' = RProc → i_stopped s' = true) → busy_ok s' → (has_block_run (i_run s') → has_block_adder (i_adder s') → False) →
    match i_adder s' with Some (AAll j ns c) => j < length (i_lis s') ∧ (c = true → ns ≠ []) | _ => True end →
    match i_run s' with RAdd n js c => Forall (λ j, j < length (i_lis s')) js | _ => True end → (i_run s' = RLock → i_proc s' = QNone) → inv s'.
  Proof. intros [] E1 E2 ?????????. split; try done; rewrite ?E1, ?E2; try done. unfold listeners_started. by rewrite E2. Qed.
  Lemma inv_lis s s' j (l : llabel N) : inv s → lis_step j l (i_lis s) (i_lis s') → l ≠ LStop → i_proc s' = i_proc s →
    (i_stopped s' = true → i_adder s' = None ∧ (i_run s' = RProc ∨ i_run s' = REnd) ∧ i_proc s' ≠ QNone) →
    (i_stopped s' = false → match i_proc s' with QNone | QNew | QWait => True | _ => False end) →
    (i_proc s' = QNone → i_adder s' = None ∧ (i_run s' = RLock ∨ i_run s' = REnd)) →
    (i_run s' = RProc → i_stopped s' = true) → busy_ok s' → (has_block_run (i_run s') → has_block_adder (i_adder s') → False) →
    match i_adder s' with Some (AAll j ns c) => j < length (i_lis s') ∧ (c = true → ns ≠ []) | _ => True end →
    match i_run s' with RAdd n js c => Forall (λ j, j < length (i_lis s')) js | _ => True end → (i_run s' = RLock → i_proc s' = QNone) → inv s'.
  Proof.
    intros [H1 H2 H3 H4] Hx Hl E2 ?????????. split; try done; rewrite ?E2.
    - by eapply lis_step_shape.
    - destruct (i_proc s); by eapply lis_step_stop.
    - unfold listeners_started. rewrite E2. by eapply lis_step_made.
    - intros Hq. eapply lis_step_over; [done|]. by apply H4.
  Qed.
  Lemma inv_drop s s' j : inv s → i_lis s' = alter drop_call j (i_lis s) → i_proc s' = i_proc s → 
    (i_stopped s' = true → i_adder s' = None ∧ (i_run s' = RProc ∨ i_run s' = REnd) ∧ i_proc s' ≠ QNone) →
    (i_stopped s' = false → match i_proc s' with QNone | QNew | QWait => True | _ => False end) →
    (i_proc s' = QNone → i_adder s' = None ∧ (i_run s' = RLock ∨ i_run s' = REnd)) →
    (i_run s' = RProc → i_stopped s' = true) → busy_ok s' → (has_block_run (i_run s') → has_block_adder (i_adder s') → False) →
    match i_adder s' with Some (AAll j ns c) => j < length (i_lis s') ∧ (c = true → ns ≠ []) | _ => True end →
    match i_run s' with RAdd n js c => Forall (λ j, j < length (i_lis s')) js | _ => True end → (i_run s' = RLock → i_proc s' = QNone) → inv s'.
  Proof.
    intros [H1 H2 H3 H4] E1 E2 ?????????. split; try done; rewrite ?E1, ?E2.
    - by apply drop_forall; [apply drop_shape|].
    - destruct (i_proc s); by apply drop_forall.
    - unfold listeners_started. rewrite E2. by apply drop_forall.
    - intros Hq. apply drop_forall; [done|]. by apply H4.
  Qed.
  Lemma busy_tasks s s' j (l : llabel N) : inv s → lis_step j l (i_lis s) (i_lis s') → of_tasks l = true ∨ of_call l = true → i_run s' = i_run s → i_adder s' = i_adder s → busy_ok s'.
  Proof. intros Hi Hx Hl E1 E2 k b x Hk Hn. destruct (lis_step_adder _ _ _ _ _ _ _ Hx Hl Hk Hn) as (x0&Hk0&Hn0). rewrite E1, E2. by apply (v_busy _ Hi _ _ _ Hk0). Qed.

  Local Ltac busy H9 := let k := fresh "k" in let b := fresh "b" in let x := fresh "x" in let Hk := fresh in let Hx := fresh in let E := fresh in
    intros k b x Hk Hx; destruct (H9 _ _ _ Hk Hx) as [(?&?&E)|(?&E)]; simpl; [first [congruence|left; by eauto]|first [congruence|right; by eauto]].
  Local Ltac side H5 H6 H7 H8 H9 H10 H13 := simpl; first
    [ done | exact H5 | exact H6 | exact H7 | exact H8 | exact H10 | exact H13
    | let E := fresh in intros E; destruct (H5 E) as (?&[?|?]&?); first [congruence | (split_and!; [congruence|(left; congruence) || (right; congruence)|congruence])]
    | let E := fresh in intros E; destruct (H7 E) as (?&[?|?]); first [congruence | (split; [congruence|(left; congruence) || (right; congruence)])]
    | let E := fresh in intros E; specialize (H6 E); congruence
    | let E := fresh in intros E; specialize (H8 E); congruence
    | (match goal with |- busy_ok _ => busy H9 end)
    | idtac ].
  Lemma block_free_spec s : block_free s = true → ¬ has_block_run (i_run s) ∧ ¬ has_block_adder (i_adder s).
  Proof. unfold block_free. destruct (i_run s), (i_adder s) as [[]|]; simpl; naive_solver. Qed.
  Lemma not_busy s k b x : inv s → i_lis s !! k = Some (b, x) → (∀ n js, i_run s ≠ RAdd n (k :: js) true) → (∀ ns, i_adder s ≠ Some (AAll k ns true)) → l_adder x = AIdle.
  Proof.
    intros Hi Hk Hn1 Hn2. destruct (l_adder x) eqn:E; [done| |].
    all: assert (l_adder x ≠ AIdle) as Hx by congruence; destruct (v_busy _ Hi _ _ _ Hk Hx) as [(n'&js'&E')|(ns'&E')]; [by destruct (Hn1 n' js')|by destruct (Hn2 ns')].
  Qed.
  Lemma inv_new s m : inv s → i_stopped s = false → m = listeners_started s → inv (with_lis (i_lis s ++ [(m, lis_init)]) s).
  Proof.
    intros Hi Hst ->. destruct Hi as [H1 H2 H3 H4 H5 H6 H7 H8 H9 H10 H11 H12 H13]. specialize (H6 Hst). split; simpl; try done.
    - apply Forall_app. split; [done|]. apply Forall_singleton, shape_new.
    - destruct (i_proc s); try done; apply Forall_app; (split; [done|by apply Forall_singleton]).
    - apply Forall_app. split; [done|]. by apply Forall_singleton.
    - intros E. by rewrite E in H6.
    - intros k b x. simpl. rewrite lookup_app_Some. intros [Hk|[_ Hk]]; [exact (H9 _ _ _ Hk)|]. apply list_lookup_singleton_Some in Hk as [_ [= <- <-]]. done.
    - destruct (i_adder s) as [[]|]; try done. rewrite app_length. simpl. split; [lia|tauto].
    - destruct (i_run s); try done. eapply Forall_impl; [exact H12|]. intros j Hj. rewrite app_length. simpl in *. lia.
  Qed.
  Lemma inv_step s l s' : inv s → istep s l s' → inv s'.
  Proof.
    intros Hi Hs. pose proof Hi as [H1 H2 H3 H4 H5 H6 H7 H8 H9 H10 H11 H12 H13]. icases Hs.
    - specialize (H13 Hr). assert (i_stopped s = false) as Hst by (destruct (i_stopped s) eqn:E; [|done]; destruct (H5 eq_refl) as (?&[?|?]&?); congruence).
      unfold listeners_started in H3. rewrite H13 in *. split; simpl; try done.
      + by rewrite Hst.
      + intros k b x Hk Hx. simpl in *. destruct (H9 _ _ _ Hk Hx) as [(?&?&?)|(?&?)]; congruence.
    - apply (inv_same_lis s); side H5 H6 H7 H8 H9 H10 H13.
    - apply (inv_same_lis s); side H5 H6 H7 H8 H9 H10 H13. apply block_free_spec in Hb as [? ?]. by rewrite Hr in *.
    - apply (inv_same_lis s); side H5 H6 H7 H8 H9 H10 H13. rewrite Hr in H10. tauto.
    - apply (inv_lis s _ j (LAdd n)); side H5 H6 H7 H8 H9 H10 H13.
      + intros k b x Hk Hx'. simpl in *. destruct (lis_step_adder_add _ _ _ _ _ _ _ Hx Hk Hx') as [->|Hk']; [left; eauto|]. destruct (H9 _ _ _ Hk' Hx') as [(?&?&?)|]; [congruence|]. by right.
      + rewrite Hr in H10. tauto.
      + rewrite (lis_step_length _ _ _ _ Hx). done.
      + rewrite (lis_step_length _ _ _ _ Hx). by rewrite Hr in H12.
    - apply (inv_same_lis s); side H5 H6 H7 H8 H9 H10 H13.
      + intros k b' x' Hk Hx'. simpl. destruct (H9 _ _ _ Hk Hx') as [(n'&js'&E)|[ns E]]; [|right; by eauto]. rewrite Hr in E. injection E as <- <- <-. simpl in Hk. congruence.
      + rewrite Hr in H10. tauto.
      + rewrite Hr in H12. by inversion H12.
    - apply (inv_same_lis s); side H5 H6 H7 H8 H9 H10 H13. rewrite Hr in H10. tauto.
    - apply (inv_same_lis s); destruct Hr as [[n Hr]|Hr]; side H5 H6 H7 H8 H9 H10 H13. 
    - apply (inv_same_lis s); side H5 H6 H7 H8 H9 H10 H13.
    - apply (inv_same_lis s); destruct Hr as [Hr|[Hr|[Hr|[n Hr]]]]; side H5 H6 H7 H8 H9 H10 H13.
    - apply (inv_drop s _ j); side H5 H6 H7 H8 H9 H10 H13.
      + intros k b x Hk Hx'. simpl in *. apply drop_adder in Hk as [Hne Hk]; [|done]. destruct (H9 _ _ _ Hk Hx') as [(n'&js'&E)|]; [|by right]. rewrite Hr in E. injection E as <- <- <-. done.
      + destruct (i_adder s) as [[]|]; try done. by rewrite alter_length.
    - apply (inv_same_lis s); side H5 H6 H7 H8 H9 H10 H13. 
    - done.
    - apply (inv_same_lis s); side H5 H6 H7 H8 H9 H10 H13.
    - apply (inv_same_lis s); side H5 H6 H7 H8 H9 H10 H13.
    - apply (inv_same_lis s); side H5 H6 H7 H8 H9 H10 H13.
    - apply (inv_same_lis s); side H5 H6 H7 H8 H9 H10 H13.
    - apply (inv_same_lis s); side H5 H6 H7 H8 H9 H10 H13.
    - apply (inv_same_lis s); side H5 H6 H7 H8 H9 H10 H13. intros _. split_and!; [done|by left|]. intros E. destruct (H7 E) as [_ [?|?]]; congruence.
    - apply (inv_same_lis s); side H5 H6 H7 H8 H9 H10 H13.
    - split; simpl; try done.
      + by apply Forall_fmap.
      + rewrite Hq in H2. by apply Forall_fmap.
      + apply Forall_fmap, Forall_true. done.
      + intros E. destruct (H5 E) as (?&?&?). done.
      + intros k b x. simpl. rewrite list_lookup_fmap. destruct (i_lis s !! k) as [[b' x']|] eqn:E; [|done]. intros [= <- <-]. intros Hx. exact (H9 _ _ _ E Hx).
      + by rewrite fmap_length.
      + by rewrite fmap_length.
      + intros E. specialize (H13 E). congruence.
    - split; simpl; try done.
      + by rewrite Hq in H2.
      + unfold listeners_started in *. by rewrite Hq in H3.
      + intros E. destruct (H5 E) as (?&?&?). done.
      + congruence.
      + intros E. specialize (H13 E). congruence.
    - destruct (i_stopped s) eqn:Hst; [|specialize (H6 eq_refl); by rewrite Hq in H6]. split; simpl; try done.
      + apply Forall_fmap. eapply Forall_impl; [exact H1|]. apply stop_shape.
      + apply Forall_fmap, Forall_true. done.
      + unfold listeners_started in *. rewrite Hq in H3. by apply Forall_fmap.
      + intros E. destruct (H5 eq_refl) as (?&?&?). done.
      + congruence.
      + intros k b x. simpl. rewrite list_lookup_fmap. destruct (i_lis s !! k) as [[b' x']|] eqn:E; [|done]. intros [= <- <-]. intros Hx. exact (H9 _ _ _ E Hx).
      + by rewrite fmap_length.
      + by rewrite fmap_length.
      + intros E. specialize (H13 E). congruence.
    - destruct (i_stopped s) eqn:Hst; [|specialize (H6 eq_refl); by rewrite Hq in H6]. split; simpl; try done.
      + by rewrite Hq in H2.
      + unfold listeners_started in *. by rewrite Hq in H3.
      + intros E. destruct (H5 eq_refl) as (?&?&?). done.
      + congruence.
      + intros E. specialize (H13 E). congruence.
    - apply (inv_same_lis s); side H5 H6 H7 H8 H9 H10 H13.
    - destruct (i_stopped s) eqn:Est; [apply (inv_same_lis s); side H5 H6 H7 H8 H9 H10 H13|].
      + rewrite Est. intros _. apply H5. done.
      + rewrite Est. done.
      + destruct Hst as [|Hst]; [done|]. assert (inv (with_lis (i_lis s ++ [(false, lis_init)]) s)) as Hi'.
        { apply inv_new; [done|done|]. unfold started, listeners_started in *. by destruct (i_proc s). }
        destruct Hi'. by split.
    - apply (inv_same_lis s); side H5 H6 H7 H8 H9 H10 H13. intros E. unfold started in Hr. by rewrite E in Hr.
    - apply (inv_same_lis s); side H5 H6 H7 H8 H9 H10 H13. apply block_free_spec in Hb as [? ?]. done.
    - assert (i_stopped s = false) as Hst by (destruct (i_stopped s) eqn:E; [|done]; destruct (H5 eq_refl) as (?&?&?); congruence).
      assert (inv (with_lis (i_lis s ++ [(listeners_started s, lis_init)]) s)) as Hi' by by apply inv_new. rewrite Ha in *.
      destruct Hi' as [I1 I2 I3 I4 I5 I6 I7 I8 I9 I10 I11 I12 I13]; simpl in *. rewrite Ha in *. split; simpl; try done.
      + by rewrite Hst.
      + intros E. by destruct (I7 E).
      + intros k b x Hk Hx. destruct (I9 k b x Hk Hx) as [?|[ns E]]; [by left|]. simpl in E. congruence.
      + rewrite app_length. simpl. split; [lia|done].
    - apply (inv_lis s _ j (LAdd n)); side H5 H6 H7 H8 H9 H10 H13.
      + intros k b x Hk Hx'. simpl in *. destruct (lis_step_adder_add _ _ _ _ _ _ _ Hx Hk Hx') as [->|Hk']; [right; eauto|]. destruct (H9 _ _ _ Hk' Hx') as [|(?&?)]; [by left|]. congruence.
      + rewrite Ha in H10. auto.
      + rewrite (lis_step_length _ _ _ _ Hx). rewrite Ha in H11. split; [tauto|done].
      + rewrite (lis_step_length _ _ _ _ Hx). done.
    - apply (inv_same_lis s); side H5 H6 H7 H8 H9 H10 H13.
      + intros k b' x' Hk Hx'. simpl. destruct (H9 _ _ _ Hk Hx') as [?|[ns' E]]; [by left|]. rewrite Ha in E. injection E as <- <-. simpl in Hk. congruence.
      + rewrite Ha in H10. auto.
      + rewrite Ha in H11. split; [tauto|done].
    - apply (inv_same_lis s); side H5 H6 H7 H8 H9 H10 H13.
    - destruct a as [| |j ns c].
      + apply (inv_same_lis s); side H5 H6 H7 H8 H9 H10 H13.
      + apply (inv_same_lis s); side H5 H6 H7 H8 H9 H10 H13.
      + apply (inv_drop s _ j); side H5 H6 H7 H8 H9 H10 H13.
        * intros k b x Hk Hx'. simpl in *. apply drop_adder in Hk as [Hne Hk]; [|done]. destruct (H9 _ _ _ Hk Hx') as [?|[ns' E]]; [by left|]. congruence.
        * rewrite alter_length. done.
    - apply (inv_same_lis s); side H5 H6 H7 H8 H9 H10 H13.
    - apply (inv_lis s _ j l); side H5 H6 H7 H8 H9 H10 H13.
      + by destruct l.
      + eapply (busy_tasks s); eauto.
      + by rewrite (lis_step_length _ _ _ _ Hx).
      + by rewrite (lis_step_length _ _ _ _ Hx).
    - apply (inv_lis s _ j l); side H5 H6 H7 H8 H9 H10 H13.
      + by destruct l.
      + eapply (busy_tasks s); eauto.
      + by rewrite (lis_step_length _ _ _ _ Hx).
      + by rewrite (lis_step_length _ _ _ _ Hx).
  Qed.
  Lemma inv_reach ls s : reach istep is_init ls s → inv s.
  Proof. apply (reach_inv istep inv); [apply inv_step|apply inv_init]. Qed.

  Definition fin s : Prop :=
    match i_run s with
    | RLock => i_refl s = FNone
    | RClose | RRefl => i_refl s = FRun true ∨ i_refl s = FEnd
    | RStLock | RProc => i_refl s = FEnd
    | REnd => (i_refl s = FNone ∧ i_proc s = QNone) ∨ (i_refl s = FEnd ∧ i_proc s = QEnd)
    | _ => i_refl s ≠ FNone
    end.
  Lemma fin_step s l s' : inv s → fin s → istep s l s' → l ≠ ICancelAgain → fin s'.
  Proof.
    intros Hi Hf0 Hs Hla. pose proof (v_lock _ Hi) as Hlk. unfold fin in *. icases Hs; simpl; try done; try (rewrite Hr in Hf0; simpl in Hf0).
    all: try done. all: try (by rewrite Hr in *).
    - destruct Hr as [[n Hr]|Hr]; by rewrite Hr in Hf0.
    - left. auto.
    - destruct Hr as [Hr|[Hr|[Hr|[n Hr]]]]; rewrite Hr in Hf0; destruct (i_refl s); try done; auto.
    - destruct (i_refl s); try done; auto.
    - destruct (i_run s); try done; try congruence; try (by right); naive_solver congruence.
    - destruct (i_run s); try done; try congruence; try (by right); naive_solver congruence.
    - by right.
    - destruct (i_run s); try done. destruct Hf0 as [[? ?]|[? ?]]; congruence.
    - destruct (i_run s); try done. destruct Hf0 as [[? ?]|[? ?]]; congruence.
    - destruct (i_run s); try done. destruct Hf0 as [[? ?]|[? ?]]; congruence.
    - destruct (i_run s); try done. destruct Hf0 as [[? ?]|[? ?]]; [congruence|]. by right.
    - by destruct (i_stopped s).
    - by destruct a.
  Qed.
  Lemma fin_reach ls s : reach istep is_init ls s → ICancelAgain ∉ ls → fin s.
  Proof.
    intros Hr. induction Hr as [|ls s l s' Hr IH Hs]; intros Hn; [done|]. rewrite elem_of_app, elem_of_list_singleton in Hn.
    eapply fin_step; [by eapply inv_reach|apply IH; tauto|done|]. intros ->. tauto.
  Qed.

  Lemma lis_enabled s j x (l : llabel N) x' : i_lis s !! j = Some (true, x) → lstep x l x' → task_step l → istep s (ILis j l) (with_lis (<[j:=(true, x')]> (i_lis s)) s).
  Proof. intros Hj Hs Ht. assert (lis_step j l (i_lis s) (<[j:=(true, x')]> (i_lis s))) by (by exists true, x, x'). apply tasks_task_step in Ht as [Ht|Ht]; [by eapply s_task|by eapply s_callstep]. Qed.
  Lemma stops_shape (x : lis N) : shape x → l_stop x = true → (∀ (l : llabel N) x', lstep x l x' → ¬ task_step l) → l_pump x = PStopped ∧ l_run x = RStopped.
  Proof.
    intros [Hp Hr] Hst Hq. destruct x as [a q st p pe nq r]. simpl in *. subst st.
    assert (He : ∀ (l : llabel N) x', lstep (Lis a q true p pe nq r) l x' → task_step l → False) by (intros l x' H1 H2; by apply (Hq l x')).
    assert (p = PStopped) as ->.
    { destruct p as [|cur got put| |]; [| | |done]; exfalso.
      - by eapply He; [apply l_start|].
      - by eapply He; [apply l_wake_stop|].
      - destruct nq as [n|]; [|by eapply He; [apply l_next|]]. destruct r; [by eapply He; [apply l_startrun|]|by eapply He; [apply l_fetch|]|by eapply He; [apply l_call|]|by eapply He; [apply l_return|]|by eapply He; [apply l_slept|]|by specialize (Hr eq_refl)]. }
    split; [done|]. destruct r; [..|done]; exfalso.
    - by eapply He; [apply l_startrun|].
    - eapply He; [apply l_runstop; by left|done].
    - eapply He; [apply l_runstop; right; by eexists|done].
    - by eapply He; [apply l_return|].
    - by eapply He; [apply l_slept|].
  Qed.
  Lemma add_enabled s j (x : bool * lis N) n : i_lis s !! j = Some x → l_adder x.2 = AIdle → ∃ xs', lis_step j (LAdd n) (i_lis s) xs'.
  Proof. destruct x as [b [a q st p pe nq r]]. simpl. intros Hj ->. eexists. eexists b, _, _. split_and!; [exact Hj|apply l_add|done]. Qed.

  Lemma settled_over s : inv s → fin s → past s → settled s → all_over s.
  Proof.
    intros Hi Hf Hp Hs. pose proof Hi as [H1 H2 H3 H4 H5 H6 H7 H8 H9 H10 H11 H12 H13].
    assert (Hno : ∀ l s', istep s l s' → own_step l → False) by (intros l s' ? ?; by eapply Hs).
    assert (Hlis : ∀ j x, i_lis s !! j = Some (true, x) → ∀ (l : llabel N) x', lstep x l x' → ¬ task_step l).
    { intros j x Hj l x' Hx Ht. eapply Hno; [by eapply lis_enabled|done]. }
    assert (Hrun : ∀ n js c, i_run s ≠ RAdd n js c) by (intros n js c E; unfold past in Hp; by rewrite E in Hp).
    assert (Hnb : ¬ has_block_run (i_run s)) by (intros Hb; unfold past in Hp; by destruct (i_run s)).
    assert (Hproc : i_proc s ≠ QNew).
    { intros E. eapply Hno; [apply s_proc_start; [done|]|done]. unfold lis_free. rewrite E. unfold past in Hp. by destruct (i_run s). }
    assert (Hadder : i_adder s = None).
    { destruct (i_adder s) as [a|] eqn:Ea; [|done]. exfalso. destruct (i_stopped s) eqn:Est; [by destruct (H5 eq_refl) as (?&_)|]. specialize (H6 eq_refl).
      assert (lis_free s = true) as Hfree by (unfold lis_free; unfold past in Hp; destruct (i_run s); try done; by destruct (i_proc s)).
      destruct a as [| |j ns c].
      - eapply Hno; [apply s_block; [done|]|done]. unfold block_free. rewrite Ea. destruct (i_run s); try done; exfalso; by apply Hnb.
      - by eapply Hno; [apply s_reg|].
      - destruct H11 as [Hj Hc]. destruct ns as [|n ns]; [destruct c; [by destruct (Hc eq_refl)|]; by eapply Hno; [by eapply s_adone|]|].
        destruct (lookup_lt_is_Some_2 _ _ Hj) as [[b x] Hx]. destruct c.
        + assert (b = true) as ->.
          { pose proof (Forall_lookup_1 _ _ _ _ H3 Hx) as Hm. simpl in Hm. subst b. unfold listeners_started. destruct (i_proc s) eqn:E; try done. by destruct (H7 eq_refl). }
          assert (l_stop x = false) as Hx0 by (destruct (i_proc s); try done; by apply (Forall_lookup_1 _ _ _ _ H2 Hx)).
          destruct (quiet_empty x) as (_&Hidle&_); [by apply (Forall_lookup_1 _ _ _ _ H1 Hx)|done|by eapply Hlis|]. eapply Hno; [by eapply s_aadded|done].
        + assert (l_adder x = AIdle) as Hidle by (eapply not_busy; [exact Hi|exact Hx|done|congruence]).
          destruct (add_enabled s j _ n Hx Hidle) as [ls' Hls]. eapply Hno; [by eapply s_acall|done]. }
    assert (Hre : i_run s = REnd).
    { unfold past in Hp. unfold fin in Hf. destruct (i_run s) eqn:Er; try done; exfalso.
      - by eapply Hno; [by apply s_close|].
      - destruct Hf as [Hf|Hf]; [by eapply Hno; [by apply s_refl_end|]|by eapply Hno; [by apply s_refl_joined|]].
      - by eapply Hno; [by apply s_stopped|].
      - specialize (H8 eq_refl). destruct (i_proc s) eqn:Eq; [by destruct (H5 H8) as (_&_&?)|done| | | |].
        + by eapply Hno; [by apply s_proc_wake|].
        + eapply Hno; [apply s_proc_stop; [done|]|done]. unfold lis_free. by rewrite Er, Eq.
        + eapply Hno; [apply s_proc_end; [done|]|done]. apply Forall_lookup. intros j [b x] Hj Hb. simpl in *. subst b.
          apply stops_shape; [by apply (Forall_lookup_1 _ _ _ _ H1 Hj)|by apply (Forall_lookup_1 _ _ _ _ H2 Hj)|by eapply Hlis].
        + by eapply Hno; [by apply s_proc_joined|]. }
    unfold fin in Hf. rewrite Hre in Hf.
    assert (Hw : i_waiting s = 0).
    { destruct (i_waiting s) as [|w] eqn:Ew; [done|]. exfalso. eapply Hno; [eapply s_lock_done; [done|done|]|done]. destruct Hf as [[_ Hq]|[_ Hq]]; [right; unfold started; by rewrite Hq|].
      left. destruct (i_stopped s); [done|]. specialize (H6 eq_refl). by rewrite Hq in H6. }
    split_and!; try done.
    - destruct Hf as [[? _]|[? _]]; auto.
    - destruct Hf as [[_ ?]|[_ ?]]; auto.
    - destruct Hf as [[_ Hq]|[_ Hq]]; [|by apply H4]. eapply Forall_impl; [exact H3|]. intros x Hx Hx'. unfold listeners_started in Hx. rewrite Hq in Hx. congruence.
  Qed.
  Lemma informer_ends ls s : reach istep is_init ls s → ICancel ∈ ls → ICancelAgain ∉ ls →
    (∃ b, ∀ ls' s', reach istep s ls' s' → (∀ l, l ∈ ls' → calm l) → length ls' ≤ b) ∧ (settled s → all_over s).
  Proof.
    intros Hr Hc Hn. pose proof (past_reach _ _ Hr Hc) as Hp. split.
    - exists (iweight s). intros ls' s' Hr' Hl. pose proof (iweight_reach _ _ _ Hp Hr' Hl). lia.
    - apply settled_over; [by eapply inv_reach|by eapply fin_reach|done].
  Qed.
End proofs.
