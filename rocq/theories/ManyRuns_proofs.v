(** Lemmas for ManyRuns_props.v. *)
From Verif Require Import Base Listener_model Twice_proofs ManyRuns_model ManyRuns_spec.

Section proofs.
  Context {N : Type}.
  Notation mstep := (mstep (N:=N)).
  Notation init := (mul_init (N:=N)).
  Implicit Types (s : mul N) (ls : list (mlabel N)).

  Section count.
    Context (f : N → nat).
    Definition ow (o : option N) : nat := match o with Some n => f n | None => 0 end.
    Definition pw (p : mpump N) : nat := match p with MWait cur got put => (if put then 0 else ow cur) + ow got | _ => 0 end.
    Definition rw (r : runner N) : nat := match r with RFetched n => f n | _ => 0 end.
    Definition inside s : nat := ow (m_addq s) + total pw (m_pumps s) + total f (m_pend s) + ow (m_nextq s) + total rw (m_runs s).
    Lemma taken_snoc ls l : total f (taken (ls ++ [l])) = total f (taken ls) + match l with MPut n => f n | _ => 0 end.
    Proof. unfold taken. rewrite omap_app, total_app. f_equal. destruct l; simpl; lia. Qed.
    Lemma called_snoc ls l : total f (called (ls ++ [l])) = total f (called ls) + match l with MCall _ n => f n | _ => 0 end.
    Proof. unfold called. rewrite omap_app, total_app. f_equal. destruct l; simpl; lia. Qed.
    Lemma woken_pw ps : total pw (woken <$> ps) = total pw ps.
    Proof. induction ps as [|p ps IH]; [done|]. rewrite fmap_cons. change (pw (woken p) + total pw (woken <$> ps) = pw p + total pw ps). rewrite IH. by destruct p. Qed.
    Definition sane s : Prop := ∀ i cur got, m_pumps s !! i = Some (MWait cur got true) → cur ≠ None.
    Lemma sane_reach ls s : reach mstep init ls s → sane s.
    Proof.
      apply (reach_inv mstep sane); [|by intros i cur got ?]. clear. intros s l s' Hs Hst. unfold sane in *.
      destruct Hst; simpl in *; try done; intros i0 cur0 got0 Hz; try (apply list_lookup_insert_Some in Hz as [(-> & He & _)|[_ Hz]]; [|by eapply Hs]); simplify_eq; try done; try (by eapply Hs).
      - apply lookup_app_Some in Hz as [Hz|[_ Hz]]; [by eapply Hs|]. apply elem_of_list_lookup_2, elem_of_list_singleton in Hz. done.
      - destruct got, cur; simpl in Hz; (apply list_lookup_insert_Some in Hz as [(-> & He & _)|[_ Hz]]; [|by eapply Hs]); destruct put; simplify_eq; try done; unfold joining in He; by destruct nq.
      - rewrite list_lookup_fmap in Hz. destruct (ps !! i0) as [p|] eqn:E; [|done]. simpl in Hz. destruct p; simplify_eq/=. by eapply Hs.
    Qed.
    Lemma joining_pw nq : pw (joining nq) = 0.
    Proof. by destruct nq. Qed.
    Lemma flow_step s l s' : sane s → m_stop s = false → m_next s = false → mstep s l s' →
      inside s' + match l with MCall _ n => f n | _ => 0 end = inside s + match l with MPut n => f n | _ => 0 end.
    Proof.
      intros Hsane H1 H2 Hst. unfold inside. destruct Hst; simpl in *; simplify_eq; try done; try lia.
      - rewrite !total_app. simpl. lia.
      - pose proof (total_insert pw _ _ _ (MWait None None false) H) as E. simpl in E. lia.
      - pose proof (total_insert pw _ _ _ (MWait cur (Some n) put) H) as E. simpl in E. lia.
      - pose proof (total_insert pw _ _ _ (MWait (Some c) got true) H) as E. simpl in E. lia.
      - assert (Hp : put = true → cur ≠ None) by (intros ->; by eapply Hsane). destruct got as [n|], cur as [c|]; simpl.
        + pose proof (total_insert pw _ _ _ (if put then joining nq else MWait (Some c) None false) H) as E. rewrite total_app. destruct put; rewrite ?joining_pw in *; simpl in *; lia.
        + destruct put; [by destruct (Hp eq_refl)|]. pose proof (total_insert pw _ _ _ (MWait (Some n) None false) H) as E. simpl in *; lia.
        + pose proof (total_insert pw _ _ _ (if put then joining nq else MWait (Some c) None false) H) as E. destruct put; rewrite ?joining_pw in *; simpl in *; lia.
        + destruct put; [by destruct (Hp eq_refl)|]. pose proof (total_insert pw _ _ _ (MWait None None false) H) as E. simpl in *; lia.
      - pose proof (total_insert pw _ _ _ (MWait (head pe) None false) H) as E. destruct pe; simpl in *; lia.
      - pose proof (total_insert rw _ _ _ RWait H) as E. simpl in E. lia.
      - rewrite woken_pw. pose proof (total_insert rw _ _ _ (RFetched n) H) as E. simpl in E. lia.
      - pose proof (total_insert rw _ _ _ (RHandling n) H) as E. simpl in E. lia.
      - pose proof (total_insert rw _ _ _ RWait H) as E. simpl in E. lia.
      - pose proof (total_insert rw _ _ _ RSleep H) as E. simpl in E. lia.
      - pose proof (total_insert rw _ _ _ RWait H) as E. simpl in E. lia.
    Qed.
    Lemma step_bound s l s' : sane s → mstep s l s' → inside s' + match l with MCall _ n => f n | _ => 0 end ≤ inside s + match l with MPut n => f n | _ => 0 end.
    Proof.
      intros Hsane Hst. destruct (m_stop s) eqn:H1, (m_next s) eqn:H2; try (by erewrite flow_step).
      all: unfold inside; destruct Hst; simpl in *; simplify_eq; try done; try lia.
      all: try (rewrite !total_app; simpl; lia).
      all: try (rewrite woken_pw).
      all: try match goal with H : ?ps !! ?i = Some ?p |- context [total pw (<[?i:=?q]> ?ps)] => pose proof (total_insert pw _ _ _ q H) as E; try (destruct pe); simpl in *; lia end.
      all: try match goal with H : ?ps !! ?i = Some ?p |- context [total rw (<[?i:=?q]> ?ps)] => pose proof (total_insert rw _ _ _ q H) as E; simpl in *; lia end.
      all: assert (Hp : put = true → cur ≠ None) by (intros ->; by eapply Hsane); destruct got as [n|], cur as [c|]; simpl.
      all: match goal with H : ?ps !! ?i = Some ?p |- context [total pw (<[?i:=?q]> ?ps)] => pose proof (total_insert pw _ _ _ q H) as E end; rewrite ?total_app; destruct put; try (by destruct (Hp eq_refl)); rewrite ?joining_pw in *; simpl in *; lia.
    Qed.
    Lemma bound_reach ls s : reach mstep init ls s → total f (called ls) + inside s ≤ total f (taken ls).
    Proof.
      intros Hr. induction Hr as [|ls s l s' Hr IH Hst]; [done|]. rewrite taken_snoc, called_snoc. pose proof (step_bound _ _ _ (sane_reach _ _ Hr) Hst). lia.
    Qed.
    Lemma stop_mono s l s' : mstep s l s' → (m_stop s' = false → m_stop s = false ∧ l ≠ MStop) .
    Proof. destruct 1; simpl; try done. Qed.
    Lemma calm_reach ls s : reach mstep init ls s → m_stop s = false → m_next s = false ∧ (∀ i, m_pumps s !! i ≠ Some MStopped) ∧ ∀ j, m_runs s !! j ≠ Some RStopped.
    Proof.
      intros Hr. induction Hr as [|ls s l s' Hr IH Hst]; [done|]. intros Hns. destruct (stop_mono _ _ _ Hst Hns) as [Hn _]. destruct (IH Hn) as (H1 & H2 & H3).
      destruct Hst; simpl in *; simplify_eq; try done; (split; [try done; by destruct got, cur|split; intros i0 Hi0]);
        try (apply list_lookup_insert_Some in Hi0 as [(-> & He & _)|[_ Hi0]]; [done|by eapply H2]);
        try (apply list_lookup_insert_Some in Hi0 as [(-> & He & _)|[_ Hi0]]; [done|by eapply H3]); try (by eapply H2); try (by eapply H3).
      - apply lookup_app_Some in Hi0 as [Hi0|[_ Hi0]]; [by eapply H2|]. by apply elem_of_list_lookup_2, elem_of_list_singleton in Hi0.
      - apply lookup_app_Some in Hi0 as [Hi0|[_ Hi0]]; [by eapply H3|]. by apply elem_of_list_lookup_2, elem_of_list_singleton in Hi0.
      - destruct got, cur; simpl in Hi0; (apply list_lookup_insert_Some in Hi0 as [(-> & He & _)|[_ Hi0]]; [|by eapply H2]); destruct put; try done; unfold joining in He; by destruct nq.
      - destruct got, cur; simpl in Hi0; by eapply H3.
      - rewrite list_lookup_fmap in Hi0. destruct (ps !! i0) as [p|] eqn:E; [|done]. simpl in Hi0. destruct p; simplify_eq/=. by eapply H2.
    Qed.
    Lemma flow_reach ls s : reach mstep init ls s → m_stop s = false → total f (called ls) + inside s = total f (taken ls).
    Proof.
      intros Hr. induction Hr as [|ls s l s' Hr IH Hst]; [done|]. intros Hns. destruct (stop_mono _ _ _ Hst Hns) as [Hn _]. specialize (IH Hn).
      rewrite taken_snoc, called_snoc. pose proof (flow_step _ _ _ (sane_reach _ _ Hr) Hn (proj1 (calm_reach _ _ Hr Hn)) Hst). lia.
    Qed.
  End count.

  (** ** At rest *)
  Definition linked s : Prop :=
    (∀ i, m_pumps s !! i = Some MJoin → m_nextq s ≠ None) ∧
    (m_stop s = false → m_pend s ≠ [] → ∃ i p, m_pumps s !! i = Some p ∧ match p with MWait (Some _) _ _ | MJoin | MWoken => True | _ => False end).
  Lemma linked_keep (ps : list (mpump N)) i p p' : ps !! i = Some p → (match p with MWait (Some _) _ _ | MJoin | MWoken => True | _ => False end → match p' with MWait (Some _) _ _ | MJoin | MWoken => True | _ => False end) →
    (∃ i p, ps !! i = Some p ∧ match p with MWait (Some _) _ _ | MJoin | MWoken => True | _ => False end) →
    ∃ j p, <[i:=p']> ps !! j = Some p ∧ match p with MWait (Some _) _ _ | MJoin | MWoken => True | _ => False end.
  Proof.
    intros Hi Hp (j & q & Hj & Hq). destruct (decide (i = j)) as [->|Hne].
    - exists j, p'. rewrite list_lookup_insert by (by eapply lookup_lt_Some). split; [done|]. apply Hp. by simplify_eq.
    - exists j, q. by rewrite list_lookup_insert_ne.
  Qed.
  Lemma linked_here (ps : list (mpump N)) i p p' : ps !! i = Some p → match p' with MWait (Some _) _ _ | MJoin | MWoken => True | _ => False end →
    ∃ j p, <[i:=p']> ps !! j = Some p ∧ match p with MWait (Some _) _ _ | MJoin | MWoken => True | _ => False end.
  Proof. intros Hi Hp. exists i, p'. by rewrite list_lookup_insert by (by eapply lookup_lt_Some). Qed.
  Lemma linked_reach ls s : reach mstep init ls s → linked s.
  Proof.
    apply (reach_trace_inv mstep (λ _ s, linked s)); [by split|]. clear. intros ls s l s' Hr [H1 H2] Hst. pose proof (sane_reach _ _ Hr) as Hsane. clear Hr. unfold linked in *.
    destruct Hst; simpl in *; try done.
    - split; [intros i [Hi|[_ Hi]]%lookup_app_Some; [by apply (H1 i)|by apply elem_of_list_lookup_2, elem_of_list_singleton in Hi]|].
      intros Hf Hn; destruct (H2 Hf Hn) as (i & p & Hi & Hp). exists i, p. split; [by apply lookup_app_l_Some|done].
    - split; [intros i0 [(-> & He & _)|[_ Hi]]%list_lookup_insert_Some; [done|by eapply H1]|]. intros Hf Hn; specialize (H2 Hf Hn). eapply linked_keep; [done| |done]; simpl; done.
    - split; [intros i0 [(-> & He & _)|[_ Hi]]%list_lookup_insert_Some; [done|by eapply H1]|]. intros Hf Hn; specialize (H2 Hf Hn). eapply linked_keep; [done| |done]; simpl; done.
    - split; [done|]. intros Hf Hn; specialize (H2 Hf Hn). eapply linked_keep; [done| |done]; simpl; done.
    - assert (Hp : put = true → cur ≠ None) by (intros ->; by eapply Hsane).
      assert (Hj : ∀ i0, <[i:=if put then joining nq else MWait cur None false]> ps !! i0 = Some MJoin → nq ≠ None).
      { intros i0 [(-> & He & _)|[_ Hi]]%list_lookup_insert_Some; [|by eapply H1]. destruct put; [|done]. by destruct nq. }
      assert (HJ : match joining nq with MWait (Some _) _ _ | MJoin | MWoken => True | _ => False end) by (by destruct nq).
      destruct got as [n|], cur as [c|]; simpl.
      + split; [done|]. intros _ _. eapply linked_here; [done|]. by destruct put.
      + destruct put; [by destruct (Hp eq_refl)|]. split; [intros i0 [(-> & He & _)|[_ Hi]]%list_lookup_insert_Some; [done|by eapply H1]|]. intros _ _. eapply linked_here; [done|]; simpl; done.
      + split; [done|]. intros _ _. eapply linked_here; [done|]. by destruct put.
      + destruct put; [by destruct (Hp eq_refl)|]. split; [done|]. intros Hf Hn; specialize (H2 Hf Hn). eapply linked_keep; [done| |done]; simpl; done.
    - split; [intros i0 [(-> & He & _)|[_ Hi]]%list_lookup_insert_Some; [done|by eapply H1]|]. done.
    - split; [intros i0 [(-> & He & _)|[_ Hi]]%list_lookup_insert_Some; [done|by eapply H1]|]. destruct pe as [|n pe]; [by intros ? []|]. intros _ _. eapply linked_here; [done|]; simpl; done.
    - split; [intros i0 Hi; rewrite list_lookup_fmap in Hi; destruct (ps !! i0) as [[]|]; done|]. intros Hf Hn; destruct (H2 Hf Hn) as (i & p & Hi & Hp). exists i, (woken p). rewrite list_lookup_fmap, Hi. split; [done|]. by destruct p.
  Qed.

  Lemma returned_snoc ls l : returned (ls ++ [l]) = returned ls + match l with MReturn _ | MRaise _ => 1 | _ => 0 end.
  Proof. unfold returned. rewrite omap_app, app_length. f_equal. by destruct l. Qed.
  Lemma runs_snoc ls l : runs (ls ++ [l]) = runs ls + match l with MRun => 1 | _ => 0 end.
  Proof. unfold runs. rewrite omap_app, app_length. f_equal. by destruct l. Qed.
  Lemma called_len ls l : length (called (ls ++ [l])) = length (called ls) + match l with MCall _ _ => 1 | _ => 0 end.
  Proof. unfold called. rewrite omap_app, app_length. f_equal. by destruct l. Qed.

  Definition busy (r : runner N) : nat := match r with RHandling _ => 1 | _ => 0 end.
  Lemma busy_reach ls s : reach mstep init ls s →
    length (called ls) = returned ls + total busy (m_runs s) ∧ length (m_runs s) = runs ls ∧ length (m_pumps s) = runs ls.
  Proof.
    intros Hr. induction Hr as [|ls s l s' Hr IH Hst]; [done|]. rewrite called_len, returned_snoc, runs_snoc. destruct IH as (H1 & H2 & H3).
    destruct Hst; simpl in *; rewrite ?app_length, ?insert_length, ?fmap_length; simpl; try (split_and!; lia).
    - rewrite total_app. simpl. split_and!; lia.
    - destruct got, cur; simpl; rewrite ?insert_length; split_and!; lia.
    - pose proof (total_insert busy _ _ _ RWait H) as E. simpl in E. split_and!; lia.
    - pose proof (total_insert busy _ _ _ (RFetched n) H) as E. simpl in E. split_and!; lia.
    - pose proof (total_insert busy _ _ _ (RHandling n) H) as E. simpl in E. split_and!; lia.
    - pose proof (total_insert busy _ _ _ RWait H) as E. simpl in E. split_and!; lia.
    - pose proof (total_insert busy _ _ _ RSleep H) as E. simpl in E. split_and!; lia.
    - pose proof (total_insert busy _ _ _ RWait H) as E. simpl in E. split_and!; lia.
    - pose proof (total_insert busy _ _ _ RStopped H) as E. destruct H0 as [->|[n ->]]; simpl in E; split_and!; lia.
  Qed.
  Lemma overlap_bound ls s : reach mstep init ls s → returned ls ≤ length (called ls) ≤ returned ls + runs ls.
  Proof.
    intros Hr. destruct (busy_reach _ _ Hr) as (H1 & H2 & _). assert (total busy (m_runs s) ≤ length (m_runs s)); [|lia]. apply total_bound. intros []; simpl; lia.
  Qed.

  (** ** No work, no steps *)
  Definition o1 (k : nat) (o : option N) : nat := match o with Some _ => k | None => 0 end.
  Definition pk (p : mpump N) : nat := match p with MNew => 5 | MWait cur got put => (if put then 3 else 1 + o1 7 cur) + o1 9 got | MJoin => 2 | MWoken => 2 | MStopped => 0 end.
  Definition rk (r : runner N) : nat := match r with RNew => 2 | RWait => 1 | RFetched _ => 4 | RHandling _ => 3 | RSleep => 2 | RStopped => 0 end.
  Definition left s : nat :=
    match m_adder s with AIdle => 0 | APutting _ => 12 | AJoining => 1 end + o1 10 (m_addq s) + total pk (m_pumps s) + 8 * length (m_pend s) + o1 4 (m_nextq s) + total rk (m_runs s).
  Lemma woken_pk ps : total pk (woken <$> ps) = total pk ps.
  Proof. induction ps as [|p ps IH]; [done|]. rewrite fmap_cons. change (pk (woken p) + total pk (woken <$> ps) = pk p + total pk ps). rewrite IH. by destruct p. Qed.
  Lemma joining_pk nq : pk (joining nq) = 2.
  Proof. by destruct nq. Qed.
  Lemma left_step s l s' : sane s → goes_on l → mstep s l s' → left s' < left s.
  Proof.
    intros Hsane Hg Hst. unfold left. destruct Hst; simpl in *; try done; try lia.
    all: try (rewrite woken_pk).
    all: try match goal with H : ?ps !! ?i = Some ?p |- context [total pk (<[?i:=?q]> ?ps)] => pose proof (total_insert pk _ _ _ q H) as E; try (destruct put); try (destruct cur); try (destruct got); try (destruct pe); simpl in *; lia end.
    all: try match goal with H : ?ps !! ?i = Some ?p |- context [total rk (<[?i:=?q]> ?ps)] => pose proof (total_insert rk _ _ _ q H) as E; simpl in *; lia end.
    - assert (Hp : put = true → cur ≠ None) by (intros ->; by eapply Hsane); destruct got as [n|], cur as [c|]; simpl;
        match goal with H : ?ps !! ?i = Some ?p |- context [total pk (<[?i:=?q]> ?ps)] => pose proof (total_insert pk _ _ _ q H) as E end; rewrite ?app_length; destruct put; try (by destruct (Hp eq_refl)); rewrite ?joining_pk in *; simpl in *; try lia; by destruct H0.
    - destruct H0 as [->|[n ->]]; match goal with H : ?ps !! ?i = Some ?p |- context [total rk (<[?i:=?q]> ?ps)] => pose proof (total_insert rk _ _ _ q H) as E end; simpl in *; lia.
  Qed.
  Lemma sane_more s ls s' : sane s → reach mstep s ls s' → sane s'.
  Proof.
    intros Hs. apply (reach_inv mstep sane); [|done]. clear. intros s l s' Hs Hst. unfold sane in *.
    destruct Hst; simpl in *; try done; intros i0 cur0 got0 Hz; try (apply list_lookup_insert_Some in Hz as [(-> & He & _)|[_ Hz]]; [|by eapply Hs]); simplify_eq; try done; try (by eapply Hs).
    - apply lookup_app_Some in Hz as [Hz|[_ Hz]]; [by eapply Hs|]. apply elem_of_list_lookup_2, elem_of_list_singleton in Hz. done.
    - destruct got, cur; simpl in Hz; (apply list_lookup_insert_Some in Hz as [(-> & He & _)|[_ Hz]]; [|by eapply Hs]); destruct put; simplify_eq; try done; unfold joining in He; by destruct nq.
    - rewrite list_lookup_fmap in Hz. destruct (ps !! i0) as [p|] eqn:E; [|done]. simpl in Hz. destruct p; simplify_eq/=. by eapply Hs.
  Qed.
  Lemma ends ls s : reach mstep init ls s → ∀ ls' s', reach mstep s ls' s' → Forall goes_on ls' → length ls' + left s' ≤ left s.
  Proof.
    intros Hr ls' s' Hr'. induction Hr' as [|ls' s1 l s2 Hr' IH Hst]; [simpl; lia|]. intros [Hf Hl]%Forall_app. inversion_clear Hl.
    specialize (IH Hf). rewrite app_length. simpl. pose proof (left_step _ _ _ (sane_more _ _ _ (sane_reach _ _ Hr) Hr') H Hst). lia.
  Qed.

  (** ** At rest everything was handed over *)
  Definition at_rest s : Prop := ∀ l s', mstep s l s' → ¬ goes_on l.
  Lemma stop_seen ls s : reach mstep init ls s → MStop ∉ ls → m_stop s = false.
  Proof.
    intros Hr. induction Hr as [|ls s l s' Hr IH Hst]; [done|]. intros Hn. assert (H1 : m_stop s = false). { apply IH. intros ?. apply Hn. set_solver. }
    assert (l ≠ MStop) by (intros ->; apply Hn; set_solver). destruct Hst; simpl in *; try done. by destruct got, cur.
  Qed.
  Lemma rest_empty ls s : reach mstep init ls s → m_stop s = false → 1 ≤ runs ls → at_rest s →
    m_adder s = AIdle ∧ m_addq s = None ∧ m_pend s = [] ∧ m_nextq s = None ∧ (∀ i p, m_pumps s !! i = Some p → p = MWait None None false) ∧ ∀ j r, m_runs s !! j = Some r → r = RWait.
  Proof.
    intros Hr Hns Hruns Hq. destruct (calm_reach _ _ Hr Hns) as (Hnx & Hp & Hrs). destruct (linked_reach _ _ Hr) as [HJ HP]. pose proof (sane_reach _ _ Hr) as Hsane. destruct (busy_reach _ _ Hr) as (_ & Hl1 & Hl2).
    assert (HR : ∀ j r, m_runs s !! j = Some r → r = RWait).
    { intros j r Hj. destruct s as [a q st ps pe nq sn rs]. simpl in *. subst. destruct r; try done.
      - by destruct (Hq _ _ (m_startrun _ _ _ _ _ _ _ _ _ Hj)).
      - by destruct (Hq _ _ (m_call _ _ _ _ _ _ _ _ _ Hj)).
      - by destruct (Hq _ _ (m_return _ _ _ _ _ _ _ _ _ _ Hj)).
      - by destruct (Hq _ _ (m_slept _ _ _ _ _ _ _ _ _ Hj)).
      - by destruct (Hrs j). }
    assert (Hnq : m_nextq s = None).
    { destruct (lookup_lt_is_Some_2 (m_runs s) 0) as [r Hj]; [lia|]. pose proof (HR _ _ Hj) as ->. destruct s as [a q st ps pe [n|] sn rs]; [|done]. simpl in *. by destruct (Hq _ _ (m_fetch _ _ _ _ _ _ _ _ _ Hj)). }
    assert (HPs : ∀ i p, m_pumps s !! i = Some p → p = MWait None None false).
    { intros i p Hi. destruct p as [|cur got put| | |].
      - destruct s. simpl in *. by destruct (Hq _ _ (m_start _ _ _ _ _ _ _ _ _ Hi)).
      - destruct put. { destruct s. simpl in *. subst. exfalso. eapply (Hq (MWake i)); [eapply m_wake; [exact Hi|by right]|done]. }
        destruct got as [n|]. { destruct s. simpl in *. subst. exfalso. eapply (Hq (MWake i)); [eapply m_wake; [exact Hi|by left]|done]. }
        destruct cur as [c|]; [|done]. destruct s. simpl in *. subst. by destruct (Hq _ _ (m_putnext _ _ _ _ _ _ _ _ _ _ Hi)).
      - by destruct (HJ _ Hi).
      - destruct s. simpl in *. by destruct (Hq _ _ (m_next_ _ _ _ _ _ _ _ _ _ Hi)).
      - by destruct (Hp i). }
    assert (Haq : m_addq s = None).
    { destruct (lookup_lt_is_Some_2 (m_pumps s) 0) as [p Hi]; [lia|]. pose proof (HPs _ _ Hi) as ->. destruct s as [a [n|] st ps pe nq sn rs]; [|done]. simpl in *. by destruct (Hq _ _ (m_get _ _ _ _ _ _ _ _ _ _ _ Hi)). }
    split_and!; try done.
    - destruct s as [[|n|] q st ps pe nq sn rs]; [done| |]; simpl in *; subst.
      + by destruct (Hq _ _ (m_put _ _ _ _ _ _ _)).
      + by destruct (Hq _ _ (m_joined _ _ _ _ _ _)).
    - destruct (m_pend s) eqn:E; [done|]. destruct HP as (i & p & Hi & Hm); [done|done|]. by rewrite (HPs _ _ Hi) in Hm.
  Qed.
  Lemma total_zero {B} (g : B → nat) l : (∀ i b, l !! i = Some b → g b = 0) → total g l = 0.
  Proof. induction l as [|b l IH]; intros Hz; [done|]. simpl. rewrite (Hz 0 b eq_refl). simpl. apply IH. intros i. apply (Hz (S i)). Qed.
  Lemma rest_all f ls s : reach mstep init ls s → MStop ∉ ls → 1 ≤ runs ls → at_rest s → total f (called ls) = total f (taken ls).
  Proof.
    intros Hr Hns Hruns Hq. pose proof (stop_seen _ _ Hr Hns) as Hs. destruct (rest_empty _ _ Hr Hs Hruns Hq) as (_ & H2 & H3 & H4 & H5 & H6).
    rewrite <-(flow_reach f _ _ Hr Hs). unfold inside. rewrite H2, H3, H4. simpl. rewrite (total_zero (pw f)), (total_zero (rw f)); [lia| |].
    - intros j r Hj. by rewrite (H6 _ _ Hj).
    - intros i p Hi. by rewrite (H5 _ _ Hi).
  Qed.
  Lemma rest_returned ls s : reach mstep init ls s → MStop ∉ ls → 1 ≤ runs ls → at_rest s → returned ls = length (called ls).
  Proof.
    intros Hr Hns Hruns Hq. destruct (rest_empty _ _ Hr (stop_seen _ _ Hr Hns) Hruns Hq) as (_ & _ & _ & _ & _ & H6). destruct (busy_reach _ _ Hr) as (H1 & _).
    rewrite (total_zero busy) in H1; [lia|]. intros j r Hj. by rewrite (H6 _ _ Hj).
  Qed.
  (** after a stop *)
  Definition shut s : Prop := Forall (λ p, p = MStopped) (m_pumps s).
  Lemma shut_never s : shut s → m_adder s ≠ AJoining → ∀ ls s', reach mstep s ls s' → MRun ∉ ls →
    shut s' ∧ (m_adder s' = AJoining → m_addq s' ≠ None) ∧ MJoined ∉ ls.
  Proof.
    intros Hs Ha ls s' Hr. induction Hr as [|ls s1 l s2 Hr IH Hst]; [intros _; split_and!; [done|done|set_solver]|].
    intros Hn. destruct IH as (H1 & H2 & H3); [set_solver|]. assert (Hl : l ≠ MRun) by (intros ->; apply Hn; set_solver).
    assert (Hno : ∀ i p, m_pumps s1 !! i = Some p → p ≠ MStopped → False). { intros i p Hi Hp. by apply Hp, (proj1 (Forall_lookup _ _) H1 i). }
    assert (HX : shut s2 ∧ (m_adder s2 = AJoining → m_addq s2 ≠ None) ∧ l ≠ MJoined).
    { destruct Hst; simpl in *; try (by destruct (Hno _ _ H)); try (by split_and!).
      - by destruct (H2 eq_refl).
      - split_and!; [|done|done]. unfold shut in *. simpl in *. apply Forall_fmap. eapply Forall_impl; [done|]. by intros p ->. }
    destruct HX as (? & ? & ?). split_and!; [done|done|]. set_solver.
  Qed.
End proofs.

Section dec.
  Context {N : Type} `{EqDecision N}.
  Definition is_n (n m : N) : nat := if decide (m = n) then 1 else 0.
  Lemma times_total n (l : list N) : times n l = total (is_n n) l.
  Proof. unfold times. induction l as [|m l IH]; [done|]. rewrite filter_cons. simpl. unfold is_n at 1. destruct (decide (m = n)); simpl; by rewrite IH. Qed.
  Lemma occ_total n (l : list N) : count_occ (λ a b, decide (a = b)) l n = total (is_n n) l.
  Proof. induction l as [|m l IH]; [done|]. simpl. unfold is_n at 1. destruct (decide (m = n)); simpl; by rewrite IH. Qed.
  Lemma at_most_once (ls : list (mlabel N)) s n : reach mstep mul_init ls s → times n (called ls) ≤ times n (taken ls).
  Proof. intros Hr. rewrite !times_total. pose proof (bound_reach (is_n n) _ _ Hr). lia. Qed.
  Lemma delivered (ls : list (mlabel N)) s : reach mstep mul_init ls s → MStop ∉ ls → 1 ≤ runs ls → (∀ l s', mstep s l s' → ¬ goes_on l) →
    called ls ≡ₚ taken ls ∧ returned ls = length (taken ls) ∧ m_adder s = AIdle.
  Proof.
    intros Hr Hns Hruns Hq. assert (E : called ls ≡ₚ taken ls).
    { apply (Permutation_count_occ (λ a b, decide (a = b))). intros n. rewrite !occ_total. by eapply rest_all. }
    split_and!; [done| |].
    - rewrite (rest_returned _ _ Hr Hns Hruns Hq). by rewrite E.
    - by destruct (rest_empty _ _ Hr (stop_seen _ _ Hr Hns) Hruns Hq).
  Qed.
End dec.
Lemma many_ends {N} (ls : list (mlabel N)) s : reach mstep mul_init ls s → ∃ b, ∀ ls' s', reach mstep s ls' s' → Forall goes_on ls' → length ls' ≤ b.
Proof. intros Hr. exists (left s). intros ls' s' Hr' Hf. pose proof (ends _ _ Hr _ _ Hr' Hf). lia. Qed.

(** ** Runs *)
Ltac mgo := eapply reach_do; [econstructor; try reflexivity; try (left; done); try (right; done)|]; simpl.
Definition both : list (mlabel nat) := [MRun; MRun; MStart 0; MStart 1; MStartRun 0; MStartRun 1].
Definition overlap_trace : list (mlabel nat) :=
  both ++ [MAdd 1; MPut 1; MGet 0; MJoined; MWake 0; MPutNext 0; MFetch 0; MCall 0 1; MWake 0; MNext 0;
           MAdd 2; MPut 2; MGet 1; MJoined; MWake 1; MPutNext 1; MFetch 1; MCall 1 2; MWake 1; MNext 1; MReturn 1].
Lemma overlap_run : reach mstep mul_init overlap_trace
  (Mul AIdle None false [MWait None None false; MWait None None false] [] None false [RHandling 1; RWait]).
Proof. unfold overlap_trace, both, mul_init. simpl. repeat mgo. apply reach_nil. Qed.
Definition stop_trace : list (mlabel nat) := both ++ [MStop; MWake 0; MWake 1; MRunStop 0; MRunStop 1].
Lemma stop_run : reach mstep mul_init stop_trace (Mul AIdle None true [MStopped; MStopped] [] None true [RStopped; RStopped]).
Proof. unfold stop_trace, both, mul_init. simpl. repeat mgo. apply reach_nil. Qed.

Global Instance mlabel_dec : EqDecision (mlabel nat).
Proof. solve_decision. Defined.
Lemma overlap_wit : ∃ (ls : list (mlabel nat)) s, reach mstep mul_init (ls ++ [MReturn 1]) s ∧ runs ls = 2 ∧
  taken ls = [1; 2] ∧ called ls = [1; 2] ∧ m_runs s = [RHandling 1; RWait].
Proof. exists (removelast overlap_trace). eexists. split; [exact overlap_run|by vm_compute]. Qed.
Lemma stop_wit : ∃ (ls : list (mlabel nat)) s, reach mstep mul_init ls s ∧ runs ls = 2 ∧ times MStop ls = 1 ∧
  m_pumps s = [MStopped; MStopped] ∧ m_adder s = AIdle.
Proof. exists stop_trace. eexists. split; [exact stop_run|by vm_compute]. Qed.
Lemma many_case : ∃ s, reach mstep mul_init (overlap_trace ++ [MReturn 0]) s ∧ called (overlap_trace ++ [MReturn 0]) = [1; 2] ∧ returned (overlap_trace ++ [MReturn 0]) = 2.
Proof. eexists. split; [eapply reach_snoc; [exact overlap_run|by eapply m_return]|by vm_compute]. Qed.
