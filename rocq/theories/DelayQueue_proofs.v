From Verif Require Import Base WorkQueue_model WorkQueue_spec WorkQueue_proofs
  WaitPQ_model WaitPQ_spec WaitPQ_proofs DelayQueue_model DelayQueue_spec.
From Coq Require Import ZArith Lia ZifyBool.
Open Scope Z_scope.

Section proofs.
  Context {A : Type} `{EqDecision A}.
  Notation smap := (list (A * Z)).
  Implicit Types (w : pq A) (m : smap) (s : dq A) (ls : list (dlabel A)).

  (** ** the heap through its specification *)
  Definition Pabs w m : Prop := dwf (pq_finder w) ∧ ∃ ms, R ms w ∧ m = abs ms.
  Definition live w : smap := (λ e, (e.1, e.2.1)) <$> pq_finder w.

  Lemma Pabs_init : Pabs pq_init [].
  Proof. split; [apply dwf_nil|]. exists []. split; [apply R_init|done]. Qed.

  Lemma pq_step_dwf w o : dwf (pq_finder w) → dwf (pq_finder (pqstep w o).1).
  Proof.
    intros Hw. destruct o as [d p| | |]; simpl; [| | |done].
    - unfold pq_insert, pq_remove, pq_push. destruct (dget d (pq_finder w)) as [[p0 c0]|]; simpl.
      + destruct (p0 >? p); simpl; [|done]. by apply dwf_dset, dwf_ddel.
      + by apply dwf_dset.
    - unfold pq_peek. by destruct (peek_heap _).
    - unfold pq_pop. destruct (pop_heap _) as [h [d|]]; simpl; [by apply dwf_ddel|done].
  Qed.
  Lemma Pabs_step w m o : Pabs w m → ∃ m', Pabs (pqstep w o).1 m' ∧ pspec m o m' (pqstep w o).2.
  Proof.
    intros (Hw & ms & HR & ->). destruct (R_step ms w o HR) as (ms' & HR' & Hp).
    exists (abs ms'). split; [|done]. split; [by apply pq_step_dwf|]. eauto.
  Qed.
  Lemma Pabs_insert w m d p : Pabs w m → ∃ m', Pabs (pq_insert d p w) m' ∧ pspec m (PInsert d p) m' QNone.
  Proof. intros HP. apply (Pabs_step w m (PInsert d p) HP). Qed.
  Lemma Pabs_len w m : Pabs w m → pq_len w = length m.
  Proof. intros (_ & ms & HR & ->). rewrite (r_len _ _ HR). unfold abs. by rewrite fmap_length. Qed.
  Lemma Pabs_peek w m : Pabs w m →
    Pabs (pq_peek w).1 m ∧
    match (pq_peek w).2 with
    | None => m = []
    | Some p => ∃ m1 m2 d, first_least m m1 m2 d p
    end.
  Proof.
    intros HP. destruct (Pabs_step w m PPeek HP) as (m' & HP' & Hs). simpl in *.
    destruct (pq_peek w) as [w' [p|]]; simpl in *; inversion Hs; subst; split; eauto.
  Qed.
  Lemma Pabs_pop w m : Pabs w m →
    match pq_pop w with
    | (w', None) => m = []
    | (w', Some d) => ∃ p m1 m2, first_least m m1 m2 d p ∧ Pabs w' (m1 ++ m2)
    end.
  Proof.
    intros HP. destruct (Pabs_step w m PPop HP) as (m' & HP' & Hs). simpl in *.
    destruct (pq_pop w) as [w' [p|]]; simpl in *; inversion Hs; subst; eauto 10.
  Qed.
  Lemma Pabs_nodup w m : Pabs w m → NoDup m.*1.
  Proof.
    intros (_ & ms & HR & ->). unfold abs. rewrite <-list_fmap_compose. apply (r_nodup _ _ HR).
  Qed.
  Lemma NoDup_of_fst {B C} (l : list (B * C)) : NoDup l.*1 → NoDup l.
  Proof. apply NoDup_fmap_1. Qed.
  Lemma Pabs_live w m : Pabs w m → live w ≡ₚ m.
  Proof.
    intros HP. pose proof (Pabs_nodup _ _ HP) as Hn. destruct HP as (Hw & ms & HR & ->).
    apply NoDup_Permutation.
    - apply NoDup_of_fst. unfold live. rewrite <-list_fmap_compose. done.
    - by apply NoDup_of_fst.
    - intros [d p]. unfold live, abs. rewrite !elem_of_list_fmap. split.
      + intros ([d' [p' c']] & Heq & Hin). simplify_eq/=. exists (d', p', c'). split; [done|].
        apply (r_finder _ _ HR). by apply elem_of_dget.
      + intros ([[d' p'] c'] & Heq & Hin). simplify_eq/=. exists (d', (p', c')). split; [done|].
        apply dget_elem_of. by apply (r_finder _ _ HR).
  Qed.

  (** adding a list of items to the ready queue *)
  Fixpoint add_list (xs : list A) (q : wq A) : wq A :=
    match xs with [] => q | x :: xs => add_list xs (wq_add x q).1 end.
  Lemma add_list_app xs ys q : add_list (xs ++ ys) q = add_list ys (add_list xs q).
  Proof. revert q. induction xs as [|x xs IH]; intros q; simpl; [done|]. by rewrite IH. Qed.

  Lemma wq_add_down x (q : wq A) : wq_down (wq_add x q).1 = wq_down q.
  Proof. unfold wq_add. destruct (wq_down q) eqn:?; [done|]. repeat case_decide; simpl; congruence. Qed.
  Lemma wq_add_dirty x (q : wq A) : wq_down q = false →
    ∀ y, y ∈ wq_dirty (wq_add x q).1 ↔ y = x ∨ y ∈ wq_dirty q.
  Proof.
    intros Hd y. unfold wq_add. rewrite Hd. case_decide; simpl; [naive_solver|].
    case_decide; simpl; by rewrite elem_of_sadd.
  Qed.
  Lemma add_list_down xs (q : wq A) : wq_down (add_list xs q) = wq_down q.
  Proof. revert q. induction xs as [|x xs IH]; intros q; simpl; [done|]. by rewrite IH, wq_add_down. Qed.
  Lemma add_list_dirty xs (q : wq A) : wq_down q = false →
    ∀ y, y ∈ wq_dirty (add_list xs q) ↔ y ∈ xs ∨ y ∈ wq_dirty q.
  Proof.
    revert q. induction xs as [|x xs IH]; intros q Hd y; simpl.
    - rewrite elem_of_nil. naive_solver.
    - rewrite IH by by rewrite wq_add_down. rewrite wq_add_dirty by done. rewrite elem_of_cons. naive_solver.
  Qed.
  Lemma add_list_exec xs (q : wq A) : exec wstep q ((λ x, (Add x, RNone)) <$> xs) (add_list xs q).
  Proof. revert q. induction xs as [|x xs IH]; intros q; simpl; [constructor|]. econstructor; [done|]. apply IH. Qed.

  (** lines 72-78 move exactly the due entries *)
  Lemma drain_due_spec fuel now w q m :
    Pabs w m → (length m ≤ fuel)%nat →
    ∃ w' rel m', drain_due fuel now w q = Some (w', add_list rel.*1 q) ∧ Pabs w' m' ∧
      m ≡ₚ rel ++ m' ∧ Forall (λ e, e.2 ≤ now) rel ∧ Forall (λ e, now < e.2) m'.
  Proof.
    revert w q m. induction fuel as [|fuel IH]; intros w q m HP Hlen; simpl.
    - destruct m; [|simpl in *; lia]. exists w, [], []. repeat split; try done; apply HP.
    - rewrite (Pabs_len _ _ HP). destruct (Nat.eqb_spec (length m) 0) as [H0|H0].
      { destruct m; [|done]. exists w, [], []. repeat split; try done; apply HP. }
      pose proof (Pabs_peek _ _ HP) as [HP1 Hpk]. destruct (pq_peek w) as [w1 [p|]]; simpl in *; [|by subst].
      destruct Hpk as (m1 & m2 & d & Hfl).
      assert (Hleast : Forall (λ e, p ≤ e.2) m).
      { destruct Hfl as (-> & Hf1 & Hf2). apply Forall_app. split; [|constructor; [simpl; lia|done]].
        eapply Forall_impl; [exact Hf1|]. simpl. intros; lia. }
      destruct (p >? now) eqn:Hgt.
      { exists w1, [], m. split; [done|]. split; [done|]. split; [done|]. split; [done|].
        eapply Forall_impl; [exact Hleast|]. simpl. intros; lia. }
      pose proof (Pabs_pop _ _ HP1) as Hpop. destruct (pq_pop w1) as [w2 [d2|]]; [|by subst].
      destruct Hpop as (p2 & m3 & m4 & (-> & Hf3 & Hf4) & HP2).
      assert (p2 = p) as ->.
      { destruct Hfl as (Heq & Hf1 & Hf2). rewrite Forall_forall in Hleast.
        assert (p ≤ p2) by (apply (Hleast (d2, p2)); set_solver).
        assert ((d, p) ∈ m3 ++ (d2, p2) :: m4) as Hin by (rewrite Heq; set_solver).
        rewrite !Forall_forall in *. apply elem_of_app in Hin as [Hin|[Hin|Hin]%elem_of_cons].
        - specialize (Hf3 _ Hin). simpl in *. lia.
        - by simplify_eq.
        - specialize (Hf4 _ Hin). simpl in *. lia. }
      destruct (IH w2 (wq_add d2 q).1 (m3 ++ m4) HP2) as (w' & rel & m' & Hdr & HP' & Hperm & Hf & Hf').
      { rewrite app_length in *. simpl in *. lia. }
      exists w', ((d2, p) :: rel), m'. split; [done|]. split; [done|].
      split; [rewrite <-Permutation_middle, Hperm; done|]. split; [|done]. constructor; [simpl; lia|done].
  Qed.

  (** lines 103-115: each entry is either released or tracked *)
  Lemma absorb_all_spec now es w q m :
    Pabs w m →
    ∃ w' rel m', absorb_all now es (w, q) = (w', add_list rel.*1 q) ∧ Pabs w' m' ∧
      Forall (λ e, e.2 ≤ now ∧ e ∈ es) rel ∧
      (∀ e, e ∈ m' → e ∈ m ∨ e ∈ es) ∧
      (∀ e, e ∈ m → ∃ r, (e.1, r) ∈ m' ∧ r ≤ e.2) ∧
      (∀ e, e ∈ es → e ∈ rel ∨ ∃ r, (e.1, r) ∈ m' ∧ r ≤ e.2) ∧
      (∀ f : A → bool, countb (λ e, f e.1) rel + countb (λ e, f e.1) m' ≤ countb (λ e, f e.1) m + countb (λ e, f e.1) es)%nat.
  Proof.
    revert w q m. induction es as [|[x r] es IH]; intros w q m HP; simpl.
    - exists w, [], m. split; [done|]. split; [done|]. split; [done|].
      split; [by left|]. split; [intros e He; exists e.2; destruct e; simpl; split; [done|lia]|].
      split; [by intros ? ?%elem_of_nil|]. intros f. rewrite !countb_nil. lia.
    - unfold absorb at 1; simpl. destruct (r >? now) eqn:Hgt.
      + destruct (Pabs_insert w m x r HP) as (m1 & HP1 & Hsp).
        destruct (IH _ q _ HP1) as (w' & rel & m' & Hab & HP' & Hf & H1 & H2 & H3 & H4).
        exists w', rel, m'. split; [done|]. split; [done|].
        assert (Hin1 : ∀ e, e ∈ m1 → e ∈ m ∨ e = (x, r)).
        { inversion Hsp; subst; set_solver. }
        assert (Hkeep : ∀ e, e ∈ m → ∃ r', (e.1, r') ∈ m1 ∧ r' ≤ e.2).
        { intros [y ry] He. simpl. inversion Hsp as [? ? ? Hn|? ? ? p0 Hin0 Hle|? a b ? ? p0 Heq Hlt| | | | |]; subst.
          - exists ry. split; [set_solver|lia].
          - exists ry. split; [done|lia].
          - apply elem_of_app in He as [He|[He|He]%elem_of_cons].
            + exists ry. split; [set_solver|lia].
            + simplify_eq. exists r. split; [set_solver|lia].
            + exists ry. split; [set_solver|lia]. }
        assert (Hnew : ∃ r', (x, r') ∈ m1 ∧ r' ≤ r).
        { inversion Hsp as [? ? ? Hn|? ? ? p0 Hin0 Hle|? a b ? ? p0 Heq Hlt| | | | |]; subst.
          - exists r. split; [set_solver|lia].
          - exists p0. done.
          - exists r. split; [set_solver|lia]. }
        assert (Hcnt : ∀ f : A → bool, (countb (λ e, f e.1) m1 ≤ countb (λ e, f e.1) m + (if f x then 1 else 0))%nat).
        { intros f. inversion Hsp; subst; rewrite ?countb_app, ?countb_cons, ?countb_nil; simpl; destruct (f x); lia. }
        split; [|split; [|split; [|split]]].
        * eapply Forall_impl; [exact Hf|]. intros e [? ?]. split; [done|by right].
        * intros e He. apply H1 in He as [He|He]; [|right; by right].
          apply Hin1 in He as [He| ->]; [by left|right; by left].
        * intros e He. destruct (Hkeep e He) as (r1 & Hr1 & ?). destruct (H2 _ Hr1) as (r2 & ? & ?). simpl in *.
          exists r2. split; [done|lia].
        * intros e [->|He]%elem_of_cons; [|by apply H3]. right. destruct Hnew as (r1 & Hr1 & ?).
          destruct (H2 _ Hr1) as (r2 & ? & ?). simpl in *. exists r2. split; [done|lia].
        * intros f. specialize (H4 f). specialize (Hcnt f). rewrite countb_cons. simpl. lia.
      + destruct (IH w (wq_add x q).1 m HP) as (w' & rel & m' & Hab & HP' & Hf & H1 & H2 & H3 & H4).
        exists w', ((x, r) :: rel), m'. split; [done|]. split; [done|].
        split; [|split; [|split; [|split]]].
        * constructor; [simpl; split; [lia|by left]|]. eapply Forall_impl; [exact Hf|].
          intros e [? ?]. split; [done|by right].
        * intros e He. apply H1 in He as [He|He]; [by left|right; by right].
        * done.
        * intros e [->|He]%elem_of_cons; [left; by left|]. destruct (H3 e He) as [?|?]; [left; by right|by right].
        * intros f. specialize (H4 f). rewrite !countb_cons. lia.
  Qed.

  (** ** The invariant *)
  Definition got (pc : lpc A) : smap := match pc with LGot e => [e] | _ => [] end.
  Definition trk s m : smap := dq_puts s ++ dq_incoming s ++ got (dq_pc s) ++ m.
  Definition iskey (x : A) (e : A * Z) : bool := bool_decide (e.1 = x).
  Definition pc_ok (s : dq A) m : Prop :=
    match dq_pc s with
    | LCrash => False
    | LEnd => dq_stop s = true
    | LWait None => m = []
    | LWait (Some t) => ∃ m1 m2 d, first_least m m1 m2 d t
    | _ => True
    end.
  Definition isdirty (x : A) (q : wq A) : nat := if decide (x ∈ wq_dirty q) then 1%nat else 0%nat.

  Record DI ls s m : Prop := {
    di_P : Pabs (dq_pq s) m;
    di_down : wq_down (dq_base s) = false;
    di_base : ∃ h, exec wstep wq_init h (dq_base s);
    di_time x d t0 : DAddAfter x d t0 ∈ ls → t0 ≤ dq_now s;
    di_tr e : e ∈ trk s m → ∃ d t0, DAddAfter e.1 d t0 ∈ ls ∧ e.2 = t0 + d;
    di_dirty x : x ∈ wq_dirty (dq_base s) → authorised ls x (dq_now s);
    di_lost : dq_stop s = false → ∀ l1 l2 x d t0, ls = l1 ++ DAddAfter x d t0 :: l2 →
      (∃ T, DGet (RItem x) T ∈ l2) ∨ x ∈ wq_dirty (dq_base s) ∨ ∃ r, (x, r) ∈ trk s m ∧ r ≤ t0 + d;
    di_cnt x : (deliveries x ls + isdirty x (dq_base s) + countb (iskey x) (trk s m) ≤ requests_for x ls)%nat;
    di_pc : pc_ok s m;
    di_inc : (length (dq_incoming s) ≤ incoming_max)%nat
  }.

  Lemma authorised_mono ls l x T T' : authorised ls x T → T ≤ T' → authorised (ls ++ [l]) x T'.
  Proof.
    intros [H|(d & t0 & H & ?)] ?; [left; set_solver|right]. exists d, t0. split; [set_solver|lia].
  Qed.

  Definition neutral (l : dlabel A) : Prop :=
    match l with DAdd _ | DAddAfter _ _ _ | DGet (RItem _) _ => False | _ => True end.
  Lemma neutral_deliveries l ls x : neutral l → deliveries x (ls ++ [l]) = deliveries x ls.
  Proof.
    intros Hn. unfold deliveries. rewrite countb_app, countb_cons, countb_nil. destruct l as [| | |[]| | | | | | | | | |]; simpl in *; try done; lia.
  Qed.
  Lemma neutral_requests l ls x : neutral l → requests_for x (ls ++ [l]) = requests_for x ls.
  Proof.
    intros Hn. unfold requests_for. rewrite countb_app, countb_cons, countb_nil. destruct l as [| | |[]| | | | | | | | | |]; simpl in *; try done; lia.
  Qed.

  Lemma add_list_isdirty xs (q : wq A) x : wq_down q = false →
    (isdirty x (add_list xs q) ≤ isdirty x q + countb (λ y, bool_decide (y = x)) xs)%nat.
  Proof.
    intros Hd. unfold isdirty. case_decide as Hin; [|lia].
    apply add_list_dirty in Hin as [Hin|Hin]; [|rewrite decide_True by done; lia|done].
    assert (0 < countb (λ y, bool_decide (y = x)) xs)%nat; [|lia].
    destruct (countb _ xs) eqn:Hc; [|lia]. rewrite countb_zero in Hc. specialize (Hc x Hin).
    rewrite bool_decide_eq_false in Hc. done.
  Qed.
  Lemma countb_fmap {X Y} (g : X → Y) (f : Y → bool) l : countb f (g <$> l) = countb (λ x, f (g x)) l.
  Proof. induction l as [|x l IH]; csimpl; [done|]. by rewrite !countb_cons, IH. Qed.

  Lemma DI_move ls s m l s' m' rel :
    DI ls s m → neutral l → dq_now s' = dq_now s → (dq_stop s = true → dq_stop s' = true) →
    dq_base s' = add_list rel.*1 (dq_base s) →
    Forall (λ e, e.2 ≤ dq_now s ∧ e ∈ trk s m) rel →
    (∀ e, e ∈ trk s' m' → e ∈ trk s m) →
    (dq_stop s' = false → ∀ e, e ∈ trk s m → e ∈ rel ∨ ∃ r, (e.1, r) ∈ trk s' m' ∧ r ≤ e.2) →
    (∀ x, countb (iskey x) rel + countb (iskey x) (trk s' m') ≤ countb (iskey x) (trk s m))%nat →
    Pabs (dq_pq s') m' → pc_ok s' m' → (length (dq_incoming s') ≤ incoming_max)%nat →
    DI (ls ++ [l]) s' m'.
  Proof.
    intros [HP Hdn [h Hex] Htime Htr Hdirty Hlost Hcnt Hpc Hinc] Hneu Hnow Hstop Hbase Hrel Hsub Hkeep Hcount HP' Hpc' Hinc'.
    assert (Hmem : ∀ x d t0, DAddAfter x d t0 ∈ ls ++ [l] ↔ DAddAfter x d t0 ∈ ls).
    { intros. rewrite elem_of_app, elem_of_list_singleton. split; [|by left]. intros [?|<-]; done. }
    split; try done.
    - by rewrite Hbase, add_list_down.
    - rewrite Hbase. exists (h ++ ((λ x, (Add x, RNone)) <$> rel.*1)). apply exec_app. eexists. split; [done|]. apply add_list_exec.
    - intros x d t0. rewrite Hmem, Hnow. apply Htime.
    - intros e He. destruct (Htr e (Hsub e He)) as (d & t0 & ? & ?). exists d, t0. by rewrite Hmem.
    - intros x Hx. rewrite Hnow. rewrite Hbase in Hx. apply add_list_dirty in Hx as [Hx|Hx]; [| |done].
      + apply elem_of_list_fmap in Hx as ([x' r] & -> & Hx). rewrite Forall_forall in Hrel.
        destruct (Hrel _ Hx) as [Hle Hin]. simpl in *. destruct (Htr _ Hin) as (d & t0 & ? & ?). simpl in *. right.
        exists d, t0. rewrite Hmem. split; [done|lia].
      + eapply authorised_mono; [by apply Hdirty|lia].
    - intros Hs' l1 l2 x d t0 Heq. apply split_snoc in Heq as [(-> & -> & ->)|(b' & -> & ->)]; [done|].
      assert (dq_stop s = false) as Hs by (destruct (dq_stop s); [by rewrite Hstop in Hs'|done]).
      destruct (Hlost Hs l1 b' x d t0 eq_refl) as [(T & ?)|[Hd|(r & Hin & Hle)]].
      + left. exists T. set_solver.
      + right; left. rewrite Hbase. apply add_list_dirty; [done|]. by right.
      + destruct (Hkeep Hs' _ Hin) as [Hr|(r' & Hr' & Hle')].
        * right; left. rewrite Hbase. apply add_list_dirty; [done|]. left. apply elem_of_list_fmap. by exists (x, r).
        * right; right. exists r'. simpl in *. split; [done|lia].
    - intros x. rewrite neutral_deliveries, neutral_requests by done. specialize (Hcnt x). specialize (Hcount x).
      pose proof (add_list_isdirty rel.*1 (dq_base s) x Hdn) as Hi. rewrite countb_fmap in Hi.
      rewrite Hbase. unfold iskey in *. lia.
  Qed.

  Lemma trk_alt s m : trk s m = dq_puts s ++ dq_incoming s ++ got (dq_pc s) ++ m.
  Proof. done. Qed.

  Lemma DI_init t : DI [] (dq_init t) [].
  Proof.
    split; simpl; try done.
    - apply Pabs_init.
    - exists []. constructor.
    - intros x d t0 ?%elem_of_nil. done.
    - intros e. unfold trk. simpl. by intros ?%elem_of_nil.
    - intros x ?%elem_of_nil. done.
    - intros _ l1. by destruct l1.
    - lia.
  Qed.

  (** base queue calls *)
  Lemma base_step_dirty (q q' : wq A) o r x :
    wq_down q = false → wstep q o = (q', r) → o ≠ ShutDown →
    wq_down q' = false ∧ (x ∈ wq_dirty q' → x ∈ wq_dirty q ∨ o = Add x) ∧
    (x ∈ wq_dirty q → x ∈ wq_dirty q' ∨ (o = Get ∧ r = RItem x)).
  Proof.
    intros Hd Hs Ho. destruct o as [y| |y|]; simpl in Hs; [| | |done].
    - simplify_eq. split; [by rewrite wq_add_down|]. rewrite wq_add_dirty by done. naive_solver.
    - unfold wq_get in Hs. destruct (wq_queue q) as [|y rest]; [rewrite Hd in Hs; simplify_eq; naive_solver|].
      simplify_eq; simpl. rewrite elem_of_srem. destruct (decide (x = y)); naive_solver.
    - unfold wq_done in Hs. repeat case_decide; simplify_eq; simpl; naive_solver.
  Qed.

  (** an item is handed out only while dirty (fields invariant through its history) *)
  Lemma get_item_dirty (q q' : wq A) h x : exec wstep wq_init h q → wstep q Get = (q', RItem x) →
    x ∈ wq_dirty q ∧ x ∉ wq_dirty q'.
  Proof.
    intros Hx Hs. pose proof (wq_inv_exec _ _ Hx) as Hinv.
    pose proof (exec_get_item _ _ _ Hs) as (r & Hq & _).
    assert (x ∈ wq_queue q) as Hin by (rewrite Hq; left). rewrite (inv_queue _ _ Hinv) in Hin.
    destruct Hin as [Ho _]. split; [by apply (inv_dirty _ _ Hinv)|].
    simpl in Hs. unfold wq_get in Hs. rewrite Hq in Hs. simplify_eq; simpl. rewrite elem_of_srem. naive_solver.
  Qed.

  Lemma isdirty_le (q q' : wq A) x : (x ∈ wq_dirty q' → x ∈ wq_dirty q) → (isdirty x q' ≤ isdirty x q)%nat.
  Proof. unfold isdirty. repeat case_decide; intros; try lia. exfalso; auto. Qed.

  Lemma DI_step ls s m l s' : DI ls s m → dtrans s l s' → ∃ m', DI (ls ++ [l]) s' m'.
  Proof.
    intros HDI Ht. pose proof HDI as [HP Hdn [h Hex] Htime Htr Hdirty Hlost Hcnt Hpc Hinc].
    destruct Ht as [s t Hle|s x|s q r Hget|s x q r Hdone|s x d|s|s e a b Hputs Hlen|s e a b Hputs Hst|s Hp|s tm e rest Hp Hi|s e Hp|s t Hp Hle|s tm Hp|s tm Hp Hst].
    - (* tick *) exists m. split; simpl; try done.
      + eauto.
      + intros x d t0 [Hin|?%elem_of_list_singleton]%elem_of_app; [|done]. specialize (Htime _ _ _ Hin). lia.
      + intros e He. destruct (Htr e He) as (d & t0 & ? & ?). exists d, t0. set_solver.
      + intros x Hx. eapply authorised_mono; [by apply Hdirty|done].
      + intros Hs l1 l2 x d t0 [(-> & -> & ?)|(b' & -> & ->)]%split_snoc; [done|].
        destruct (Hlost Hs l1 b' x d t0 eq_refl) as [(T & ?)|[?|?]]; [left; exists T; set_solver|tauto|tauto].
      + intros x. rewrite neutral_deliveries, neutral_requests by done. apply Hcnt.
    - (* add *) exists m. simpl.
      split; simpl; try done.
      + by rewrite wq_add_down.
      + exists (h ++ [(Add x, RNone)]). apply exec_snoc. eauto.
      + intros y d t0 [Hin|?%elem_of_list_singleton]%elem_of_app; [|done]. by apply Htime in Hin.
      + intros e He. destruct (Htr e He) as (d & t0 & ? & ?). exists d, t0. set_solver.
      + intros y [->|Hy]%wq_add_dirty; [| |done].
        * left. set_solver.
        * eapply authorised_mono; [by apply Hdirty|lia].
      + intros Hs l1 l2 y d t0 [(-> & -> & ?)|(b' & -> & ->)]%split_snoc; [done|].
        rewrite wq_add_dirty by done.
        destruct (Hlost Hs l1 b' y d t0 eq_refl) as [(T & ?)|[?|?]]; [left; exists T; set_solver|tauto|tauto].
      + intros y. specialize (Hcnt y). unfold deliveries, requests_for in *. rewrite !countb_app, !countb_cons, !countb_nil.
        pose proof (add_list_isdirty [x] (dq_base s) y Hdn) as Hi. rewrite countb_cons, countb_nil in Hi. simpl in Hi.
        unfold trk in *. simpl. lia.
    - (* get *) exists m.
      pose proof (λ x, base_step_dirty _ _ _ _ x Hdn Hget ltac:(done)) as Hb.
      assert (Hdn' : wq_down q = false).
      { simpl in Hget. unfold wq_get in Hget. destruct (wq_queue (dq_base s)); [rewrite Hdn in Hget|]; by simplify_eq. }
      split; simpl; try done.
      + exists (h ++ [(Get, r)]). apply exec_snoc. eauto.
      + intros y d t0 [Hin|?%elem_of_list_singleton]%elem_of_app; [|done]. by apply Htime in Hin.
      + intros e He. destruct (Htr e He) as (d & t0 & ? & ?). exists d, t0. set_solver.
      + intros y Hy. eapply authorised_mono; [apply Hdirty|lia]. destruct (Hb y) as (_ & Hb' & _).
        destruct (Hb' Hy); [done|congruence].
      + intros Hs l1 l2 y d t0 [(-> & -> & ?)|(b' & -> & ->)]%split_snoc; [done|].
        destruct (Hlost Hs l1 b' y d t0 eq_refl) as [(T & ?)|[Hy|?]]; [left; exists T; set_solver| |by right; right].
        destruct (Hb y) as (_ & _ & Hb'). destruct (Hb' Hy) as [?|[_ ->]]; [tauto|].
        left. exists (dq_now s). set_solver.
      + intros y. specialize (Hcnt y). unfold deliveries, requests_for in *. rewrite !countb_app, !countb_cons, !countb_nil.
        unfold trk in *. simpl.
        assert (isdirty y q ≤ isdirty y (dq_base s))%nat as Hle.
        { apply isdirty_le. destruct (Hb y) as (_ & Hb' & _). intros Hy. destruct (Hb' Hy); [done|congruence]. }
        destruct r as [|z| | |]; try lia. case_bool_decide; [|lia]. subst z.
        destruct (get_item_dirty _ _ _ _ Hex Hget) as [Hd1 Hd2]. unfold isdirty in *.
        rewrite decide_True in Hcnt by done. rewrite decide_False by done. lia.
    - (* done *) exists m.
      pose proof (λ x, base_step_dirty _ _ _ _ x Hdn Hdone ltac:(done)) as Hb.
      assert (Hdn' : wq_down q = false).
      { by destruct (Hb x). }
      split; simpl; try done.
      + exists (h ++ [(Done x, r)]). apply exec_snoc. eauto.
      + intros y d t0 [Hin|?%elem_of_list_singleton]%elem_of_app; [|done]. by apply Htime in Hin.
      + intros e He. destruct (Htr e He) as (d & t0 & ? & ?). exists d, t0. set_solver.
      + intros y Hy. eapply authorised_mono; [apply Hdirty|lia]. destruct (Hb y) as (_ & Hb' & _).
        destruct (Hb' Hy); [done|congruence].
      + intros Hs l1 l2 y d t0 [(-> & -> & ?)|(b' & -> & ->)]%split_snoc; [done|].
        destruct (Hlost Hs l1 b' y d t0 eq_refl) as [(T & ?)|[Hy|?]]; [left; exists T; set_solver| |by right; right].
        destruct (Hb y) as (_ & _ & Hb'). destruct (Hb' Hy) as [?|[? _]]; [tauto|done].
      + intros y. specialize (Hcnt y). rewrite neutral_deliveries, neutral_requests by done.
        assert (isdirty y q ≤ isdirty y (dq_base s))%nat as Hle.
        { apply isdirty_le. destruct (Hb y) as (_ & Hb' & _). intros Hy. destruct (Hb' Hy); [done|congruence]. }
        unfold trk in *. simpl. lia.
    - (* add_after *) exists m. unfold dq_add_after. rewrite Hdn. destruct (d <=? 0) eqn:Hd0.
      + split; simpl; try done.
        * by rewrite wq_add_down.
        * exists (h ++ [(Add x, RNone)]). apply exec_snoc. eauto.
        * intros y d' t0 [Hin|Hin%elem_of_list_singleton]%elem_of_app; [by apply Htime in Hin|]. by simplify_eq.
        * intros e He. destruct (Htr e He) as (d' & t0 & ? & ?). exists d', t0. set_solver.
        * intros y [->|Hy]%wq_add_dirty; [| |done].
          -- right. exists d, (dq_now s). split; [set_solver|lia].
          -- eapply authorised_mono; [by apply Hdirty|lia].
        * intros Hs l1 l2 y d' t0 [(-> & -> & ?)|(b' & -> & ->)]%split_snoc; rewrite wq_add_dirty by done.
          -- simplify_eq. by right; left; left.
          -- destruct (Hlost Hs l1 b' y d' t0 eq_refl) as [(T & ?)|[?|?]]; [left; exists T; set_solver|tauto|tauto].
        * intros y. specialize (Hcnt y). unfold deliveries, requests_for in *. rewrite !countb_app, !countb_cons, !countb_nil.
          pose proof (add_list_isdirty [x] (dq_base s) y Hdn) as Hi. rewrite countb_cons, countb_nil in Hi. simpl in Hi.
          unfold trk in *. simpl. lia.
      + assert (Htrk : ∀ e, e ∈ trk (DQ (dq_now s) (dq_base s) (dq_stop s) (dq_puts s ++ [(x, dq_now s + d)]) (dq_incoming s) (dq_pq s) (dq_pc s)) m ↔ e ∈ trk s m ∨ e = (x, dq_now s + d)).
        { intros e. unfold trk; simpl. rewrite !elem_of_app, elem_of_list_singleton. tauto. }
        split; simpl; try done.
        * eauto.
        * intros y d' t0 [Hin|Hin%elem_of_list_singleton]%elem_of_app; [by apply Htime in Hin|]. by simplify_eq.
        * intros e [He| ->]%Htrk.
          -- destruct (Htr e He) as (d' & t0 & ? & ?). exists d', t0. set_solver.
          -- exists d, (dq_now s). split; [set_solver|done].
        * intros y Hy. eapply authorised_mono; [by apply Hdirty|lia].
        * intros Hs l1 l2 y d' t0 [(-> & -> & ?)|(b' & -> & ->)]%split_snoc.
          -- simplify_eq. right; right. exists (dq_now s + d'). rewrite Htrk. split; [by right|lia].
          -- destruct (Hlost Hs l1 b' y d' t0 eq_refl) as [(T & ?)|[?|(r & ? & ?)]]; [left; exists T; set_solver|tauto|].
             right; right. exists r. rewrite Htrk. tauto.
        * intros y. specialize (Hcnt y). unfold deliveries, requests_for in *. rewrite !countb_app, !countb_cons, !countb_nil.
          unfold trk in *; simpl. rewrite !countb_app, countb_cons, countb_nil in *. unfold iskey at 2; simpl. lia.
    - (* shut_down *) exists m. unfold dq_shut_down, shut_down_body. destruct (dq_stop s) eqn:Hst; simpl.
      + eapply (DI_move ls s m DShutDown s m []); try done; try (by constructor).
        * intros _ e He. right. destruct e as [y r]. exists r. split; [done|simpl; lia].
      + eapply (DI_move ls s m DShutDown _ m []); try done; try (by constructor); simpl.
        destruct (dq_pc s) eqn:Hpcs; unfold pc_ok in *; simpl; rewrite Hpcs in Hpc; done.
    - (* put *) exists m. eapply (DI_move ls s m DPut _ m []); try done; try (by constructor); unfold trk; simpl.
      + intros e0. rewrite Hputs, !elem_of_app, !elem_of_cons, elem_of_nil. tauto.
      + intros _ e0. rewrite Hputs. rewrite !elem_of_app, elem_of_cons. intros He. right. exists e0.2.
        split; [|lia]. destruct e0. simpl. rewrite !elem_of_app, elem_of_list_singleton. tauto.
      + intros x. rewrite Hputs, !countb_app, !countb_cons, !countb_nil. lia.
      + rewrite app_length; simpl. lia.
    - (* put cancelled *) exists m. eapply (DI_move ls s m DPutCancel _ m []); try done; try (by constructor); unfold trk; simpl.
      + intros e0. rewrite Hputs, !elem_of_app, elem_of_cons. tauto.
      + rewrite Hst. done.
      + intros x. rewrite Hputs, !countb_app, !countb_cons. lia.
    - (* loop top *) unfold loop_top. rewrite Hdn.
      destruct (drain_due_spec (pq_len (dq_pq s)) (dq_now s) (dq_pq s) (dq_base s) m HP) as (w' & rel & m' & Hdr & HP' & Hperm & Hf1 & Hf2).
      { by rewrite (Pabs_len _ _ HP). }
      rewrite Hdr. exists m'.
      assert (Hgen : ∀ w1 pc1, Pabs w1 m' → got pc1 = [] → pc_ok (with_loop (add_list rel.*1 (dq_base s)) w1 pc1 s) m' →
        DI (ls ++ [DLoopTop]) (with_loop (add_list rel.*1 (dq_base s)) w1 pc1 s) m').
      { intros w1 pc1 HP1 Hgot Hok. eapply (DI_move ls s m DLoopTop _ m' rel); try done; unfold trk; simpl; rewrite Hp, ?Hgot; simpl.
        - rewrite Forall_forall in *. intros e He. split; [by apply Hf1|]. rewrite !elem_of_app. right; right.
          rewrite Hperm. set_solver.
        - intros e. rewrite Hperm. rewrite !elem_of_app. tauto.
        - intros _ e. rewrite Hperm. rewrite !elem_of_app. intros He.
          destruct (decide (e ∈ rel)); [by left|right]. exists e.2. destruct e; simpl. split; [|lia]. rewrite !elem_of_app. tauto.
        - intros x. rewrite !countb_app, (countb_perm _ m (rel ++ m')), countb_app by done. lia. }
      rewrite (Pabs_len _ _ HP'). destruct (Nat.eqb_spec (length m') 0) as [H0|H0].
      + apply Hgen; [done|done|]. destruct m'; [done|]. done.
      + pose proof (Pabs_peek _ _ HP') as [HP1 Hpk]. destruct (pq_peek w') as [w1 [p|]]; simpl in *; [|by subst].
        apply Hgen; [done|done|]. unfold pc_ok; simpl. replace (dq_now s + (p - dq_now s)) with p by lia. done.
    - (* take *) exists m. eapply (DI_move ls s m DTake _ m []); try done; try (by constructor); unfold trk; simpl; rewrite ?Hp, ?Hi; simpl.
      + intros e0. rewrite !elem_of_app, !elem_of_cons, !elem_of_app. tauto.
      + intros _ e0 He. right. exists e0.2. split; [|lia]. destruct e0; simpl.
        revert He. rewrite !elem_of_app, !elem_of_cons, !elem_of_app. tauto.
      + intros x. rewrite !countb_app, !countb_cons, ?countb_app. lia.
      + rewrite Hi in Hinc. simpl in Hinc. lia.
    - (* resume *) unfold loop_resume. destruct (dq_stop s) eqn:Hst.
      + exists m. eapply (DI_move ls s m DResume _ m []); try done; try (by constructor); unfold trk; simpl; rewrite ?Hp; simpl.
        * intros e0. rewrite !elem_of_app, elem_of_cons. tauto.
        * rewrite Hst. done.
        * intros x. rewrite !countb_app, !countb_cons. lia.
      + change (absorb_all (dq_now s) (dq_incoming s) (absorb (dq_now s) e (dq_pq s, dq_base s)))
          with (absorb_all (dq_now s) (e :: dq_incoming s) (dq_pq s, dq_base s)).
        destruct (absorb_all_spec (dq_now s) (e :: dq_incoming s) (dq_pq s) (dq_base s) m HP)
          as (w' & rel & m' & Hab & HP' & Hf & H1 & H2 & H3 & H4).
        rewrite Hab. exists m'. eapply (DI_move ls s m DResume _ m' rel); try done; unfold trk; simpl; rewrite ?Hp; simpl.
        * rewrite Hst. done.
        * eapply Forall_impl; [exact Hf|]. intros e0 [? Hin]. split; [done|]. revert Hin.
          rewrite !elem_of_app, !elem_of_cons. tauto.
        * intros e0. rewrite !elem_of_app. intros [He0|He0]; [tauto|].
          apply H1 in He0. revert He0. rewrite !elem_of_cons. tauto.
        * intros _ e0. rewrite !elem_of_app, !elem_of_cons. intros [He0|[He0|[He0|He0]]].
          -- right. exists e0.2. destruct e0; simpl. rewrite !elem_of_app. split; [tauto|lia].
          -- destruct (H3 e0 ltac:(by right)) as [?|(r & ? & ?)]; [by left|right]. exists r. rewrite !elem_of_app. tauto.
          -- destruct (H3 e0 ltac:(subst; by left)) as [?|(r & ? & ?)]; [by left|right]. exists r. rewrite !elem_of_app. tauto.
          -- destruct (H2 e0 He0) as (r & ? & ?). right. exists r. rewrite !elem_of_app. tauto.
        * intros x. specialize (H4 (λ y, bool_decide (y = x))). rewrite !countb_app, !countb_cons in *. unfold iskey. rewrite ?countb_nil. lia.
        * unfold incoming_max. lia.
    - (* timer *) exists m. unfold loop_wake. eapply (DI_move ls s m DWakeTimer _ m []); try done; try (by constructor); unfold trk; simpl; rewrite ?Hp; simpl.
      + intros e0. by destruct (dq_stop s).
      + intros Hs e0 He. rewrite Hs. right. exists e0.2. destruct e0; simpl. split; [done|lia].
      + intros x. destruct (dq_stop s); simpl; lia.
      + unfold pc_ok; simpl. by destruct (dq_stop s) eqn:?.
    - (* heartbeat *) exists m. unfold loop_wake. eapply (DI_move ls s m DWakeHeartbeat _ m []); try done; try (by constructor); unfold trk; simpl; rewrite ?Hp; simpl.
      + intros e0. by destruct (dq_stop s).
      + intros Hs e0 He. rewrite Hs. right. exists e0.2. destruct e0; simpl. split; [done|lia].
      + intros x. destruct (dq_stop s); simpl; lia.
      + unfold pc_ok; simpl. by destruct (dq_stop s) eqn:?.
    - (* stop *) exists m. unfold loop_wake. eapply (DI_move ls s m DWakeStop _ m []); try done; try (by constructor); unfold trk; simpl; rewrite ?Hp; simpl.
      + intros e0. by destruct (dq_stop s).
      + intros Hs e0 He. rewrite Hs. right. exists e0.2. destruct e0; simpl. split; [done|lia].
      + intros x. destruct (dq_stop s); simpl; lia.
      + unfold pc_ok; simpl. by destruct (dq_stop s) eqn:?.
  Qed.

  Lemma DI_reach t ls s : reach dtrans (dq_init t) ls s → ∃ m, DI ls s m.
  Proof.
    apply (reach_trace_inv dtrans (λ ls s, ∃ m, DI ls s m)).
    - exists []. apply DI_init.
    - intros ls' s1 l s2 _ [m HDI] Ht. by eapply DI_step.
  Qed.

  (** ** consequences *)
  Lemma get_dirty ls s l s' m x T : DI ls s m → dtrans s l s' → l = DGet (RItem x) T →
    T = dq_now s ∧ x ∈ wq_dirty (dq_base s) ∧ x ∉ wq_dirty (dq_base s').
  Proof.
    intros HDI Ht ->. inversion Ht as [| |? q r Hget| | | | | | | | | | |]; subst.
    destruct (di_base _ _ _ HDI) as [h Hex]. destruct (get_item_dirty _ _ _ _ Hex Hget). done.
  Qed.

  Lemma never_early t ls s l1 l2 x T :
    reach dtrans (dq_init t) ls s → ls = l1 ++ DGet (RItem x) T :: l2 → authorised l1 x T.
  Proof.
    intros Hr ->. replace (l1 ++ DGet (RItem x) T :: l2) with ((l1 ++ [DGet (RItem x) T]) ++ l2) in Hr by by rewrite <-app_assoc.
    apply reach_app_inv in Hr as (s2 & Hr & _). apply reach_app_inv in Hr as (s1 & Hr & Ht).
    destruct (DI_reach _ _ _ Hr) as [m HDI].
    apply reach_one_inv in Ht as Ht'.
    destruct (get_dirty _ _ _ _ _ x T HDI Ht' eq_refl) as (-> & Hx & _). by apply (di_dirty _ _ _ HDI).
  Qed.

  Lemma deliveries_le t ls s x : reach dtrans (dq_init t) ls s → (deliveries x ls ≤ requests_for x ls)%nat.
  Proof. intros [m HDI]%DI_reach. pose proof (di_cnt _ _ _ HDI x). lia. Qed.

  Lemma trk_tracked s m : Pabs (dq_pq s) m → dq_tracked s ≡ₚ trk s m.
  Proof.
    intros HP. unfold dq_tracked, trk, got. rewrite <-(Pabs_live _ _ HP). done.
  Qed.

  Lemma not_lost t ls s l1 l2 x d t0 :
    reach dtrans (dq_init t) ls s → dq_stop s = false → ls = l1 ++ DAddAfter x d t0 :: l2 →
    (∃ T, DGet (RItem x) T ∈ l2) ∨ ready_owed x s ∨ ∃ r, (x, r) ∈ dq_tracked s ∧ r ≤ t0 + d.
  Proof.
    intros [m HDI]%DI_reach Hst Heq.
    destruct (di_lost _ _ _ HDI Hst _ _ _ _ _ Heq) as [?|[Hd|(r & Hin & ?)]]; [by left|right; left|right; right].
    - destruct (di_base _ _ _ HDI) as [h Hex]. exists h. split; [done|].
      by apply (inv_dirty _ _ (wq_inv_exec _ _ Hex)).
    - exists r. rewrite (trk_tracked _ _ (di_P _ _ _ HDI)). done.
  Qed.

  Lemma sleeping_timer t ls s tm :
    reach dtrans (dq_init t) ls s → dq_pc s = LWait tm →
    match tm with
    | None => live (dq_pq s) = []
    | Some r => (∃ x, (x, r) ∈ live (dq_pq s)) ∧ ∀ e, e ∈ live (dq_pq s) → r ≤ e.2
    end.
  Proof.
    intros [m HDI]%DI_reach Hpc. pose proof (di_pc _ _ _ HDI) as Hok. unfold pc_ok in Hok. rewrite Hpc in Hok.
    pose proof (Pabs_live _ _ (di_P _ _ _ HDI)) as Hl.
    destruct tm as [r|].
    - destruct Hok as (m1 & m2 & x & -> & Hf1 & Hf2). rewrite !Forall_forall in *. split.
      + exists x. rewrite Hl. set_solver.
      + intros e. rewrite Hl. rewrite elem_of_app, elem_of_cons. intros [He|[->|He]]; simpl; [|lia|by apply Hf2].
        specialize (Hf1 _ He). lia.
    - subst. by apply Permutation_nil_r in Hl.
  Qed.

  (** lines 69-97 always reach the suspension, with nothing due left *)
  Lemma loop_top_waits ls s m : DI ls s m → dq_pc s = LTop →
    ∃ tm, dq_pc (loop_top s) = LWait tm ∧ dq_now (loop_top s) = dq_now s ∧ dq_stop (loop_top s) = dq_stop s ∧
      dq_puts (loop_top s) = dq_puts s ∧ dq_incoming (loop_top s) = dq_incoming s ∧
      ∀ e, e ∈ live (dq_pq (loop_top s)) → dq_now s < e.2.
  Proof.
    intros HDI Hpc. pose proof HDI as [HP Hdn _ _ _ _ _ _ _ _]. unfold loop_top. rewrite Hdn.
    destruct (drain_due_spec (pq_len (dq_pq s)) (dq_now s) (dq_pq s) (dq_base s) m HP) as (w' & rel & m' & Hdr & HP' & Hperm & Hf1 & Hf2).
    { by rewrite (Pabs_len _ _ HP). }
    rewrite Hdr, (Pabs_len _ _ HP'). rewrite Forall_forall in Hf2.
    destruct (Nat.eqb_spec (length m') 0) as [H0|H0].
    - eexists; repeat split; simpl. intros e. rewrite (Pabs_live _ _ HP'). apply Hf2.
    - pose proof (Pabs_peek _ _ HP') as [HP1 Hpk]. destruct (pq_peek w') as [w1 [p|]]; simpl in *; [|by subst].
      eexists; repeat split; simpl. intros e. rewrite (Pabs_live _ _ HP1). apply Hf2.
  Qed.

  Definition settled s : Prop := dq_puts s = [] ∧ dq_incoming s = [] ∧ ∀ e, e ∈ dq_tracked s → dq_now s < e.2.

  Lemma to_wait ls s m : DI ls s m → dq_stop s = false →
    ∃ ls' s' tm, reach dtrans s ls' s' ∧ Forall internal ls' ∧ (length ls' ≤ 2)%nat ∧ dq_now s' = dq_now s ∧
      dq_stop s' = false ∧ dq_pc s' = LWait tm ∧ dq_puts s' = dq_puts s ∧ 
      (length (dq_incoming s') ≤ length (dq_incoming s))%nat.
  Proof.
    intros HDI Hst. pose proof (di_pc _ _ _ HDI) as Hok. unfold pc_ok in Hok. destruct (dq_pc s) as [|tm|e| |] eqn:Hpc.
    - destruct (loop_top_waits _ _ _ HDI Hpc) as (tm & H1 & H2 & H3 & H4 & H5 & _).
      exists [DLoopTop], (loop_top s), tm. split; [apply reach_one; by constructor|].
      split; [repeat constructor; unfold internal; tauto|]. split; [simpl; lia|]. rewrite H2, H3, H4, H5. done.
    - exists [], s, tm. split; [constructor|]. split; [done|]. simpl. repeat split; try done; lia.
    - assert (Ht : dtrans s DResume (loop_resume e s)) by by constructor.
      destruct (DI_step _ _ _ _ _ HDI Ht) as [m' HDI'].
      assert (dq_pc (loop_resume e s) = LTop ∧ dq_now (loop_resume e s) = dq_now s ∧ dq_stop (loop_resume e s) = false
        ∧ dq_puts (loop_resume e s) = dq_puts s ∧ dq_incoming (loop_resume e s) = []) as (E1 & E2 & E3 & E4 & E5).
      { unfold loop_resume. rewrite Hst. destruct (absorb_all _ _ _) as [w q]. simpl. done. }
      destruct (loop_top_waits _ _ _ HDI' E1) as (tm & H1 & H2 & H3 & H4 & H5 & _).
      exists [DResume; DLoopTop], (loop_top (loop_resume e s)), tm.
      split; [eapply reach_cons; [exact Ht|]; apply reach_one; by constructor|].
      split; [repeat constructor; unfold internal; tauto|]. split; [simpl; lia|].
      rewrite H2, H3, H4, H5, E2, E3, E4, E5. simpl. repeat split; try done; lia.
    - congruence.
    - done.
  Qed.

  Lemma DI_reach_from ls s m ls' s' : DI ls s m → reach dtrans s ls' s' → ∃ m', DI (ls ++ ls') s' m'.
  Proof.
    intros HDI Hr. induction Hr as [|ls1 s1 l s2 Hr [m1 IH] Ht].
    - exists m. by rewrite app_nil_r.
    - destruct (DI_step _ _ _ _ _ IH Ht) as [m2 ?]. exists m2. by rewrite app_assoc.
  Qed.

  Lemma drain_incoming n : ∀ ls s m, DI ls s m → dq_stop s = false →
    (length (dq_puts s) + length (dq_incoming s) ≤ n)%nat →
    ∃ ls' s' tm, reach dtrans s ls' s' ∧ Forall internal ls' ∧ (length ls' ≤ 4 * n + 2)%nat ∧ dq_now s' = dq_now s ∧
      dq_stop s' = false ∧ dq_pc s' = LWait tm ∧ dq_puts s' = [] ∧ dq_incoming s' = [].
  Proof.
    induction n as [|n IH]; intros ls s m HDI Hst Hn.
    - destruct (to_wait _ _ _ HDI Hst) as (ls1 & s1 & tm & Hr & Hi & Hl & Hnow & Hst1 & Hpc & Hp & Hin).
      exists ls1, s1, tm. do 2 (split; [done|]). split; [lia|]. do 3 (split; [done|]).
      destruct (dq_puts s); simpl in *; [|lia]. split; [done|]. destruct (dq_incoming s1); simpl in *; [done|lia].
    - destruct (to_wait _ _ _ HDI Hst) as (ls1 & s1 & tm & Hr & Hi & Hl & Hnow & Hst1 & Hpc & Hp & Hin).
      destruct (DI_reach_from _ _ _ _ _ HDI Hr) as [m1 HDI1].
      destruct (dq_incoming s1) as [|e rest] eqn:Hinc.
      + destruct (dq_puts s1) as [|e b] eqn:Hputs.
        { exists ls1, s1, tm. repeat split; try done. lia. }
        set (s2 := DQ (dq_now s1) (dq_base s1) (dq_stop s1) b [e] (dq_pq s1) (dq_pc s1)).
        assert (Ht2 : dtrans s1 DPut s2).
        { pose proof (dt_put s1 e [] b Hputs) as Ht. rewrite Hinc in Ht. apply Ht. simpl. vm_compute. lia. }
        set (s3 := DQ (dq_now s2) (dq_base s2) (dq_stop s2) (dq_puts s2) [] (dq_pq s2) (LGot e)).
        assert (Ht3 : dtrans s2 DTake s3) by (by apply (dt_take s2 tm e [])).
        assert (Hr3 : reach dtrans s (ls1 ++ [DPut; DTake]) s3).
        { eapply reach_app; [exact Hr|]. eapply reach_cons; [exact Ht2|]. by apply reach_one. }
        destruct (DI_reach_from _ _ _ _ _ HDI Hr3) as [m3 HDI3].
        destruct (IH _ s3 m3 HDI3) as (ls4 & s4 & tm4 & Hr4 & Hi4 & Hl4 & Hn4 & ? & ? & ? & ?); [done| |].
        { simpl. rewrite <-Hp in Hn. simpl in Hn. lia. }
        exists ((ls1 ++ [DPut; DTake]) ++ ls4), s4, tm4. split; [by eapply reach_app|].
        split; [rewrite !Forall_app; repeat split; try done; repeat constructor; unfold internal; tauto|].
        split; [rewrite !app_length; simpl; lia|]. split; [by rewrite Hn4|]. done.
      + set (s3 := DQ (dq_now s1) (dq_base s1) (dq_stop s1) (dq_puts s1) rest (dq_pq s1) (LGot e)).
        assert (Ht3 : dtrans s1 DTake s3) by (by apply (dt_take s1 tm e rest)).
        assert (Hr3 : reach dtrans s (ls1 ++ [DTake]) s3).
        { eapply reach_app; [exact Hr|]. by apply reach_one. }
        destruct (DI_reach_from _ _ _ _ _ HDI Hr3) as [m3 HDI3].
        destruct (IH _ s3 m3 HDI3) as (ls4 & s4 & tm4 & Hr4 & Hi4 & Hl4 & Hn4 & ? & ? & ? & ?); [done| |].
        { simpl in *. rewrite Hp. lia. }
        exists ((ls1 ++ [DTake]) ++ ls4), s4, tm4. split; [by eapply reach_app|].
        split; [rewrite !Forall_app; repeat split; try done; repeat constructor; unfold internal; tauto|].
        split; [rewrite !app_length; simpl; lia|]. split; [by rewrite Hn4|]. done.
  Qed.

  Lemma tracked_wait s tm : dq_puts s = [] → dq_incoming s = [] → dq_pc s = LWait tm → dq_tracked s = live (dq_pq s).
  Proof. intros H1 H2 H3. unfold dq_tracked. by rewrite H1, H2, H3. Qed.

  Lemma settle t ls s : reach dtrans (dq_init t) ls s → dq_stop s = false →
    ∃ ls' s', reach dtrans s ls' s' ∧ Forall internal ls' ∧
      (length ls' ≤ 4 * (length (dq_puts s) + length (dq_incoming s)) + 4)%nat ∧
      dq_now s' = dq_now s ∧ dq_stop s' = false ∧ settled s'.
  Proof.
    intros Hr0 Hst. destruct (DI_reach _ _ _ Hr0) as [m HDI].
    destruct (drain_incoming _ _ _ _ HDI Hst (Nat.le_refl _)) as (ls1 & s1 & tm & Hr & Hi & Hl & Hnow & Hst1 & Hpc & Hp & Hin).
    assert (Hr1 : reach dtrans (dq_init t) (ls ++ ls1) s1) by by eapply reach_app.
    pose proof (sleeping_timer _ _ _ _ Hr1 Hpc) as Htm.
    assert (match tm with Some r => r ≤ dq_now s1 | None => False end ∨ ¬ match tm with Some r => r ≤ dq_now s1 | None => False end) as [Hdue|Hdue] by (destruct tm; [lia|tauto]).
    - destruct tm as [r|]; [|done].
      assert (Ht2 : dtrans s1 DWakeTimer (loop_wake s1)) by (by eapply dt_wake_timer).
      assert (Hr2 : reach dtrans s (ls1 ++ [DWakeTimer]) (loop_wake s1)).
      { eapply reach_app; [exact Hr|]. by apply reach_one. }
      destruct (DI_reach_from _ _ _ _ _ HDI Hr2) as [m2 HDI2].
      assert (dq_pc (loop_wake s1) = LTop) as Hpc2 by (unfold loop_wake; simpl; by rewrite Hst1).
      destruct (loop_top_waits _ _ _ HDI2 Hpc2) as (tm2 & H1 & H2 & H3 & H4 & H5 & H6).
      exists ((ls1 ++ [DWakeTimer]) ++ [DLoopTop]), (loop_top (loop_wake s1)).
      split; [eapply reach_app; [exact Hr2|]; apply reach_one; by constructor|].
      split; [rewrite !Forall_app; repeat split; try done; repeat constructor; unfold internal; tauto|].
      split; [rewrite !app_length; simpl; lia|].
      assert (dq_now (loop_wake s1) = dq_now s) as Hnow2 by done.
      split; [congruence|]. split; [rewrite H3; done|].
      split; [by rewrite H4|]. split; [by rewrite H5|].
      rewrite (tracked_wait _ tm2); [|by rewrite H4|by rewrite H5|done].
      intros e He. rewrite H2. by apply H6.
    - exists ls1, s1. do 2 (split; [done|]). split; [lia|]. do 2 (split; [done|]). split; [done|]. split; [done|].
      rewrite (tracked_wait _ tm) by done. destruct tm as [r|].
      + destruct Htm as [_ Hall]. intros e He. specialize (Hall e He). lia.
      + rewrite Htm. by intros e ?%elem_of_nil.
  Qed.

  Lemma due_becomes_ready t ls s l1 l2 x d t0 :
    reach dtrans (dq_init t) ls s → dq_stop s = false →
    ls = l1 ++ DAddAfter x d t0 :: l2 → t0 + d ≤ dq_now s →
    ∃ ls' s', reach dtrans s ls' s' ∧ Forall internal ls' ∧
      (length ls' ≤ 4 * (length (dq_puts s) + length (dq_incoming s)) + 4)%nat ∧
      dq_now s' = dq_now s ∧ ((∃ T, DGet (RItem x) T ∈ l2) ∨ ready_owed x s').
  Proof.
    intros Hr Hst Heq Hdue. destruct (settle _ _ _ Hr Hst) as (ls' & s' & Hr' & Hi & Hl & Hnow & Hst' & _ & _ & Hset).
    exists ls', s'. do 4 (split; [done|]).
    destruct (not_lost t (ls ++ ls') s' l1 (l2 ++ ls') x d t0) as [(T & HT)|[?|(r & Hin & Hle)]].
    - by eapply reach_app.
    - done.
    - rewrite Heq, <-app_assoc. done.
    - left. exists T. apply elem_of_app in HT as [?|HT]; [done|]. rewrite Forall_forall in Hi.
      destruct (Hi _ HT) as [|[|[|[|]]]]; done.
    - by right.
    - specialize (Hset _ Hin). simpl in Hset. lia.
  Qed.

  (** ** shut_down *)
  Lemma never_down t ls s : reach dtrans (dq_init t) ls s →
    wq_down (dq_base s) = false ∧ (wstep (dq_base s) Get).2 ≠ RShutdown ∧
    (∀ x s', dtrans s (DAdd x) s' → ready_owed x s').
  Proof.
    intros [m HDI]%DI_reach. pose proof (di_down _ _ _ HDI) as Hd. split; [done|]. split.
    - simpl. unfold wq_get. destruct (wq_queue _); [by rewrite Hd|done].
    - intros x s' Ht. inversion Ht; subst. destruct (di_base _ _ _ HDI) as [h Hex].
      assert (exec wstep wq_init (h ++ [(Add x, RNone)]) (wstep (dq_base s) (Add x)).1) as Hex'.
      { apply exec_snoc. exists (dq_base s). split; [done|]. simpl. by destruct (wq_add _ _). }
      exists (h ++ [(Add x, RNone)]). split; [done|].
      apply (inv_dirty _ _ (wq_inv_exec _ _ Hex')). simpl.
      pose proof (wq_add_dirty x (dq_base s) Hd x) as Hw. destruct (wq_add x (dq_base s)). apply Hw. by left.
  Qed.

  Lemma stranded t ls s ls' s' x :
    reach dtrans (dq_init t) ls s → dq_pc s = LEnd → x ∉ wq_dirty (dq_base s) →
    reach dtrans s ls' s' → DAdd x ∉ ls' → (∀ d T, DAddAfter x d T ∈ ls' → 0 < d) →
    (∀ T, DGet (RItem x) T ∉ ls') ∧ dq_pq s' = dq_pq s.
  Proof.
    intros Hr Hpc Hx Hr' Hadd Haft.
    destruct (DI_reach _ _ _ Hr) as [m HDI].
    assert (((∀ T, DGet (RItem x) T ∉ ls') ∧ dq_pq s' = dq_pq s) ∧ x ∉ wq_dirty (dq_base s') ∧ dq_pc s' = LEnd) as [? _]; [|done].
    revert Hadd Haft. induction Hr' as [|ls1 s1 l s2 Hr1 IH Ht]; intros Hadd Haft.
    { repeat split; try done. intros T. apply not_elem_of_nil. }
    destruct IH as ((IH1 & IH2) & IH3 & IH4); [set_solver|intros d T HT; apply (Haft d T); set_solver|].
    destruct (DI_reach_from _ _ _ _ _ HDI Hr1) as [m1 HDI1].
    pose proof (di_down _ _ _ HDI1) as Hd1.
    assert (Hno : ∀ T, l ≠ DGet (RItem x) T).
    { intros T ->. destruct (get_dirty _ _ _ _ _ x T HDI1 Ht eq_refl) as (_ & ? & _). done. }
    split; [split|].
    - intros T [?|HT%elem_of_list_singleton]%elem_of_app; [by eapply IH1|]. by apply (Hno T).
    - inversion Ht; subst; simpl; try done; try congruence.
      + unfold dq_add_after. rewrite Hd1. by destruct (_ <=? 0).
      + unfold dq_shut_down, shut_down_body. by destruct (dq_stop s1).
    - inversion Ht as [| |? q r Hget|? y q r Hdone|? y d| | | | | | | | |]; subst; simpl; try done; try congruence.
      + split; [|done]. rewrite wq_add_dirty by done. intros [->|?]; [|done]. apply Hadd. set_solver.
      + split; [|done]. destruct (base_step_dirty _ _ _ _ x Hd1 Hget) as (_ & Hb & _); [done|]. intros Hq. destruct (Hb Hq); done.
      + split; [|done]. destruct (base_step_dirty _ _ _ _ x Hd1 Hdone) as (_ & Hb & _); [done|]. intros Hq. destruct (Hb Hq); done.
      + unfold dq_add_after. rewrite Hd1. destruct (d <=? 0) eqn:Hd0; simpl; [|done]. split; [|done].
        rewrite wq_add_dirty by done. intros [->|?]; [|done].
        assert (0 < d); [|lia]. apply (Haft d (dq_now s1)). apply elem_of_app. right. by apply elem_of_list_singleton.
      + unfold dq_shut_down, shut_down_body. by destruct (dq_stop s1).
  Qed.

  Lemma one_entry_per_item t ls s : reach dtrans (dq_init t) ls s → NoDup (live (dq_pq s)).*1.
  Proof.
    intros [m HDI]%DI_reach. rewrite (Pabs_live _ _ (di_P _ _ _ HDI)). apply (Pabs_nodup _ _ (di_P _ _ _ HDI)).
  Qed.
End proofs.
