From Verif Require Import Base WorkQueue_model WorkQueue_spec.

Section proofs.
  Context {A : Type} `{EqDecision A}.
  Implicit Types (q : wq A) (h : list (wop A * wres A)) (x y : A).

  Lemma split_snoc {B} (a : list B) e1 b (h : list B) e :
    h ++ [e] = a ++ e1 :: b ↔ (b = [] ∧ h = a ∧ e = e1) ∨ (∃ b', b = b' ++ [e] ∧ h = a ++ e1 :: b').
  Proof.
    split.
    - intros Heq. destruct b as [|e2 b _] using rev_ind.
      + apply app_inj_tail in Heq as [-> ->]. by left.
      + right. exists b. rewrite app_comm_cons, app_assoc in Heq.
        by apply app_inj_tail in Heq as [-> ->].
    - intros [(-> & -> & ->)|(b' & -> & ->)]; [done|]. by rewrite <-app_assoc.
  Qed.

  Lemma in_hand_nil x : ¬ in_hand x [].
  Proof. intros (h1 & h2 & Heq & _). by destruct h1. Qed.
  Lemma in_hand_snoc x h e :
    in_hand x (h ++ [e]) ↔ e = (Get, RItem x) ∨ (in_hand x h ∧ e ≠ (Done x, RNone)).
  Proof.
    unfold in_hand. split.
    - intros (h1 & h2 & [(-> & -> & ->)|(b & -> & ->)]%split_snoc & Hd); [by left|right].
      rewrite not_elem_of_app, not_elem_of_cons in Hd. naive_solver.
    - intros [->|[(h1 & h2 & -> & ?) ?]].
      + exists h, []. split; [done|]. apply not_elem_of_nil.
      + exists h1, (h2 ++ [e]). split; [by rewrite <-app_assoc|].
        rewrite not_elem_of_app, not_elem_of_cons. pose proof (not_elem_of_nil (A:=wop A * wres A)). naive_solver.
  Qed.
  Lemma owed_nil x : ¬ owed x [].
  Proof. intros (h1 & h2 & Heq & _). by destruct h1. Qed.
  Lemma owed_snoc x h e :
    owed x (h ++ [e]) ↔ (e = (Add x, RNone) ∧ ¬ shut h) ∨ (owed x h ∧ e ≠ (Get, RItem x)).
  Proof.
    unfold owed. split.
    - intros (h1 & h2 & [(-> & -> & ->)|(b & -> & ->)]%split_snoc & Hs & Hd); [by left|right].
      rewrite not_elem_of_app, not_elem_of_cons in Hd. naive_solver.
    - intros [[-> ?]|[(h1 & h2 & -> & ? & ?) ?]].
      + exists h, []. split; [done|]. split; [done|apply not_elem_of_nil].
      + exists h1, (h2 ++ [e]). split; [by rewrite <-app_assoc|]. split; [done|].
        rewrite not_elem_of_app, not_elem_of_cons. pose proof (not_elem_of_nil (A:=wop A * wres A)). naive_solver.
  Qed.
  Lemma shut_nil : ¬ shut (A:=A) [].
  Proof. apply not_elem_of_nil. Qed.
  Lemma shut_snoc h e : shut (h ++ [e]) ↔ shut h ∨ e = (ShutDown, RNone).
  Proof. unfold shut. rewrite elem_of_app, elem_of_list_singleton. naive_solver. Qed.

  (** Link between the implementation's fields and the history. *)
  Record wq_inv (h : list (wop A * wres A)) (q : wq A) : Prop := {
    inv_proc x : x ∈ wq_proc q ↔ in_hand x h;
    inv_dirty x : x ∈ wq_dirty q ↔ owed x h;
    inv_queue x : x ∈ wq_queue q ↔ owed x h ∧ ¬ in_hand x h;
    inv_nodup : NoDup (wq_queue q);
    inv_down : wq_down q = true ↔ shut h
  }.

  Lemma wq_inv_init : wq_inv [] wq_init.
  Proof.
    split; simpl; try (intros x; rewrite elem_of_nil).
    - pose proof (in_hand_nil x). naive_solver.
    - pose proof (owed_nil x). naive_solver.
    - pose proof (owed_nil x). naive_solver.
    - apply NoDup_nil_2.
    - pose proof shut_nil. naive_solver.
  Qed.

  Lemma wq_inv_intro h q :
    NoDup (wq_queue q) → (wq_down q = true ↔ shut h) →
    (∀ x, (x ∈ wq_proc q ↔ in_hand x h) ∧ (x ∈ wq_dirty q ↔ owed x h) ∧
          (x ∈ wq_queue q ↔ owed x h ∧ ¬ in_hand x h)) →
    wq_inv h q.
  Proof. intros ?? Hx. split; try done; intros x; destruct (Hx x) as (? & ? & ?); done. Qed.

  Lemma wq_inv_step h q o : wq_inv h q → wq_inv (h ++ [(o, (wstep q o).2)]) (wstep q o).1.
  Proof.
    intros [Hp Hd Hq Hn Hs].
    assert (∀ y, (y ∈ wq_proc q ↔ in_hand y h) ∧ (y ∈ wq_dirty q ↔ owed y h) ∧
          (y ∈ wq_queue q ↔ owed y h ∧ ¬ in_hand y h)) as Hall by naive_solver.
    clear Hp Hd Hq.
    assert (∀ z, z ∉ wq_queue q → NoDup (wq_queue q ++ [z])) as Happ.
    { intros z Hz. apply NoDup_app. split; [done|]. split; [|apply NoDup_singleton].
      by intros y Hy ->%elem_of_list_singleton. }
    destruct o as [x| |x|]; simpl.
    - unfold wq_add. pose proof (Hall x) as (Hp & Hd & Hq).
      destruct (wq_down q) eqn:Hdn; [|assert (¬ shut h) as Hns by (destruct Hs; intuition congruence); case_decide as Hdirty; simpl; [|case_decide as Hproc; simpl]];
      (apply wq_inv_intro; simpl; [try done; try (apply Happ; tauto)| rewrite shut_snoc, <-Hs, ?Hdn; intuition congruence|]);
      intros y; destruct (Hall y) as (Hpy & Hdy & Hqy); rewrite ?in_hand_snoc, ?owed_snoc, ?elem_of_sadd, ?elem_of_app, ?elem_of_list_singleton;
      (destruct (decide (y = x)) as [->|]; [|assert (¬ x = y) by congruence]); 
      intuition congruence.
    - unfold wq_get. destruct (wq_queue q) as [|x rest] eqn:Hqueue.
      { destruct (wq_down q) eqn:Hdn; (apply wq_inv_intro; simpl; [by rewrite Hqueue| rewrite shut_snoc, <-Hs, ?Hdn; intuition congruence|]);
         intros y; destruct (Hall y) as (Hpy & Hdy & Hqy); rewrite ?in_hand_snoc, ?owed_snoc, ?Hqueue; intuition congruence. }
      apply NoDup_cons in Hn as [Hx Hn]. pose proof (Hall x) as (Hp & Hd & Hq).
      rewrite elem_of_cons in Hq.
      apply wq_inv_intro; simpl; [done|rewrite shut_snoc, <-Hs; intuition congruence|].
      intros y; destruct (Hall y) as (Hpy & Hdy & Hqy). rewrite elem_of_cons in Hqy.
      rewrite ?in_hand_snoc, ?owed_snoc, ?elem_of_sadd, ?elem_of_srem.
      destruct (decide (y = x)) as [->|]; [|assert (¬ x = y) by congruence]; intuition congruence.
    - unfold wq_done. pose proof (Hall x) as (Hp & Hd & Hq). destruct (decide (x ∈ wq_proc q)) as [Hproc|Hproc]; simpl;
        [destruct (decide (x ∈ wq_dirty q)) as [Hdirty|Hdirty]; simpl|];
      (apply wq_inv_intro; simpl; [try done; try (apply Happ; tauto)| rewrite shut_snoc, <-Hs; intuition congruence|]);
      intros y; destruct (Hall y) as (Hpy & Hdy & Hqy); rewrite ?in_hand_snoc, ?owed_snoc, ?elem_of_srem, ?elem_of_app, ?elem_of_list_singleton;
      (destruct (decide (y = x)) as [->|]; [|assert (¬ x = y) by congruence]); intuition congruence.
    - apply wq_inv_intro; simpl; [done|rewrite shut_snoc; intuition congruence|].
      intros y; destruct (Hall y) as (Hpy & Hdy & Hqy). rewrite ?in_hand_snoc, ?owed_snoc. intuition congruence.
  Qed.

  Lemma wq_inv_exec h q : exec wstep wq_init h q → wq_inv h q.
  Proof.
    apply (exec_trace_inv wstep wq_inv); [apply wq_inv_init|]. intros. by apply wq_inv_step.
  Qed.

  Lemma inv_proc_dec h q x : exec wstep wq_init h q → Decision (in_hand x h).
  Proof.
    intros Hx%wq_inv_exec. destruct (decide (x ∈ wq_proc q)) as [Hin|Hin];
      [left|right]; by rewrite <-(inv_proc _ _ Hx).
  Qed.

  Lemma exec_get_item m q x : wstep m Get = (q, RItem x) → ∃ r, wq_queue m = x :: r ∧ wq_queue q = r.
  Proof.
    simpl. unfold wq_get. destruct (wq_queue m) eqn:?; [by destruct (wq_down m)|].
    intros [= <- ->]. eauto.
  Qed.

  Lemma no_concurrent_processing h1 h2 h3 x q :
    exec wstep wq_init (h1 ++ (Get, RItem x) :: h2 ++ (Get, RItem x) :: h3) q →
    (Done x, RNone) ∈ h2.
  Proof.
    intros Hx. rewrite app_comm_cons, app_assoc in Hx.
    apply exec_app in Hx as (m & Hm & Hx). apply exec_cons_iff in Hx as (m' & Hget & _).
    pose proof (wq_inv_exec _ _ Hm) as Hinv.
    apply exec_get_item in Hget as (r & Hq & _).
    assert (x ∈ wq_queue m) as Hin by (rewrite Hq; left).
    rewrite (inv_queue _ _ Hinv) in Hin. destruct Hin as [_ Hnot].
    destruct (decide ((Done x, RNone) ∈ h2)) as [|Hno]; [done|].
    exfalso. apply Hnot. by exists h1, h2.
  Qed.

  Lemma redelivery_needs_add h1 h2 h3 x q :
    exec wstep wq_init (h1 ++ (Get, RItem x) :: h2 ++ (Get, RItem x) :: h3) q →
    (Add x, RNone) ∈ h2.
  Proof.
    intros Hx. rewrite app_comm_cons, app_assoc in Hx.
    apply exec_app in Hx as (m & Hm & Hx). apply exec_cons_iff in Hx as (m' & Hget & _).
    pose proof (wq_inv_exec _ _ Hm) as Hinv.
    apply exec_get_item in Hget as (r & Hq & _).
    assert (x ∈ wq_queue m) as Hin by (rewrite Hq; left).
    rewrite (inv_queue _ _ Hinv) in Hin. destruct Hin as [Ho _].
    clear - Ho. induction h2 as [|e h2 IH] using rev_ind.
    - apply owed_snoc in Ho as [[? _]|[_ ?]]; done.
    - rewrite app_comm_cons, app_assoc in Ho. apply owed_snoc in Ho as [[-> _]|[Ho _]].
      + apply elem_of_app. right. by left.
      + apply elem_of_app. left. by apply IH.
  Qed.

  Lemma delivery_needs_add h1 h2 x q :
    exec wstep wq_init (h1 ++ (Get, RItem x) :: h2) q →
    ∃ a b, h1 = a ++ (Add x, RNone) :: b ∧ ¬ shut a ∧ (Get, RItem x) ∉ b.
  Proof.
    intros (m & Hm & Hx)%exec_app. apply exec_cons_iff in Hx as (m' & Hget & _).
    pose proof (wq_inv_exec _ _ Hm) as Hinv.
    apply exec_get_item in Hget as (r & Hq & _).
    assert (x ∈ wq_queue m) as Hin by (rewrite Hq; left).
    rewrite (inv_queue _ _ Hinv) in Hin. by destruct Hin as [Ho _].
  Qed.

  (** [n] consecutive gets hand out the first [n] ready items in order *)
  Lemma drain_queue n q : n ≤ length (wq_queue q) →
    ∃ q', exec wstep q ((λ x, (Get, RItem x)) <$> take n (wq_queue q)) q' ∧
          wq_queue q' = drop n (wq_queue q) ∧ wq_down q' = wq_down q.
  Proof.
    revert q. induction n as [|n IH]; intros q Hn; simpl.
    - exists q. split; [constructor|done].
    - destruct (wq_queue q) as [|x r] eqn:Hq; simpl in *; [lia|].
      set (q1 := (wq_get q).1).
      assert (wq_queue q1 = r ∧ wq_down q1 = wq_down q) as [Hq1 Hd1].
      { unfold q1, wq_get. by rewrite Hq. }
      destruct (IH q1) as (q' & Hex & Hq' & Hd'); [rewrite Hq1; lia|].
      rewrite Hq1 in Hex, Hq'. exists q'. split; [|split; congruence].
      econstructor; [|exact Hex]. simpl. unfold q1, wq_get. by rewrite Hq.
  Qed.

  Lemma owed_delivered_soon h q x :
    exec wstep wq_init h q → owed x h → ¬ in_hand x h →
    ∃ items q', length items = wq_len q ∧
      exec wstep q ((λ y, (Get, RItem y)) <$> items) q' ∧ x ∈ items.
  Proof.
    intros Hx Ho Hh. pose proof (wq_inv_exec _ _ Hx) as Hinv.
    destruct (drain_queue (length (wq_queue q)) q) as (q' & Hex & _); [lia|].
    rewrite firstn_all in Hex. exists (wq_queue q), q'. split; [done|]. split; [done|].
    by apply (inv_queue _ _ Hinv).
  Qed.

  Lemma owed_in_hand_after_done h q x :
    exec wstep wq_init h q → owed x h → in_hand x h →
    ∃ q', wstep q (Done x) = (q', RNone) ∧
      owed x (h ++ [(Done x, RNone)]) ∧ ¬ in_hand x (h ++ [(Done x, RNone)]).
  Proof.
    intros Hx Ho Hh. pose proof (wq_inv_exec _ _ Hx) as Hinv.
    assert (∃ q', wstep q (Done x) = (q', RNone)) as [q' Hq'].
    { simpl. unfold wq_done. rewrite decide_True by by apply (inv_proc _ _ Hinv).
      case_decide; eauto. }
    exists q'. split; [done|]. rewrite owed_snoc, in_hand_snoc. naive_solver.
  Qed.

  (** ** first-in first-out *)
  Definition before x y q := ∃ a b, wq_queue q = a ++ x :: b ∧ y ∉ a.

  Lemma before_step x y q o q' r :
    before x y q → wstep q o = (q', r) → (o, r) ≠ (Get, RItem x) → before x y q'.
  Proof.
    intros (a & b & Hq & Hy) Hs Hne. destruct o as [z| |z|]; simpl in Hs.
    - injection Hs as <- <-. unfold wq_add. destruct (wq_down q); [by exists a, b|]. case_decide; [by exists a, b|].
      simpl. case_decide; [by exists a, b|]. unfold before; simpl. exists a, (b ++ [z]). simpl. rewrite Hq. by rewrite <-app_assoc.
    - unfold wq_get in Hs. rewrite Hq in Hs. destruct a as [|z a]; simpl in Hs.
      + injection Hs as <- <-. done.
      + injection Hs as <- <-. exists a, b. split; [done|]. by apply not_elem_of_cons in Hy as [_ ?].
    - unfold wq_done in Hs. repeat case_decide; injection Hs as <- <-; try (by exists a, b).
      exists a, (b ++ [z]). simpl. rewrite Hq. by rewrite <-app_assoc.
    - injection Hs as <- <-. by exists a, b.
  Qed.

  Lemma before_exec x y q h q' :
    before x y q → exec wstep q h q' → (Get, RItem x) ∉ h → before x y q'.
  Proof.
    intros Hb Hex. induction Hex as [|q o r q1 h q2 Hs Hex IH]; [done|].
    rewrite not_elem_of_cons. intros [??]. apply IH; [|done]. eapply before_step; eauto.
  Qed.

  Lemma fifo_order h1 h2 h3 h4 x y q :
    exec wstep wq_init
      (h1 ++ (Add x, RNone) :: h2 ++ (Add y, RNone) :: h3 ++ (Get, RItem y) :: h4) q →
    ¬ shut h1 → ¬ in_hand x h1 → ¬ owed y (h1 ++ (Add x, RNone) :: h2) →
    (Get, RItem x) ∈ h2 ++ h3.
  Proof.
    intros Hex Hs Hhand Howed.
    destruct (decide ((Get, RItem x) ∈ h2 ++ h3)) as [|Hno]; [done|exfalso].
    apply not_elem_of_app in Hno as [Hno2 Hno3].
    rewrite app_comm_cons, app_assoc in Hex. apply exec_app in Hex as (m1 & Hm1 & Hex).
    apply exec_cons_iff in Hex as (m2 & Hm2 & Hex).
    apply exec_app in Hex as (m3 & Hm3 & Hex).
    apply exec_cons_iff in Hex as (m4 & Hm4 & _).
    assert (x ∈ wq_queue m1) as Hin.
    { apply exec_app in Hm1 as (m0 & Hm0 & Hm1). apply exec_cons_iff in Hm1 as (m0' & Hs0 & Hm1).
      assert (x ∈ wq_queue m0') as Hin0.
      { apply (inv_queue (h1 ++ [(Add x, RNone)])).
        - apply wq_inv_exec. apply exec_snoc. eauto.
        - rewrite owed_snoc, in_hand_snoc. naive_solver. }
      apply elem_of_list_split in Hin0 as (a & b & Hq).
      destruct (before_exec x x m0' h2 m1) as (a' & b' & Hq' & _); [|done..|].
      - pose proof (inv_nodup (h1 ++ [(Add x, RNone)]) m0') as Hnd.
        rewrite Hq in Hnd. exists a, b. split; [done|].
        assert (NoDup (a ++ x :: b)) as Hnd'%NoDup_app.
        { apply Hnd. apply wq_inv_exec. apply exec_snoc. eauto. }
        destruct Hnd' as (_ & Hdis & _). intros Ha. by apply (Hdis x Ha); left.
      - rewrite Hq'. set_solver. }
    pose proof (wq_inv_exec _ _ Hm1) as Hinv1.
    assert (before x y m1) as Hb.
    { apply elem_of_list_split in Hin as (a & b & Hq). exists a, b. split; [done|].
      intros Hya. apply Howed. apply (inv_queue _ _ Hinv1). rewrite Hq. set_solver. }
    assert (before x y m3) as (a & b & Hq & Hya).
    { eapply before_exec; [|exact Hm3|done]. eapply before_step; eauto. }
    apply exec_get_item in Hm4 as (r & Hqr & _). rewrite Hq in Hqr.
    destruct a as [|z a]; simpl in Hqr; simplify_eq; [|set_solver].
    apply Howed. exists h1, h2. done.
  Qed.

  (** ** shutdown *)
  Lemma shutdown_no_block h q : exec wstep wq_init h q → shut h →
    (wstep q Get).2 ≠ RBlocked ∧ (∀ x, wstep q (Add x) = (q, RNone)) ∧
    ((wstep q Get).2 = RShutdown ↔ wq_len q = 0).
  Proof.
    intros Hx Hs. pose proof (wq_inv_exec _ _ Hx) as Hinv.
    assert (wq_down q = true) as Hd by by apply (inv_down _ _ Hinv).
    simpl. unfold wq_get, wq_add, wq_len. rewrite Hd.
    destruct (wq_queue q); simpl; split_and!; try done; lia.
  Qed.

  Lemma not_owed_after_shut h1 h2 x : ¬ owed x h1 → shut h1 → ¬ owed x (h1 ++ h2).
  Proof.
    intros Ho Hs. induction h2 as [|e h2 IH] using rev_ind; [by rewrite app_nil_r|].
    rewrite app_assoc, owed_snoc. intros [[-> Hn]|[? _]]; [|done].
    apply Hn. unfold shut in *. set_solver.
  Qed.

  Lemma shutdown_only_old h1 h2 x q :
    exec wstep wq_init (h1 ++ (ShutDown, RNone) :: h2) q → delivered x h2 →
    ∃ a b c d, h1 = a ++ (Add x, RNone) :: b ∧ ¬ shut a ∧ ¬ delivered x b ∧
         h2 = c ++ (Get, RItem x) :: d ∧ ¬ delivered x c ∧ ¬ delivered x d.
  Proof.
    intros Hex Hin. unfold delivered in *.
    apply elem_of_list_split_l in Hin as (c & d & -> & Hc).
    assert (owed x (h1 ++ (ShutDown, RNone) :: c)) as Ho.
    { apply (delivery_needs_add _ d x q). by rewrite <-app_assoc. }
    assert (owed x h1) as (a & b & -> & ? & ?).
    { destruct Ho as (a & b & Heq & Hs & Hnb).
      assert (∃ l, h1 = a ++ (Add x, RNone) :: l) as [l ->].
      { apply app_eq_inv in Heq as [(k & -> & Hk)|(k & -> & Hk)].
        - destruct k as [|e k]; simplify_eq/=; eauto.
        - exfalso. destruct k as [|e k]; simplify_eq/=.
          apply Hs. unfold shut. set_solver. }
      exists a, l. split; [done|]. split; [done|].
      rewrite <-app_assoc in Heq. apply app_inv_head in Heq. simplify_eq/=. set_solver. }
    exists a, b, c, d. do 5 (split; [done|]).
    intros Hd. apply elem_of_list_split in Hd as (d1 & d2 & ->).
    assert (owed x ((a ++ (Add x, RNone) :: b) ++ (ShutDown, RNone) :: c ++ (Get, RItem x) :: d1)) as Ho'.
    { apply (delivery_needs_add _ d2 x q). rewrite <-!app_assoc. simpl. rewrite <-!app_assoc.
      rewrite <-app_assoc in Hex. simpl in Hex. exact Hex. }
    revert Ho'. rewrite app_comm_cons, app_assoc.
    generalize ((a ++ (Add x, RNone) :: b) ++ (ShutDown, RNone) :: c) as P
      , (elem_of_app (a ++ (Add x, RNone) :: b) ((ShutDown (A:=A), RNone (A:=A)) :: c) (ShutDown, RNone)).
    intros P HP. replace (P ++ (Get, RItem x) :: d1) with ((P ++ [(Get, RItem x)]) ++ d1) by by rewrite <-app_assoc.
    apply not_owed_after_shut.
    - rewrite owed_snoc. intros [[? _]|[_ ?]]; done.
    - unfold shut. set_solver.
  Qed.

  (** ** len and misuse of done *)
  Lemma len_counts_gets h q : exec wstep wq_init h q →
    ∃ items q', NoDup items ∧ length items = wq_len q ∧
      exec wstep q ((λ y, (Get, RItem y)) <$> items) q' ∧
      (wstep q' Get).2 = (if wq_down q then RShutdown else RBlocked).
  Proof.
    intros Hx. pose proof (wq_inv_exec _ _ Hx) as Hinv.
    destruct (drain_queue (length (wq_queue q)) q) as (q' & Hex & Hq' & Hd'); [lia|].
    rewrite firstn_all in Hex. rewrite drop_all in Hq'.
    exists (wq_queue q), q'. split; [apply (inv_nodup _ _ Hinv)|]. do 2 (split; [done|]).
    simpl. unfold wq_get. rewrite Hq', Hd'. by destruct (wq_down q).
  Qed.

  Lemma done_misuse h q x : exec wstep wq_init h q →
    (in_hand x h → (wstep q (Done x)).2 = RNone) ∧
    (¬ in_hand x h → wstep q (Done x) = (q, RKeyError)).
  Proof.
    intros Hx. pose proof (wq_inv_exec _ _ Hx) as Hinv. rewrite <-(inv_proc _ _ Hinv).
    simpl. unfold wq_done. split; intros.
    - rewrite decide_True by done. by case_decide.
    - by rewrite decide_False.
  Qed.
End proofs.
