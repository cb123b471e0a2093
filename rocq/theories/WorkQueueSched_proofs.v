From Verif Require Import Base WorkQueue_model WorkQueue_spec WorkQueue_proofs WorkQueueSched_model.

Section proofs.
  Context {A : Type} `{EqDecision A}.
  Implicit Types (s : sched A) (ls : list (slabel A)).

  Lemma turn_get_step t s s' r : turn_get t s = (s', r) → wstep (s_q s) Get = (s_q s', r).
  Proof.
    unfold turn_get, wstep. destruct (wq_get (s_q s)) as [q' [| |x]] eqn:Hg; intros [= <- <-]; done.
  Qed.
  Lemma notify_with_q p s : s_q (notify_with p s) = p.1.
  Proof. unfold notify_with. by destruct (wake _ _ _). Qed.

  (** every schedule is a sequential history of calls *)
  Lemma strans_calls s l s' : strans s l s' → exec wstep (s_q s) (call_of l) (s_q s').
  Proof.
    destruct 1 as [s x|s x p Hp|s x Hp|s|s t s' r ?? Ht|s t n1 n2 s' r Hn Ht|s t w1 w2 ?|s t n1 n2 ?]; cbn [call_of].
    - apply exec_one. by rewrite notify_with_q.
    - apply exec_one. rewrite notify_with_q. simpl. rewrite Hp. by destruct p.
    - apply exec_one. simpl. by rewrite Hp.
    - apply exec_one. by rewrite notify_with_q.
    - apply exec_one. by apply turn_get_step in Ht.
    - apply exec_one. by apply turn_get_step in Ht.
    - constructor.
    - constructor.
  Qed.

  Lemma sched_refines ls s :
    reach strans sched_init ls s → exec wstep wq_init (ls ≫= call_of) (s_q s).
  Proof.
    induction 1 as [|ls s1 l s2 Hr IH Ht].
    - simpl. constructor.
    - rewrite bind_app. apply exec_app. exists (s_q s1). split; [done|].
      simpl. rewrite app_nil_r. by apply strans_calls.
  Qed.

  Definition no_lost (s : sched A) : Prop :=
    s_waiting s ≠ [] → length (wq_queue (s_q s)) ≤ length (s_notified s) ∧ wq_down (s_q s) = false.

  Lemma turn_get_no_lost t s s' r :
    turn_get t s = (s', r) →
    (s_waiting s ≠ [] → length (wq_queue (s_q s)) ≤ S (length (s_notified s)) ∧ wq_down (s_q s) = false) →
    no_lost s'.
  Proof.
    unfold turn_get, wq_get, no_lost. destruct s as [[d p q dn] w n]; simpl.
    destruct q as [|x q]; [destruct dn|]; intros [= <- <-]; simpl; intros Hw Hne.
    - by destruct (Hw Hne).
    - split; [lia|done].
    - destruct (Hw Hne). split; [lia|done].
  Qed.

  Lemma no_lost_step s l s' : is_cancel_notified l = false → no_lost s → strans s l s' → no_lost s'.
  Proof.
    intros Hl Hno. destruct 1 as [s x|s x p Hp|s x Hp|s|s t s' r ?? Ht|s t n1 n2 s' r Hn Ht|s t w1 w2 Hw|s t n1 n2 ?]; try done.
    - unfold notify_with, wq_add, no_lost in *. destruct s as [[d pr q dn] w n]; simpl in *.
      destruct dn; [exact Hno|]. case_decide; [exact Hno|]. case_decide; simpl; [exact Hno|].
      destruct w as [|t w]; simpl; [done|]. intros _. destruct Hno; [done|].
      rewrite !app_length. simpl. split; [lia|done].
    - unfold notify_with, wq_done, no_lost in *. destruct s as [[d pr q dn] w n]; simpl in *.
      repeat case_decide; simplify_eq; simpl; [|exact Hno].
      destruct w as [|t w]; simpl; [done|]. intros _. destruct Hno; [done|].
      rewrite !app_length. simpl. split; [lia|done].
    - eapply turn_get_no_lost; [exact Ht|]. intros Hne. destruct (Hno Hne). split; [lia|done].
    - eapply turn_get_no_lost; [exact Ht|]. simpl. intros Hne. destruct (Hno Hne) as [Hle ?].
      rewrite Hn in Hle. rewrite app_length in *. simpl in *. split; [lia|done].
    - unfold no_lost in *. simpl. intros _. apply Hno. rewrite Hw. by destruct w1.
  Qed.

  Lemma no_lost_reach ls s :
    reach strans sched_init ls s → Forall (λ l, is_cancel_notified l = false) ls → no_lost s.
  Proof.
    intros Hr. eapply (reach_trace_inv strans (λ ls s, Forall (λ l, is_cancel_notified l = false) ls → no_lost s)); [| |exact Hr].
    - by intros _ ?.
    - clear. intros ls s l s' _ IH Ht. rewrite Forall_app, Forall_singleton. intros [??].
      eapply no_lost_step; eauto.
  Qed.

  (** letting every notified task run once leaves nobody notified *)
  Lemma run_all_notified s : ∃ ls s', reach strans s ls s' ∧ s_notified s' = [] ∧
    Forall (λ l, ∃ t r, l = LRun t r) ls ∧ length ls = length (s_notified s).
  Proof.
    destruct s as [q w n]. revert q w. induction n as [|t n IH]; intros q w; simpl.
    - exists [], (Sched q w []). split; [constructor|]. done.
    - destruct (turn_get t (Sched q w n)) as [s1 r] eqn:Ht.
      assert (s_notified s1 = n) as Hn.
      { revert Ht. unfold turn_get; simpl. destruct (wq_get q) as [q' [| |x]]; by intros [= <- <-]. }
      destruct s1 as [q1 w1 n1]; simpl in Hn; subst n1.
      destruct (IH q1 w1) as (ls & s' & Hr & Hs' & Hf & Hlen).
      exists (LRun t r :: ls), s'. split.
      { eapply reach_cons; [|exact Hr]. by apply (st_run (Sched q w (t :: n)) t [] n). }
      split; [done|]. split; [constructor; eauto|]. simpl. by rewrite Hlen.
  Qed.

  Lemma no_lost_wakeup ls s :
    reach strans sched_init ls s → Forall (λ l, is_cancel_notified l = false) ls →
    s_notified s = [] → s_waiting s ≠ [] → wq_len (s_q s) = 0 ∧ wq_down (s_q s) = false.
  Proof.
    intros Hr Hf Hn Hw. pose proof (no_lost_reach _ _ Hr Hf Hw) as [Hle ?].
    rewrite Hn in Hle. simpl in Hle. unfold wq_len. split; [lia|done].
  Qed.
End proofs.
