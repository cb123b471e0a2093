(** Proofs of C81 for the controller. *)
From Verif Require Import Base WorkQueue_model WorkQueue_spec WorkQueue_proofs DelayQueue_model DelayQueue_spec DelayQueue_proofs RateLimit_model Controller_model Controller_spec Controller_proofs Controller_proofs2 Controller_proofs3 Controller_live_spec Controller_live_proofs DelayQueue_live_spec DelayQueue_live_proofs Controller_retry_spec.
From Coq Require Import ZArith QArith.
Local Open Scope nat_scope.

Section retry.
  Context {A : Type} `{EqDecision A} (is_request : A → bool).
  Notation kst := (kstep is_request).
  Implicit Types (s : kstate A) (x : A).

  Lemma queue_runs_of σ lb : runs is_request σ lb → queue_runs (λ n, k_q (σ n)) (λ n, head (to_queue (lb n))).
  Proof.
    intros Hr n. pose proof (Controller_proofs.step_queue _ _ _ _ (Hr n)) as Hq. simpl. destruct (lb n) as [l|i r tm|i y o sec [[d tm]|]|i|i y r|i|i]; simpl in *;
      first [by apply reach_one_inv in Hq|inversion Hq as [|ls s1 l s2 Hq1 Hst E]; [done|by destruct ls]].
  Qed.

  Section run.
    Context (σ : nat → kstate A) (lb : nat → klabel A) (t : Z) (n0 i : nat).
    Hypothesis (H0 : σ 0 = kinit t n0) (Hruns : runs is_request σ lb) (Hfair : fair σ lb) (Hserves : serves σ lb) (Hi : i < n0) (Hnc : ∀ k, lb k ≠ KCancel i).

    Lemma delayed_starts n x d t0 : head (to_queue (lb n)) = Some (DAddAfter x d t0) → ∃ m, n < m ∧ starts x (lb m).
    Proof.
      intros Hl. destruct Hserves as [Hgo Hopen].
      destruct (after_dirty (λ n, k_q (σ n)) (λ n, head (to_queue (lb n))) t) with (n := n) (x := x) (d := d) (t0 := t0) as (m & Hm & Hd); [by rewrite H0|by apply queue_runs_of|done|done|done|].
      destruct (dirty_starts is_request σ lb t n0 H0 Hruns Hfair i x m Hi Hnc Hd) as (k & ? & ?). exists k. split; [lia|done].
    Qed.
    Lemma added_after_starts n x d t0 : lb n = KEnv (DAddAfter x d t0) → ∃ m, n < m ∧ starts x (lb m).
    Proof. intros Hl. apply (delayed_starts n x d t0). by rewrite Hl. Qed.
    Lemma requeued_starts n j x o sec a : lb n = KRet j x o sec a → (plan_of o (failures_of is_request x (upto lb n))).1 ≠ NoRequeue → ∃ m, n < m ∧ starts x (lb m).
    Proof.
      intros Hl Hp. pose proof (Hruns n) as Hs. rewrite Hl in Hs. destruct (outcome_table is_request t n0 (upto lb n) (σ n) j x o sec a (σ (S n))) as [Hm _]; [by apply (at_reach is_request σ lb t n0)|done|].
      assert (∃ d t0, a = Some (d, t0)) as (d & t0 & ->). { destruct (plan_of o _) as [[]]; simpl in *; [done|naive_solver|naive_solver]. }
      apply (delayed_starts n x d t0). by rewrite Hl.
    Qed.

    (** reconciles end *)
    Lemma run_ends n j x tm : lb n = KGet j (RItem x) tm → is_request x = true → (∀ k, lb k ≠ KCancel j) → ∃ m o, n < m ∧ ended lb x m o.
    Proof.
      intros Hl Hq Hc. assert (k_ws (σ (S n)) !! j = Some (WRun x)) as Hw.
      { pose proof (Hruns n) as Hs. rewrite Hl in Hs. inversion Hs as [|? ? ? ? Hj Ht| | | | |]; subst. simpl. rewrite Hq. simpl. apply list_lookup_insert. by eapply lookup_lt_Some. }
      destruct (Hfair _ _ _ Hw) as (m & Hm & Hmv).
      assert (∀ m, S n ≤ m → (∃ k, S n ≤ k ∧ ∃ o, ended lb x k o) ∨ k_ws (σ m) !! j = Some (WRun x)) as Hwalk.
      { intros m' Hle. induction Hle as [|m' Hle IH]; [by right|]. destruct IH as [?|IH]; [by left|]. specialize (Hc m'). pose proof (Hruns m') as Hs.
        destruct (lb m') as [l|i' r tm'|i' y o sec a|i'|i' y r|i'|i'] eqn:El; inversion Hs as [? q' Ho Ht|? ? q' tm2 Hj Ht|? ? ? ? ms q' p' a' Hj Hh|? y' r' Hj|? ? r' q' e' Hj Ht|? Hj|? p' Hj]; subst; simpl; try (by right);
          (destruct (decide (i' = j)) as [->|Hne]; [simplify_eq|right; by rewrite list_lookup_insert_ne]).
        left. exists m'. split; [done|]. exists o, j, sec, a. by rewrite El. }
      destruct (Hwalk m Hm) as [(k & Hk & o & Ho)|Hwm]; [exists k, o; split; [lia|done]|]. destruct Hmv as [Hmv|[?|?]]; [|simplify_eq|simplify_eq].
      pose proof (Hruns m) as Hs. destruct (lb m) as [l|i' r tm'|i' y o sec a|i'|i' y r|i'|i'] eqn:El; try done; simpl in Hmv; subst i';
        inversion Hs as [? q' Ho Ht|? ? q' tm2 Hj Ht|? ? ? ? ms q' p' a' Hj Hh|? y' r' Hj|? ? r' q' e' Hj Ht|? Hj|? p' Hj]; subst; simplify_eq.
      exists m, o. split; [lia|]. by exists j, sec, a.
    Qed.

    (** retries go on until a reconcile succeeds, or 1024 in a row failed *)
    Lemma upto_S n : upto lb (S n) = upto lb n ++ [lb n].
    Proof. unfold upto. by rewrite seq_S, fmap_app. Qed.
    Lemma failures_S x n : failures_of is_request x (upto lb (S n)) = count_step is_request x (failures_of is_request x (upto lb n)) (lb n).
    Proof. unfold failures_of. rewrite upto_S, foldl_app. done. Qed.
    Lemma fails_dec o : {fails o} + {¬ fails o}.
    Proof. destruct o as [|[] q|]; simpl; [left; done| |right; naive_solver|right; tauto]. destruct (Qeq_bool q 0); [by left|right; naive_solver]. Qed.
    Lemma failures_scan x n m : is_request x = true → n ≤ m → (∃ k o, n ≤ k ∧ ended lb x k o ∧ ¬ fails o) ∨ failures_of is_request x (upto lb n) ≤ failures_of is_request x (upto lb m).
    Proof.
      intros Hq Hle. induction Hle as [|m Hle IH]; [by right|]. destruct IH as [?|IH]; [by left|]. rewrite failures_S.
      destruct (lb m) as [l|i' [|y| | |] tm'|i' y o sec a|i'|i' y r|i'|i'] eqn:El; simpl; try (by right).
      - case_bool_decide as Hb; [|by right]. destruct Hb as [-> ?]. congruence.
      - destruct (decide (y = x)) as [->|Hne].
        + destruct (fails_dec o) as [Hf|Hf]; [|left; exists m, o; split; [done|]; split; [by exists i', sec, a|done]].
          right. destruct o as [|rq af|]; simpl in Hf; [rewrite bool_decide_eq_true_2 by done; lia| |done]. destruct Hf as [-> ->]. rewrite bool_decide_eq_true_2 by done. simpl. lia.
        + right. destruct o; rewrite ?bool_decide_eq_false_2 by done; done.
    Qed.
    Lemma settles f : ∀ x n, is_request x = true → (∀ j k, lb k ≠ KCancel j) → 1024 - failures_of is_request x (upto lb n) ≤ f → (∃ m, n ≤ m ∧ starts x (lb m)) →
      ∃ m o, n ≤ m ∧ ended lb x m o ∧ (¬ fails o ∨ 1024 ≤ failures_of is_request x (upto lb m)).
    Proof.
      induction f as [|f IH]; intros x n Hq Hc Hf (m & Hm & j & tm & Hl).
      all: destruct (run_ends m j x tm Hl Hq (Hc j)) as (k & o & Hk & He).
      all: destruct (failures_scan x n k Hq) as [(k' & o' & Hk' & He' & Ho')|Hle]; [lia|exists k', o'; split_and!; [done|done|by left]|].
      - exists k, o. split; [lia|]. split; [done|]. right. lia.
      - destruct (fails_dec o) as [Ho|Ho]; [|exists k, o; split; [lia|]; split; [done|by left]].
        destruct (decide (1024 ≤ failures_of is_request x (upto lb k))) as [Hmany|Hfew]; [exists k, o; split; [lia|]; split; [done|by right]|].
        destruct He as (j' & sec & a & Hret). destruct (requeued_starts k j' x o sec a Hret) as (m' & Hm' & Hst).
        { assert (failures_of is_request x (upto lb k) <? 1024 = true) as Hlt by (apply Nat.ltb_lt; lia).
          destruct o as [|rq af|]; simpl in Ho; [|destruct Ho as [-> Ho]|done]; simpl; rewrite ?Ho; unfold repeat_plan; by rewrite Hlt. }
        destruct (IH x (S k) Hq Hc) as (m2 & o2 & Hm2 & Hrest); [|exists m'; split; [lia|done]|exists m2, o2; split; [lia|done]].
        rewrite failures_S, Hret. destruct o as [|rq af|]; simpl in Ho; [|destruct Ho as [-> Ho]|done]; simpl; rewrite ?Ho, bool_decide_eq_true_2 by done; simpl; lia.
    Qed.
    Lemma added_settles x n : is_request x = true → (∀ j k, lb k ≠ KCancel j) → lb n = KEnv (DAdd x) →
      ∃ m o, n < m ∧ ended lb x m o ∧ (¬ fails o ∨ 1024 ≤ failures_of is_request x (upto lb m)).
    Proof.
      intros Hq Hc Hl. destruct (added_starts is_request σ lb t n0 H0 Hruns Hfair i x n Hi Hnc Hl) as (k & Hk & Hst).
      destruct (settles 1024 x (S n) Hq Hc) as (m & o & Hm & Hrest); [lia|by exists k|]. exists m, o. split; [lia|done].
    Qed.
  End run.
End retry.
