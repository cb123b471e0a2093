(** Proofs of C81 for the delaying queue. *)
From Verif Require Import Base WorkQueue_model WorkQueue_spec WorkQueue_proofs WaitPQ_model WaitPQ_spec WaitPQ_proofs DelayQueue_model DelayQueue_spec DelayQueue_proofs DelayQueue_live_spec.
From Coq Require Import ZArith.
Local Open Scope nat_scope.

Section live.
  Context {A : Type} `{EqDecision A}.
  Implicit Types (s : dq A) (x : A).

  Definition dirty x s : Prop := x ∈ wq_dirty (dq_base s).
  (** tracked by the loop, to be released at r at the latest *)
  Definition inheap x (r : Z) s : Prop := ∃ r', (x, r') ∈ live (dq_pq s) ∧ (r' <= r)%Z.

  Lemma resume_absorbs ls s m e0 : DI ls s m → dq_stop s = false → dq_pc s = LGot e0 →
    dq_pc (loop_resume e0 s) = LTop ∧ dq_now (loop_resume e0 s) = dq_now s ∧
    (∀ e, e = e0 ∨ e ∈ dq_incoming s → dirty e.1 (loop_resume e0 s) ∨ inheap e.1 e.2 (loop_resume e0 s)) ∧
    (∀ x r, inheap x r s → inheap x r (loop_resume e0 s)) ∧ (∀ x, dirty x s → dirty x (loop_resume e0 s)).
  Proof.
    intros HDI Hst Hpc. unfold loop_resume. rewrite Hst. change (absorb_all (dq_now s) (dq_incoming s) (absorb (dq_now s) e0 (dq_pq s, dq_base s))) with (absorb_all (dq_now s) (e0 :: dq_incoming s) (dq_pq s, dq_base s)).
    destruct (absorb_all_spec (dq_now s) (e0 :: dq_incoming s) (dq_pq s) (dq_base s) m (di_P _ _ _ HDI)) as (w & rel & m' & -> & HP & Hrel & _ & Hk & Hes & _).
    split; [done|]. split; [done|]. pose proof (Pabs_live _ _ HP) as Hl. pose proof (Pabs_live _ _ (di_P _ _ _ HDI)) as Hl0. pose proof (di_down _ _ _ HDI) as Hd.
    unfold dirty, inheap. simpl. split; [|split].
    - intros e He. destruct (Hes e) as [Hr|(r & Hr & Hle)]; [destruct He as [->|He]; [by left|by right]| |].
      + left. apply add_list_dirty; [done|]. left. apply elem_of_list_fmap. by exists e.
      + right. exists r. by rewrite Hl.
    - intros x r (r1 & Hr1 & Hle). rewrite Hl0 in Hr1. destruct (Hk _ Hr1) as (r2 & Hr2 & Hle2). simpl in *. exists r2. rewrite Hl. split; [done|lia].
    - intros x Hx. apply add_list_dirty; [done|]. by right.
  Qed.
  Lemma top_releases ls s m : DI ls s m → dq_pc s = LTop →
    (∃ tm, dq_pc (loop_top s) = LWait tm) ∧ dq_incoming (loop_top s) = dq_incoming s ∧
    (∀ x r, inheap x r s → dirty x (loop_top s) ∨ inheap x r (loop_top s)) ∧
    (∀ x r, inheap x r s → (r <= dq_now s)%Z → dirty x (loop_top s)).
  Proof.
    intros HDI Hpc. destruct (loop_top_waits _ _ _ HDI Hpc) as (tm & H1 & H2 & H3 & H4 & H5 & H6).
    split; [by exists tm|]. split; [done|].
    assert (Hmain : ∀ x r, inheap x r s → dirty x (loop_top s) ∨ inheap x r (loop_top s)).
    { intros x r (r1 & Hr1 & Hle). clear H1 H2 H3 H4 H5 H6. rewrite (Pabs_live _ _ (di_P _ _ _ HDI)) in Hr1. unfold loop_top. rewrite (di_down _ _ _ HDI).
      destruct (drain_due_spec (pq_len (dq_pq s)) (dq_now s) (dq_pq s) (dq_base s) m (di_P _ _ _ HDI)) as (w' & rel & m' & Hdr & HP' & Hperm & Hf1 & Hf2).
      { by rewrite (Pabs_len _ _ (di_P _ _ _ HDI)). }
      rewrite Hdr, (Pabs_len _ _ HP'). rewrite Hperm in Hr1.
      assert (Hdirty : (x, r1) ∈ rel → x ∈ wq_dirty (add_list rel.*1 (dq_base s))).
      { intros Hin. apply add_list_dirty; [apply (di_down _ _ _ HDI)|]. left. apply elem_of_list_fmap. by exists (x, r1). }
      destruct (Nat.eqb_spec (length m') 0) as [H0|H0].
      - destruct m'; [|done]. rewrite app_nil_r in Hr1. left. unfold dirty. simpl. by apply Hdirty.
      - pose proof (Pabs_peek _ _ HP') as [HP1 Hpk]. destruct (pq_peek w') as [w1 [p|]]; simpl in *; [|by subst].
        unfold dirty, inheap. simpl. apply elem_of_app in Hr1 as [Hr1|Hr1]; [left; by apply Hdirty|].
        right. exists r1. rewrite (Pabs_live _ _ HP1). done. }
    split; [done|]. intros x r Hin Hle. destruct (Hmain x r Hin) as [?|(r' & Hr' & Hle')]; [done|]. specialize (H6 _ Hr'). simpl in H6. lia.
  Qed.

  Section run.
    Context (σ : nat → dq A) (lb : nat → option (dlabel A)) (t : Z).
    Hypothesis (H0 : σ 0 = dq_init t) (Hruns : queue_runs σ lb) (Hgo : queue_goes_on σ lb) (Hopen : ∀ n, dq_stop (σ n) = false).

    Lemma q_reach n : ∃ ls, reach dtrans (dq_init t) ls (σ n).
    Proof.
      induction n as [|n [ls IH]]; [rewrite H0; exists []; constructor|]. pose proof (Hruns n) as Hs. destruct (lb n) as [l|]; [|rewrite Hs; by exists ls].
      exists (ls ++ [l]). by eapply reach_snoc.
    Qed.
    Lemma q_DI n : ∃ ls m, DI ls (σ n) m.
    Proof. destruct (q_reach n) as [ls Hr]. destruct (DI_reach _ _ _ Hr) as [m Hm]. by exists ls, m. Qed.

    (** what the steps do to the entries *)
    Lemma step_queue n l : lb n = Some l → dtrans (σ n) l (σ (S n)).
    Proof. intros Hl. pose proof (Hruns n) as Hs. by rewrite Hl in Hs. Qed.
    Lemma step_none n : lb n = None → σ (S n) = σ n.
    Proof. intros Hl. pose proof (Hruns n) as Hs. by rewrite Hl in Hs. Qed.
    (** the loop's own steps or not *)
    Lemma pc_kept n : ¬ by_loop (lb n) → dq_pc (σ (S n)) = dq_pc (σ n).
    Proof.
      intros Hb. destruct (lb n) as [l|] eqn:Hl; [|by rewrite (step_none _ Hl)]. pose proof (step_queue _ _ Hl) as Hs. destruct Hs; simpl in Hb; try tauto; simpl; try done.
      - unfold dq_add_after. by repeat case_match.
      - unfold dq_shut_down, shut_down_body. simpl. by repeat case_match.
    Qed.
    Lemma heap_kept n x r : inheap x r (σ n) → dirty x (σ (S n)) ∨ inheap x r (σ (S n)).
    Proof.
      intros Hin. destruct (lb n) as [l|] eqn:Hl; [|rewrite (step_none _ Hl); by right]. pose proof (step_queue _ _ Hl) as Hs. destruct (q_DI n) as (ls & m & HDI). pose proof (Hopen n) as Hst.
      inversion Hs as [? ? Hle|? y|? q r0 Hw|? y q r0 Hw|? y d|? |? e a b Hp Hlen|? e a b Hp Hs'|? Hpc|? tm e rest Hpc Hi|? e Hpc|? tm Hpc Hle|? tm Hpc|? tm Hpc Hs']; subst; try (right; exact Hin).
      - right. unfold dq_add_after. repeat case_match; exact Hin.
      - right. unfold dq_shut_down, shut_down_body. simpl. repeat case_match; exact Hin.
      - by apply (top_releases _ _ _ HDI Hpc).
      - right. by apply (resume_absorbs _ _ _ _ HDI Hst Hpc).
    Qed.
    Lemma now_mono n : (dq_now (σ n) <= dq_now (σ (S n)))%Z.
    Proof.
      destruct (lb n) as [l|] eqn:Hl; [|rewrite (step_none _ Hl); lia]. pose proof (step_queue _ _ Hl) as Hs. destruct (q_DI n) as (ls & m & HDI).
      inversion Hs as [? ? Hle|? y|? q r0 Hw|? y q r0 Hw|? y d|? |? e a b Hp Hlen|? e a b Hp Hs'|? Hpc|? tm e rest Hpc Hi|? e Hpc|? tm Hpc Hle|? tm Hpc|? tm Hpc Hs']; subst; simpl; try lia.
      - unfold dq_add_after. repeat case_match; simpl; lia.
      - unfold dq_shut_down, shut_down_body. simpl. repeat case_match; simpl; lia.
      - destruct (loop_top_waits _ _ _ HDI Hpc) as (tm & _ & -> & _). lia.
      - destruct (resume_absorbs _ _ _ _ HDI (Hopen n) Hpc) as (_ & -> & _). lia.
    Qed.
    Lemma now_mono_le n m : n ≤ m → (dq_now (σ n) <= dq_now (σ m))%Z.
    Proof. intros Hle. induction Hle as [|m Hle IH]; [lia|]. pose proof (now_mono m). lia. Qed.

    (** following what the loop does *)
    Lemma walk (P D : nat → Prop) n : (∀ m, n ≤ m → P m → D (S m) ∨ P (S m)) → P n → ∀ m, n ≤ m → (∃ j, n ≤ j ∧ D j) ∨ P m.
    Proof.
      intros Hs Hp m Hle. induction Hle as [|m Hle IH]; [by right|]. destruct IH as [?|IH]; [by left|]. destruct (Hs m Hle IH) as [?|?]; [left; exists (S m); split; [lia|done]|by right].
    Qed.
    Lemma loop_leads (P D : nat → Prop) (rk : nat → nat) :
      (∀ m, P m → D (S m) ∨ P (S m) ∧ (rk (S m) < rk m ∨ rk (S m) = rk m ∧ ¬ by_loop (lb m))) →
      (∀ m, P m → ∃ l s, l ∈ [DLoopTop; DTake; DResume; DWakeTimer] ∧ dtrans (σ m) l s) →
      ∀ n, P n → ∃ m, n ≤ m ∧ D m.
    Proof.
      intros Hs Hen. assert (∀ k n, rk n = k → P n → ∃ m, n ≤ m ∧ D m) as Hk; [|intros n; by apply (Hk (rk n))].
      intros k. induction (lt_wf k) as [k _ IH]. intros n Hrk Hp. destruct Hgo as (Hloop & _). destruct (Hloop n) as (m & Hnm & Hm).
      assert (∀ m, n ≤ m → (∃ j, n ≤ j ∧ D j) ∨ P m ∧ rk m = k) as Hw.
      { intros m' Hle. induction Hle as [|m' Hle IHw]; [by right|]. destruct IHw as [?|[Hp' Hr']]; [by left|]. destruct (Hs _ Hp') as [?|[Hp2 [Hlt|[He _]]]].
        - left. exists (S m'). split; [lia|done].
        - left. destruct (IH (rk (S m'))) with (n := S m') as (j & ? & ?); [lia|done|done|]. exists j. split; [lia|done].
        - right. split; [done|lia]. }
      destruct (Hw m Hnm) as [?|[Hp' Hr']]; [done|]. destruct Hm as [Hb|Hno].
      - destruct (Hs _ Hp') as [?|[Hp2 [Hlt|[_ Hnb]]]]; [exists (S m); split; [lia|done]| |done].
        destruct (IH (rk (S m))) with (n := S m) as (j & ? & ?); [lia|done|done|]. exists j. split; [lia|done].
      - destruct (Hen _ Hp') as (l & s & Hl & Ht). by destruct (Hno l s Hl).
    Qed.

    Lemma pc_step n : by_loop (lb n) →
      match dq_pc (σ n) with
      | LTop => lb n = Some DLoopTop
      | LWait _ => (∃ e, lb n = Some DTake ∧ dq_pc (σ (S n)) = LGot e) ∨ dq_pc (σ (S n)) = LTop ∧ lb n ≠ Some DTake
      | LGot e => lb n = Some DResume
      | LEnd | LCrash => False
      end.
    Proof.
      intros Hb. destruct (lb n) as [l|] eqn:Hl; [|done]. pose proof (step_queue _ _ Hl) as Hs. pose proof (Hopen n) as Hst.
      inversion Hs as [? ? Hle|? y|? q r0 Hw|? y q r0 Hw|? y d|? |? e a b Hp Hlen|? e a b Hp Hs'|? Hpc|? tm e rest Hpc Hi|? e Hpc|? tm Hpc Hle|? tm Hpc|? tm Hpc Hs']; subst; try done; rewrite Hpc; try done.
      - left. by exists e.
      - right. unfold loop_wake. simpl. by rewrite Hst.
      - right. unfold loop_wake. simpl. by rewrite Hst.
      - congruence.
    Qed.
    Lemma pc_alive n : dq_pc (σ n) = LTop ∨ (∃ tm, dq_pc (σ n) = LWait tm) ∨ ∃ e, dq_pc (σ n) = LGot e.
    Proof.
      destruct (q_DI n) as (ls & m & HDI). pose proof (di_pc _ _ _ HDI) as Hpc. unfold pc_ok in Hpc. pose proof (Hopen n). destruct (dq_pc (σ n)); try done; [by left|right; left; by eexists|right; right; by eexists|congruence].
    Qed.

    (** an entry of the heap is released when it is due *)
    Lemma due_leaves n x r : inheap x r (σ n) → (r <= dq_now (σ n))%Z → ∃ m, n ≤ m ∧ dirty x (σ m).
    Proof.
      intros Hin Hle. apply (loop_leads (λ m, inheap x r (σ m) ∧ (r <= dq_now (σ m))%Z) (λ m, dirty x (σ m)) (λ m, match dq_pc (σ m) with LTop => 1 | LGot _ => 2 | LWait _ => 3 | _ => 0 end)); [| |done].
      - clear n Hin Hle. intros m [Hin Hle]. pose proof (now_mono m) as Hmono. destruct (heap_kept m x r Hin) as [?|Hin']; [by left|].
        assert (by_loop (lb m) ∨ ¬ by_loop (lb m)) as [Hb|Hb] by (destruct (lb m) as [[]|]; simpl; tauto); [|right; split; [split; [done|lia]|]; right; by rewrite (pc_kept _ Hb)].
        pose proof (pc_step _ Hb) as Hp. destruct (q_DI m) as (ls & mm & HDI). destruct (pc_alive m) as [Hpc|[[tm Hpc]|[e Hpc]]]; rewrite Hpc in Hp |- *.
        + left. pose proof (step_queue _ _ Hp) as Hs. inversion Hs; subst. by apply (top_releases _ _ _ HDI Hpc) with (r := r).
        + right. split; [split; [done|lia]|]. left. destruct Hp as [(e & _ & ->)|[-> _]]; lia.
        + right. split; [split; [done|lia]|]. left. pose proof (step_queue _ _ Hp) as Hs. inversion Hs; subst. match goal with E : dq_pc (σ m) = LGot ?e' |- _ => destruct (resume_absorbs _ _ _ _ HDI (Hopen m) E) as (-> & _); lia end.
      - clear n Hin Hle. intros m [Hin Hle]. destruct (pc_alive m) as [Hpc|[[tm Hpc]|[e Hpc]]].
        + exists DLoopTop, (loop_top (σ m)). split; [left|by constructor].
        + destruct (q_reach m) as [ls Hr]. pose proof (sleeping_timer _ _ _ _ Hr Hpc) as Ht. destruct Hin as (r1 & Hr1 & Hle1). destruct tm as [tm|].
          * exists DWakeTimer, (loop_wake (σ m)). split; [do 3 right; by left|]. econstructor; [done|]. destruct Ht as [_ Ht]. specialize (Ht _ Hr1). simpl in Ht. lia.
          * rewrite Ht in Hr1. by apply elem_of_nil in Hr1.
        + exists DResume, (loop_resume e (σ m)). split; [do 2 right; by left|by constructor].
    Qed.
    Lemma heap_leaves n x r : inheap x r (σ n) → ∃ m, n ≤ m ∧ dirty x (σ m).
    Proof.
      intros Hin. destruct Hgo as (_ & _ & _ & Hc). destruct (Hc r) as [m Hm].
      destruct (walk (λ m, inheap x r (σ m)) (λ m, dirty x (σ m)) n) with (m := n + m) as [?|Hin']; [intros; by apply heap_kept|done|lia|done|].
      destruct (due_leaves (n + m) x r Hin') as (k & ? & ?); [pose proof (now_mono_le m (n + m)); lia|]. exists k. split; [lia|done].
    Qed.

    (** an entry of the channel reaches the heap *)
    Definition absorbed (e : A * Z) s : Prop := dirty e.1 s ∨ inheap e.1 e.2 s.
    Definition on_way (e : A * Z) s : Prop := e ∈ dq_incoming s ∨ dq_pc s = LGot e.
    Lemma on_way_step n e : on_way e (σ n) → absorbed e (σ (S n)) ∨ on_way e (σ (S n)).
    Proof.
      intros Hw. assert (∀ s, dq_incoming s = dq_incoming (σ n) → dq_pc s = dq_pc (σ n) → absorbed e s ∨ on_way e s) as Hsame.
      { intros s Hi Hp. right. unfold on_way. rewrite Hi, Hp. exact Hw. }
      destruct (lb n) as [l|] eqn:Hl; [|rewrite (step_none _ Hl); by apply Hsame]. pose proof (step_queue _ _ Hl) as Hs. destruct (q_DI n) as (ls & m & HDI). pose proof (Hopen n) as Hst.
      inversion Hs as [? ? Hle|? y|? q r0 Hq|? y q r0 Hq|? y d|? |? e1 a b Hp Hlen|? e1 a b Hp Hs'|? Hpc|? tm e1 rest Hpc Hi|? e1 Hpc|? tm Hpc Hle|? tm Hpc|? tm Hpc Hs']; subst; try (by apply Hsame).
      - apply Hsame; unfold dq_add_after; by repeat case_match.
      - apply Hsame; unfold dq_shut_down, shut_down_body; simpl; by repeat case_match.
      - right. unfold on_way in *. simpl. destruct Hw as [Hw|Hw]; [left; apply elem_of_app; by left|by right].
      - destruct (top_releases _ _ _ HDI Hpc) as (_ & Hi & _). right. unfold on_way in *. rewrite Hi. rewrite Hpc in Hw. destruct Hw as [Hw|Hw]; [by left|done].
      - right. unfold on_way in *. simpl. rewrite Hpc in Hw. destruct Hw as [Hw|Hw]; [|done]. rewrite Hi in Hw. apply elem_of_cons in Hw as [->|Hw]; [by right|by left].
      - left. destruct (resume_absorbs _ _ _ _ HDI Hst Hpc) as (_ & _ & Ha & _). apply Ha. unfold on_way in Hw. rewrite Hpc in Hw. destruct Hw as [?|Hw]; [by right|left; by injection Hw].
      - right. unfold on_way in *. simpl. rewrite Hpc in Hw. destruct Hw as [Hw|Hw]; [by left|done].
      - right. unfold on_way in *. simpl. rewrite Hpc in Hw. destruct Hw as [Hw|Hw]; [by left|done].
      - right. unfold on_way in *. simpl. rewrite Hpc in Hw. destruct Hw as [Hw|Hw]; [by left|done].
    Qed.
    Lemma got_absorbed n e e0 : dq_pc (σ n) = LGot e0 → on_way e (σ n) → ∃ m, n ≤ m ∧ absorbed e (σ m).
    Proof.
      intros Hpc Hw. apply (loop_leads (λ m, dq_pc (σ m) = LGot e0 ∧ on_way e (σ m)) (λ m, absorbed e (σ m)) (λ _, 0)); [| |done]; clear n Hpc Hw.
      - intros m [Hpc Hw]. destruct (on_way_step m e Hw) as [?|Hw']; [by left|].
        assert (by_loop (lb m) ∨ ¬ by_loop (lb m)) as [Hb|Hb] by (destruct (lb m) as [[]|]; simpl; tauto); [|right; rewrite (pc_kept _ Hb); split_and!; try done; right; done].
        pose proof (pc_step _ Hb) as Hp. rewrite Hpc in Hp. pose proof (step_queue _ _ Hp) as Hs. destruct (q_DI m) as (ls & mm & HDI). inversion Hs as [| | | | | | | | | |? e1 Hpc1| | |]; subst. rewrite Hpc in Hpc1. injection Hpc1 as <-.
        left. destruct (resume_absorbs _ _ _ _ HDI (Hopen m) Hpc) as (_ & _ & Ha & _). apply Ha. unfold on_way in Hw. rewrite Hpc in Hw. destruct Hw as [?|Hw]; [by right|left; by injection Hw].
      - intros m [Hpc Hw]. exists DResume, (loop_resume e0 (σ m)). split; [do 2 right; by left|by constructor].
    Qed.
    Lemma channel_leaves n e : on_way e (σ n) → ∃ m, n ≤ m ∧ absorbed e (σ m).
    Proof.
      intros Hw. destruct Hgo as (_ & Htake & _). destruct (Htake n) as (m & Hnm & Hm).
      destruct (walk (λ m, on_way e (σ m)) (λ m, absorbed e (σ m)) n) with (m := m) as [?|Hwm]; [intros k _ Hk; destruct (on_way_step k e Hk) as [?|?]; [by left|by right]|done|done|done|].
      destruct Hm as [Hl|Hno].
      - assert (∃ e0, dq_pc (σ (S m)) = LGot e0) as [e0 Hg] by (pose proof (step_queue _ _ Hl) as Hs; inversion Hs; subst; simpl; by eexists).
        destruct (on_way_step m e Hwm) as [?|Hw']; [exists (S m); split; [lia|done]|]. destruct (got_absorbed (S m) e e0 Hg Hw') as (k & ? & ?). exists k. split; [lia|done].
      - destruct (loop_leads (λ k, m ≤ k ∧ on_way e (σ k)) (λ k, absorbed e (σ k)) (λ k, match dq_pc (σ k) with LTop => 1 | _ => 2 end)) with (n := m) as (k & ? & ?); [| |done|exists k; split; [lia|done]].
        + intros k [Hk Hwk]. destruct (on_way_step k e Hwk) as [?|Hw']; [by left|].
          assert (Hnw : ∀ j tm, m ≤ j → on_way e (σ j) → dq_pc (σ j) ≠ LWait tm).
          { intros j tm Hj [Hi|Hp] Hpc; [|congruence]. destruct (dq_incoming (σ j)) as [|e1 rest] eqn:Hinc; [by apply elem_of_nil in Hi|]. eapply (Hno j); [done|]. by eapply dt_take. }
          assert (by_loop (lb k) ∨ ¬ by_loop (lb k)) as [Hb|Hb] by (destruct (lb k) as [[]|]; simpl; tauto); [|right; rewrite (pc_kept _ Hb); split; [split; [lia|done]|right; done]].
          pose proof (pc_step _ Hb) as Hp. destruct (q_DI k) as (ls & mm & HDI). destruct (pc_alive k) as [Hpc|[[tm Hpc]|[e0 Hpc]]]; rewrite Hpc in Hp.
          * pose proof (step_queue _ _ Hp) as Hs. inversion Hs as [| | | | | | | |? Hpc1 E1 E2| | | | |]; subst. destruct (top_releases _ _ _ HDI Hpc) as ([tm Htm] & _). exfalso. apply (Hnw (S k) tm); [lia|done|congruence].
          * by destruct (Hnw k tm Hk Hwk).
          * pose proof (step_queue _ _ Hp) as Hs. inversion Hs as [| | | | | | | | | |? e1 Hpc1| | |]; subst. destruct (resume_absorbs _ _ _ _ HDI (Hopen k) Hpc1) as (Hpc' & _ & Ha & _). left. apply Ha. unfold on_way in Hwk. rewrite Hpc1 in Hwk. destruct Hwk as [?|Hwk]; [by right|left; by injection Hwk].
        + intros k [Hk Hwk]. destruct (pc_alive k) as [Hpc|[[tm Hpc]|[e0 Hpc]]].
          * exists DLoopTop, (loop_top (σ k)). split; [left|by constructor].
          * destruct Hwk as [Hi|Hp]; [|congruence]. destruct (dq_incoming (σ k)) as [|e1 rest] eqn:Hinc; [by apply elem_of_nil in Hi|]. eexists DTake, _. split; [do 1 right; by left|]. by eapply dt_take.
          * exists DResume, (loop_resume e0 (σ k)). split; [do 2 right; by left|by constructor].
    Qed.
    Lemma entry_leaves n e : e ∈ dq_puts (σ n) ∨ on_way e (σ n) ∨ absorbed e (σ n) → ∃ m, n ≤ m ∧ dirty e.1 (σ m).
    Proof.
      assert (Ha : ∀ n, absorbed e (σ n) → ∃ m, n ≤ m ∧ dirty e.1 (σ m)) by (intros k [?|Hk]; [by exists k|by eapply heap_leaves]).
      assert (Hb : ∀ n, on_way e (σ n) → ∃ m, n ≤ m ∧ dirty e.1 (σ m)).
      { intros k Hk. destruct (channel_leaves _ _ Hk) as (m & Hm & Hab). destruct (Ha _ Hab) as (j & ? & ?). exists j. split; [lia|done]. }
      intros [Hp|[Hw|Hab]]; [|by apply Hb|by apply Ha]. destruct Hgo as (_ & _ & Hput & _). destruct (Hput n e Hp) as (m & Hnm & _ & Hlast).
      destruct (Hb (S m)) as (j & ? & ?); [left|exists j; split; [lia|done]]. apply last_Some in Hlast as [l' ->]. apply elem_of_app. right. by left.
    Qed.
    Lemma dirty_owed' n x : dirty x (σ n) → ready_owed x (σ n).
    Proof. intros Hd. destruct (q_DI n) as (ls & m & HDI). destruct (di_base _ _ _ HDI) as [h Hex]. exists h. split; [done|]. by apply (inv_dirty _ _ (wq_inv_exec _ _ Hex)). Qed.
    Lemma after_dirty n x d t0 : lb n = Some (DAddAfter x d t0) → ∃ m, n < m ∧ dirty x (σ m).
    Proof.
      intros Hl. pose proof (step_queue _ _ Hl) as Hs. destruct (q_DI n) as (ls & mm & HDI). pose proof (di_down _ _ _ HDI) as Hdn.
      inversion Hs as [| | | |? ? ? E1 E2 E3| | | | | | | | |]; subst. unfold dq_add_after in E3. rewrite Hdn in E3. destruct (Z.leb d 0).
      - exists (S n). split; [lia|]. rewrite <-E3. unfold dirty. simpl. apply wq_add_dirty; [done|]. by left.
      - destruct (entry_leaves (S n) (x, (dq_now (σ n) + d)%Z)) as (m & ? & ?); [left; rewrite <-E3; simpl; apply elem_of_app; right; by left|]. exists m. split; [lia|done].
    Qed.
    Lemma after_returns n x d t0 : lb n = Some (DAddAfter x d t0) → ∃ m, n < m ∧ ready_owed x (σ m).
    Proof. intros Hl. destruct (after_dirty _ _ _ _ Hl) as (m & ? & ?). exists m. split; [done|by apply dirty_owed']. Qed.
    Lemma tracked_returns n x r : (x, r) ∈ dq_tracked (σ n) → ∃ m, n ≤ m ∧ ready_owed x (σ m).
    Proof.
      intros Hin. destruct (entry_leaves n (x, r)) as (m & ? & Hm); [|exists m; split; [done|by apply dirty_owed']].
      unfold dq_tracked in Hin. apply elem_of_app in Hin as [?|[?|[Hg|Hh]%elem_of_app]%elem_of_app]; [by left|right; left; by left| |].
      - right. left. right. destruct (dq_pc (σ n)); try (by apply elem_of_nil in Hg). apply elem_of_list_singleton in Hg. by subst.
      - right. right. right. exists r. split; [exact Hh|simpl; lia].
    Qed.
  End run.
End live.
