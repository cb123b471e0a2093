(** Proofs about objects under a condition: the three queues. *)
From Verif Require Import Base WorkQueue_model WorkQueueSched_model WorkQueueSched_proofs Fifo_model FifoSched_model FifoSched_proofs DeltaFifo_model DeltaFifo_proofs DeltaFifo_proofs2 DeltaFifoSched_model DeltaFifoSched_proofs
  AsyncCond_model AsyncCond_spec AsyncCond_proofs AsyncCond_proofs2.

Section numbers.
  Context {St Op R L E : Type}.
  Context (enter : St → Op → St * part R L * notif) (resume : St → L → E → St * part R L * notif) (direct : Op → bool).
  Notation atrans := (atrans enter resume direct).
  Implicit Types (a : ast St Op L) (als : list (alabel Op R L E)).
  (** calls are numbered in order *)
  Definition numbered als : Prop := ∀ i x, begun als !! i = Some x → x.1 = i.
  Lemma begun_app als als' : begun (als ++ als') = begun als ++ begun als'.
  Proof. apply omap_app. Qed.
  Lemma numbered_app als als' : numbered (als ++ als') → numbered als.
  Proof. intros H i x Hx. apply H. rewrite begun_app. by apply lookup_app_l_Some. Qed.
  Lemma numbered_last als b x : numbered (als ++ [b]) → x ∈ begun [b] → x.1 = length (begun als).
  Proof.
    intros H Hx. apply H. rewrite begun_app. assert (begun [b] = [x]) as ->; [|by apply list_lookup_middle].
    destruct b; simpl in *; try (by apply elem_of_nil in Hx); apply elem_of_list_singleton in Hx; by subst.
  Qed.
  Lemma numbered_imap als (cs : list Op) : begun als = imap pair cs → numbered als.
  Proof. intros H i x Hx. rewrite H, list_lookup_imap in Hx. destruct (cs !! i); simpl in Hx; by simplify_eq. Qed.
  Definition below (n : nat) a : Prop := (∀ x, x ∈ a_waiting a ++ a_ready a → x.1 < n) ∧ ∀ t o l, a_held a = Some (t, o, l) → t < n.
  Lemma woken_elem n (w r : list (nat * Op)) x : x ∈ (woken n w r).1 ++ (woken n w r).2 → x ∈ w ++ r.
  Proof. destruct n as [| |]; simpl; [done|destruct w as [|y w]; simpl|]; set_solver. Qed.
  Lemma below_turn N t o x p n w r h : t < N → (∀ x, x ∈ w ++ r → x.1 < N) → (∀ t o l, h = Some (t, o, l) → t < N) → below N (aturn (St := St) (R := R) t o x p n w r h).
  Proof.
    intros Ht Hw Hh. pose proof (woken_elem n w r) as Hn. destruct p; split; simpl; try done; try (intros y Hy; by apply Hw, Hn).
    - intros ? ? ? [= <- _ _]. done.
    - intros y Hy. rewrite <-app_assoc in Hy. assert (y = (t, o) ∨ y ∈ (woken n w r).1 ++ (woken n w r).2) as [->|Hy'] by (rewrite !elem_of_app, elem_of_list_singleton in *; naive_solver); [done|]. by apply Hw, Hn.
  Qed.
  Lemma below_mono n m a : n ≤ m → below n a → below m a.
  Proof. intros Hnm [H1 H2]. split; [intros x Hx%H1; lia|intros t o l Hx%H2; lia]. Qed.
  Lemma below_step n a b a' : below n a → atrans a b a' → (∀ x, x ∈ begun [b] → x.1 = n) → below (n + length (begun [b])) a'.
  Proof.
    intros [H1 H2] Hs Hb. destruct Hs as [a t o x p m He Hd|a t o Hd|a t o r1 r2 x p m Hh Hr He|a t o l e x p m Hh He|a t o w1 w2 Hw|a t o r1 r2 Hr]; simpl in *.
    - specialize (Hb (t, o) ltac:(left)). simpl in Hb. apply below_turn; [lia|intros y Hy%H1; lia|intros ? ? ? Hx%H2; lia].
    - specialize (Hb (t, o) ltac:(left)). simpl in Hb. split; simpl; [|intros ? ? ? Hx%H2; lia]. intros y Hy. rewrite app_assoc in Hy. apply elem_of_app in Hy as [Hy%H1|Hy]; [lia|]. apply elem_of_list_singleton in Hy as ->. simpl. lia.
    - apply below_turn; [|intros y Hy|intros ? ? ? Hx%H2; lia].
      + assert (t < n); [|lia]. apply (H1 (t, o)). rewrite Hr, !elem_of_app, elem_of_cons. auto.
      + assert (y.1 < n); [|lia]. apply H1. rewrite Hr, !elem_of_app, elem_of_cons in *. naive_solver.
    - apply below_turn; [apply H2 in Hh; lia|intros y Hy%H1; lia|done].
    - split; simpl; [|intros ? ? ? Hx%H2; lia]. intros y Hy. assert (y.1 < n); [|lia]. apply H1. rewrite Hw, !elem_of_app, elem_of_cons in *. naive_solver.
    - split; simpl; [|intros ? ? ? Hx%H2; lia]. intros y Hy. assert (y.1 < n); [|lia]. apply H1. rewrite Hr, !elem_of_app, elem_of_cons in *. naive_solver.
  Qed.
  Lemma below_reach (s0 : St) als a : reach atrans (ideal_init s0) als a → numbered als → below (length (begun als)) a.
  Proof.
    apply (reach_trace_inv atrans (λ als a, numbered als → below (length (begun als)) a) (ideal_init s0)).
    - intros _. split; [|done]. intros x Hx. by apply elem_of_nil in Hx.
    - intros ls a1 b a2 _ IH Hs Hn. rewrite begun_app, app_length. eapply below_step; [apply IH; by eapply numbered_app|exact Hs|]. intros x Hx. by eapply numbered_last.
  Qed.
End numbers.

Section wq.
  Context {A : Type} `{EqDecision A}.
  Notation cst := (cst (wq A) (wop A) (wres A) Empty_set).
  Notation wtrans := (atrans wq_enter no_resume locks_all).
  Notation wast := (ast (wq A) (wop A) Empty_set).
  Implicit Types a : wast.
  Lemma wq_no_await : no_await (E := unit) (wq_enter (A := A)) no_resume.
  Proof.
    split; [|by intros ? []]. intros s o x l. destruct l.
  Qed.
  (** the ideal machine and the schedules of WorkQueueSched *)
  Definition wrel a (s : sched A) : Prop :=
    s_q s = a_obj a ∧ s_waiting s = (a_waiting a).*1 ∧ s_notified s = (a_ready a).*1 ∧ Forall (λ x, x.2 = Get) (a_waiting a ++ a_ready a).
  Lemma wrel_woken n a s x : s_waiting s = (a_waiting a).*1 → s_notified s = (a_ready a).*1 → Forall (λ x, x.2 = Get) (a_waiting a ++ a_ready a) →
    wrel (ASt x (woken n (a_waiting a) (a_ready a)).1 (woken n (a_waiting a) (a_ready a)).2 None) (notify_with (x, n) s).
  Proof.
    intros H2 H3 [H4 H5]%Forall_app. unfold notify_with. simpl. rewrite H2, H3. destruct n; simpl.
    - split; [done|]. split; [done|]. split; [done|]. by apply Forall_app.
    - destruct (a_waiting a) as [|y w]; simpl.
      + by split.
      + split; [done|]. split; [done|]. split; [by simpl; rewrite fmap_app|]. apply Forall_cons in H4 as [H4 H4']. simpl. rewrite !Forall_app. split; [done|]. split; [done|]. by constructor.
    - split; [done|]. split; [done|]. split; [by simpl; rewrite fmap_app|]. simpl. by apply Forall_app.
  Qed.
  Lemma get_turn t w r x (p : part (wres A) Empty_set) n q : wq_enter q Get = (x, p, n) → Forall (λ x, x.2 = Get) (w ++ r) →
    ∃ s' r', turn_get t (Sched q w.*1 r.*1) = (s', r') ∧ wrel (aturn t Get x p n w r None) s' ∧
      match p with PReturn v => r' = v ∧ v ≠ RBlocked | _ => r' = RBlocked end.
  Proof.
    intros He Hf. unfold turn_get. simpl in *. destruct (wq_get q) as [q' []] eqn:Eg; simplify_eq; simpl; eexists _, _; (split; [reflexivity|]).
    - split; [|done]. split; [done|]. split; [by simpl; rewrite fmap_app|]. split; [done|]. simpl. rewrite <-app_assoc. apply Forall_app in Hf as [? ?]. rewrite !Forall_app. split; [done|]. split; [by constructor|done].
    - by repeat split.
    - by repeat split.
  Qed.
  Lemma wq_step a s b a' : wrel a s → a_held a = None → ¬ queues b → wtrans a b a' →
    (∀ t o, (t, o) ∈ begun [b] → t ∉ s_waiting s ∧ t ∉ s_notified s) →
    ∃ l s', strans s l s' ∧ wrel a' s' ∧ wreturned [l] = (results [b]).*2 ∧ (is_cancel_notified l = true → ∃ t, b = ACancel t) ∧ a_held a' = None.
  Proof.
    intros (H1&H2&H3&H4) Hh Hq Hs Hfr. destruct Hs as [a t o x p n He Hd|a t o Hd|a t o r1 r2 x p n Hh' Hr He|a t o l e x p n Hh' He|a t o w1 w2 Hw|a t o r1 r2 Hr].
    - rewrite Hh. destruct (Hfr t o) as [F1 F2]; [left|]. destruct o as [y| |y|]; simpl in He.
      + simplify_eq. exists (LCall (Add y) RNone). eexists. split; [apply st_add|]. rewrite H1. split; [|done]. destruct (wq_add y (a_obj a)) as [q' n]. by apply wrel_woken.
      + destruct (get_turn t (a_waiting a) (a_ready a) x p n (a_obj a) He H4) as (s'&r'&E1&E2&E3). exists (LGet t r'), s'. split; [|split; [done|]].
        * apply st_get; [done|done|]. destruct s as [q0 w0 n0]. simpl in *. by subst.
        * destruct p as [v|[]|]; simpl.
          -- destruct E3 as [-> E3]. split; [by destruct v|done].
          -- by rewrite E3.
      + destruct (wq_done y (a_obj a)) as [[q' n']|] eqn:Edo; simplify_eq.
        * exists (LCall (Done y) RNone). eexists. split; [by eapply st_done; rewrite H1|]. split; [|done]. by apply wrel_woken.
        * exists (LCall (Done y) RKeyError), s. split; [by apply st_done_err; rewrite H1|]. done.
      + simplify_eq. exists (LCall ShutDown RNone). eexists. split; [apply st_shut|]. rewrite H1. split; [|done]. by apply (wrel_woken NotifyAll).
    - destruct Hq. by eexists _, _.
    - assert (o = Get) as ->. { rewrite Hr in H4. apply Forall_app in H4 as [_ H4]. apply Forall_app in H4 as [_ H4]. by apply Forall_inv in H4. }
      assert (Forall (λ x, x.2 = Get) (a_waiting a ++ r1 ++ r2)) as Hf. { rewrite Hr in H4. rewrite !Forall_app in *. destruct H4 as (?&?&H5). apply Forall_cons in H5 as [_ H5]. done. }
      destruct (get_turn t (a_waiting a) (r1 ++ r2) x p n (a_obj a) He Hf) as (s'&r'&E1&E2&E3). exists (LRun t r'), s'. split; [|split; [by rewrite Hh|]].
      + eapply (st_run _ _ (r1.*1) (r2.*1)); [by rewrite H3, Hr, fmap_app|]. by rewrite H1, H2, <-fmap_app.
      + rewrite Hh. destruct p as [v|[]|]; simpl.
        * destruct E3 as [-> E3]. split; [by destruct v|done].
        * by rewrite E3.
    - congruence.
    - exists (LCancelWaiting t). eexists. split; [apply (st_cancel_waiting _ _ (w1.*1) (w2.*1)); by rewrite H2, Hw, fmap_app|]. split; [|done].
      split; [done|]. simpl. split; [by rewrite fmap_app|]. split; [done|]. rewrite Hw in H4. rewrite !Forall_app, Forall_cons in H4. rewrite !Forall_app. tauto.
    - exists (LCancelNotified t). eexists. split; [apply (st_cancel_notified _ _ (r1.*1) (r2.*1)); by rewrite H3, Hr, fmap_app|]. split; [|split; [done|split; [eauto|done]]].
      split; [done|]. simpl. split; [done|]. split; [by rewrite fmap_app|]. rewrite Hr in H4. rewrite !Forall_app, Forall_cons in H4. rewrite !Forall_app. tauto.
  Qed.

  Lemma wq_reach als a : reach wtrans (ideal_init wq_init) als a → numbered als → Forall (λ l, ¬ queues l) als →
    ∃ ls s, reach strans sched_init ls s ∧ wrel a s ∧ wreturned ls = (results als).*2 ∧ ((∀ t, ACancel t ∉ als) → Forall (λ l, is_cancel_notified l = false) ls) ∧ a_held a = None.
  Proof.
    intros Hr. apply (reach_trace_inv wtrans (λ als a, reach wtrans (ideal_init wq_init) als a ∧ (numbered als → Forall (λ l, ¬ queues l) als →
      ∃ ls s, reach strans sched_init ls s ∧ wrel a s ∧ wreturned ls = (results als).*2 ∧ ((∀ t, ACancel t ∉ als) → Forall (λ l, is_cancel_notified l = false) ls) ∧ a_held a = None)) (ideal_init wq_init)); [| |exact Hr]; clear.
    - split; [constructor|]. intros _ _. exists [], sched_init. split; [constructor|]. repeat split; try done. constructor.
    - intros als a b a' _ [Ha IH] Hs. split; [by eapply reach_snoc|]. intros Hn [Hq1 Hq2%Forall_inv]%Forall_app.
      pose proof (numbered_app _ _ Hn) as Hn'. destruct (IH Hn' Hq1) as (ls&s&H1&H2&H3&H4&H5). pose proof (below_reach _ _ _ _ _ _ Ha Hn') as [Hb _].
      destruct (wq_step a s b a' H2 H5 Hq2 Hs) as (l&s'&S1&S2&S3&S4&S5).
      { intros t o Hto. pose proof (numbered_last _ _ _ Hn Hto) as Ht. simpl in Ht. destruct H2 as (_&W2&W3&_). rewrite W2, W3. split; intros Hin; apply elem_of_list_fmap in Hin as (x&->&Hx); assert (x.1 < length (begun als)) by (apply Hb; rewrite elem_of_app; auto); lia. }
      exists (ls ++ [l]), s'. split; [by eapply reach_snoc|]. split; [done|]. split; [|split; [|done]].
      + assert (wreturned (ls ++ [l]) = wreturned ls ++ wreturned [l]) as -> by apply omap_app. assert (results (als ++ [b]) = results als ++ results [b]) as -> by apply omap_app. by rewrite fmap_app, H3, S3.
      + intros Hc. apply Forall_app. split; [apply H4; intros t Ht; apply (Hc t); apply elem_of_app; by left|]. constructor; [|constructor].
        destruct (is_cancel_notified l) eqn:El; [|done]. destruct (S4 eq_refl) as [t ->]. destruct (Hc t). apply elem_of_app. right. left.
  Qed.
  Lemma wq_link ls (s : cst) : reach (cstep wq_enter no_resume locks_all) (cond_init wq_init) ls s →
    ∃ sls ss, reach strans sched_init sls ss ∧ s_q ss = c_obj s ∧ s_waiting ss = (to_notify s).*1 ∧ s_notified ss ≡ₚ (notified s).*1 ∧
      wreturned sls = (c_log s).*2 ∧ ((∀ t, KCancel t ∉ ls) → Forall (λ l, is_cancel_notified l = false) sls).
  Proof.
    intros Hr. destruct (refines _ _ _ _ _ _ Hr) as (als&a&H1&(A1&A2&A3&A4)&H3&H4&H5&H6&H7). destruct (atomic _ _ _ _ _ _ wq_no_await Hr) as (Q1&_&_).
    destruct (wq_reach als a H1 (numbered_imap _ _ H5) (H7 wq_no_await)) as (sls&ss&S1&(W1&W2&W3&_)&S3&S4&_).
    exists sls, ss. split; [done|]. split; [congruence|]. split; [congruence|]. split; [|split; [congruence|]].
    - rewrite W3, A3. unfold asking. rewrite Q1. simpl. by rewrite app_nil_r.
    - intros Hc. apply S4. intros t Ht. by apply (Hc t), H6.
  Qed.
  Lemma pending_notified {St Op R L : Type} (s : AsyncCond_model.cst St Op R L) : Forall (λ w, cw_fut w = FPending) (c_condq s) → notified s = [].
  Proof. unfold notified. induction 1 as [|w l H _ IH]; [done|]. simpl. by rewrite H. Qed.
  Lemma pending_waiting {St Op R L : Type} (s : AsyncCond_model.cst St Op R L) : Forall (λ w, cw_fut w = FPending) (c_condq s) → (to_notify s).*1 = at_cond s.
  Proof. unfold to_notify, at_cond. induction 1 as [|w l H _ IH]; [done|]. simpl. rewrite H. simpl. by f_equal. Qed.
  Lemma wq_rest ls (s : cst) : reach (cstep wq_enter no_resume locks_all) (cond_init wq_init) ls s → (∀ t, KCancel t ∉ ls) → at_rest wq_enter no_resume locks_all s →
    at_lock s = [] ∧ (at_cond s ≠ [] → wq_len (c_obj s) = 0 ∧ wq_down (c_obj s) = false).
  Proof.
    intros Hr Hc Hat. destruct (atomic _ _ _ _ _ _ wq_no_await Hr) as (Q1&_&Q3). split; [unfold at_lock; by rewrite Q1|]. intros Hne.
    destruct (rest _ _ _ _ _ _ Hr Hat Q3) as (_&_&Hp). destruct (wq_link _ _ Hr) as (sls&ss&S1&S2&S3&S4&_&S6). rewrite <-S2. eapply no_lost_wakeup; [exact S1|by apply S6| |].
    - rewrite (pending_notified _ Hp) in S4. simpl in S4. by apply Permutation_nil_r in S4.
    - by rewrite S3, pending_waiting.
  Qed.
End wq.

Section fifo.
  Context {K O : Type} `{EqDecision K} (keyf : O → option K).
  Notation cst := (cst (fifo K O) (fop K O) (fres K O) Empty_set).
  Notation fenter := (fifo_enter keyf).
  Notation ftrans := (atrans fenter no_resume locks_all).
  Implicit Types a : ast (fifo K O) (fop K O) Empty_set.
  Lemma fifo_no_await : no_await (E := unit) fenter no_resume.
  Proof. split; [|by intros ? []]. intros s o x l. destruct l. Qed.
  Lemma blocked_pop s c s' n : fcall keyf s c = (s', FBlocked, n) → ∃ p, c = FPop p.
  Proof.
    destruct c; simpl; eauto; try (destruct (keyf _)); intros; simplify_eq; try done.
    - unfold fifo_delete in *. repeat (case_match; simplify_eq); done.
    - repeat (case_match; simplify_eq).
    - repeat (case_match; simplify_eq).
  Qed.
  Definition kept (x : nat * fop K O) : nat * (O → outcome) := (x.1, callback x.2).
  Definition pops (x : nat * fop K O) : Prop := ∃ p, x.2 = FPop p.
  Definition frel a (y : fsys K O nat) : Prop :=
    y_fifo y = a_obj a ∧ y_waiting y = kept <$> a_waiting a ∧ y_woken y = kept <$> a_ready a ∧ Forall pops (a_waiting a ++ a_ready a).
  Lemma fifo_turn t o x p n y w r q : fenter q o = (x, p, n) → y_waiting y = kept <$> w → Forall pops (w ++ r) →
    ∃ s' v b, fcall keyf q o = (s', v, b) ∧ frel (aturn t o x p n w r None) (turn t (callback o) (blocked v) b y s' (kept <$> r)) ∧
      match p with PReturn u => v = u ∧ v ≠ FBlocked | _ => v = FBlocked end.
  Proof.
    intros He Hw [Hf1 Hf2]%Forall_app. unfold fifo_enter in He. destruct (fcall keyf q o) as [[s' v] b] eqn:Ec. exists s', v, b. split; [done|].
    unfold turn. rewrite Hw. destruct (decide (blocked v = true)) as [Hv|Hv].
    - destruct v; try done. simplify_eq. split; [|done]. destruct (blocked_pop _ _ _ _ Ec) as [c ->]. destruct b; simpl.
      + split; [done|]. split; [done|]. split; [by simpl; rewrite fmap_app|]. simpl. constructor; [by eexists|]. by apply Forall_app.
      + split; [done|]. split; [by simpl; rewrite fmap_app|]. split; [done|]. simpl. rewrite !Forall_app. split; [|done]. split; [done|]. constructor; [by eexists|constructor].
    - apply not_true_is_false in Hv. rewrite Hv.
      assert (x = s' ∧ p = PReturn v ∧ n = all_if b) as (->&->&->) by (destruct v; by simplify_eq). split; [|split; [done|by intros ->]].
      destruct b; simpl.
      + split; [done|]. split; [done|]. split; [by simpl; rewrite fmap_app|]. simpl. by apply Forall_app.
      + split; [done|]. split; [by simpl; rewrite app_nil_r|]. split; [done|]. simpl. by apply Forall_app.
  Qed.
  Lemma fifo_step a y b a' : frel a y → a_held a = None → ¬ queues b → ftrans a b a' →
    ∃ l y', ytrans keyf y l y' ∧ frel a' y' ∧ freturned [l] = results [b] ∧ a_held a' = None.
  Proof.
    intros (H1&H2&H3&H4) Hh Hq Hs. destruct Hs as [a t o x p n He Hd|a t o Hd|a t o r1 r2 x p n Hh' Hr He|a t o l e x p n Hh' He|a t o w1 w2 Hw|a t o r1 r2 Hr].
    - rewrite Hh. destruct (fifo_turn t o x p n y _ _ _ He H2 H4) as (s'&v&b&E1&E2&E3). eexists (YCall t o v), _. split; [eapply yt_call; by rewrite H1|]. rewrite H3. split; [done|].
      destruct p as [u|[]|]; simpl; [destruct E3 as [-> E3]; split; [by destruct u|done]|by rewrite E3].
    - destruct Hq. by eexists _, _.
    - assert (∃ c, o = FPop c) as [c ->]. { rewrite Hr in H4. apply Forall_app in H4 as [_ H4]. apply Forall_app in H4 as [_ H4]. apply Forall_inv in H4 as [c H4]. by exists c. }
      assert (Forall pops (a_waiting a ++ r1 ++ r2)) as Hf. { rewrite Hr in H4. rewrite !Forall_app in *. destruct H4 as (?&?&H5). apply Forall_cons in H5 as [_ H5]. done. }
      destruct (fifo_turn t (FPop c) x p n y _ _ _ He H2 Hf) as (s'&v&b&E1&E2&E3). rewrite Hh. eexists (YResume t v), _. split.
      { eapply (yt_resume _ _ _ c (kept <$> r1) (kept <$> r2)); [by rewrite H3, Hr, fmap_app|by rewrite H1]. }
      rewrite <-fmap_app. split; [done|]. destruct p as [u|[]|]; simpl; [destruct E3 as [-> E3]; split; [by destruct u|done]|by rewrite E3].
    - congruence.
    - eexists (YCancel t), _. split; [apply (yt_cancel_waiting _ _ _ (callback o) (kept <$> w1) (kept <$> w2)); by rewrite H2, Hw, fmap_app|]. split; [|done].
      split; [done|]. simpl. split; [by rewrite fmap_app|]. split; [done|]. rewrite Hw in H4. rewrite !Forall_app, Forall_cons in H4. rewrite !Forall_app. tauto.
    - eexists (YCancel t), _. split; [apply (yt_cancel_woken _ _ _ (callback o) (kept <$> r1) (kept <$> r2)); by rewrite H3, Hr, fmap_app|]. split; [|done].
      split; [done|]. simpl. split; [done|]. split; [by rewrite fmap_app|]. rewrite Hr in H4. rewrite !Forall_app, Forall_cons in H4. rewrite !Forall_app. tauto.
  Qed.
  Lemma fifo_reach als a : reach ftrans (ideal_init fifo_init) als a → Forall (λ l, ¬ queues l) als →
    ∃ ls y, reach (ytrans keyf) fsys_init ls y ∧ frel a y ∧ freturned ls = results als ∧ a_held a = None.
  Proof.
    apply (reach_trace_inv ftrans (λ als a, Forall (λ l, ¬ queues l) als → ∃ ls y, reach (ytrans keyf) fsys_init ls y ∧ frel a y ∧ freturned ls = results als ∧ a_held a = None) (ideal_init fifo_init)).
    - intros _. exists [], fsys_init. split; [constructor|]. repeat split; try done. constructor.
    - clear als a. intros als a b a' _ IH Hs [Hq1 Hq2%Forall_inv]%Forall_app. destruct (IH Hq1) as (ls&y&H1&H2&H3&H4).
      destruct (fifo_step a y b a' H2 H4 Hq2 Hs) as (l&y'&S1&S2&S3&S4). exists (ls ++ [l]), y'. split; [by eapply reach_snoc|]. split; [done|]. split; [|done].
      assert (freturned (ls ++ [l]) = freturned ls ++ freturned [l]) as -> by apply omap_app. assert (results (als ++ [b]) = results als ++ results [b]) as -> by apply omap_app. by rewrite H3, S3.
  Qed.
  Lemma fifo_link ls (s : cst) : reach (cstep fenter no_resume locks_all) (cond_init fifo_init) ls s →
    ∃ yls y, reach (ytrans keyf) fsys_init yls y ∧ y_fifo y = c_obj s ∧ (y_waiting y).*1 = (to_notify s).*1 ∧ (y_woken y).*1 ≡ₚ (notified s).*1 ∧ freturned yls = c_log s.
  Proof.
    intros Hr. destruct (refines _ _ _ _ _ _ Hr) as (als&a&H1&(A1&A2&A3&A4)&H3&H4&H5&H6&H7). destruct (atomic _ _ _ _ _ _ fifo_no_await Hr) as (Q1&_&_).
    destruct (fifo_reach als a H1 (H7 fifo_no_await)) as (yls&y&S1&(W1&W2&W3&_)&S3&_).
    exists yls, y. split; [done|]. split; [congruence|]. assert (∀ l, (kept <$> l).*1 = l.*1) as Hk by (intros l; rewrite <-list_fmap_compose; by apply list_fmap_ext). split; [by rewrite W2, Hk, A2|]. split; [|congruence].
    rewrite W3, Hk, A3. unfold asking. rewrite Q1. simpl. by rewrite app_nil_r.
  Qed.
  Lemma fifo_rest ls (s : cst) : reach (cstep fenter no_resume locks_all) (cond_init fifo_init) ls s → at_rest fenter no_resume locks_all s →
    at_lock s = [] ∧ (at_cond s ≠ [] → (fstep keyf (c_obj s) FListKeys).2 = FKeys [] ∧ (fstep keyf (c_obj s) FIsClosed).2 = FBool false).
  Proof.
    intros Hr Hat. destruct (atomic _ _ _ _ _ _ fifo_no_await Hr) as (Q1&_&Q3). split; [unfold at_lock; by rewrite Q1|]. intros Hne.
    destruct (rest _ _ _ _ _ _ Hr Hat Q3) as (_&_&Hp). destruct (fifo_link _ _ Hr) as (yls&y&S1&S2&S3&S4&_). rewrite <-S2. eapply no_stuck_waiter; [exact S1|].
    rewrite (pending_waiting _ Hp) in S3. intros Hy. rewrite Hy in S3. simpl in S3. congruence.
  Qed.
End fifo.

Section delta.
  Context {K O : Type} `{EqDecision K} (keyf : O → option K).
  Notation cst := (cst (dfifo K O) (dop K O) (dres K O) (list (delta K O))).
  Notation denter := (delta_enter keyf).
  Notation dresume := (delta_resume keyf).
  Notation dtrans := (atrans denter dresume delta_direct).
  Implicit Types a : ast (dfifo K O) (dop K O) (list (delta K O)).
  Lemma resync_not_blocked (kn : known K O) ks : ∀ (s : dfifo K O) n s' n', resync_keys keyf kn ks s n ≠ (s', DBlocked, n').
  Proof. induction ks as [|k ks IH]; intros s n s' n'; simpl; [by intros|]. destruct (sync_key keyf kn k s) as [[s1 n1] [o|]]; [by intros|]. apply IH. Qed.
  Lemma blocked_dpop (s : dfifo K O) c s' n : starts c = true → dcall keyf s c = (s', DBlocked, n) → c = DPop.
  Proof.
    intros Hs Hc. assert (dcall_free keyf s c = (s', DBlocked, n)) as Hf by (unfold dcall in Hc; destruct (d_busy s); [destruct (needs_lock c)|]; done). clear Hc.
    destruct c; simpl in Hf; try done; try (by destruct (key_of keyf _)).
    - unfold df_add in Hf. destruct (key_of keyf o); [destruct (queue_action _ _ _ _)|]; by simplify_eq.
    - unfold df_add in Hf. destruct (key_of keyf o); [destruct (queue_action _ _ _ _)|]; by simplify_eq.
    - unfold df_delete in Hf. destruct (key_of keyf o) as [k|]; [|by simplify_eq]. cbv zeta in Hf. revert Hf.
      match goal with |- (if ?c then _ else _) = _ → _ => destruct c end; [by intros; simplify_eq|]. destruct (queue_action _ _ _ _). by intros; simplify_eq.
    - unfold df_replace in Hf. destruct (sync_all _ _ _ _) as [[s1 n1] [o|]]; [by simplify_eq|]. cbv zeta in Hf. destruct (delete_all _ _ _) as [s2 n2]. by simplify_eq.
    - unfold df_resync in Hf. destruct kn as [kn|]; [|by simplify_eq]. by apply resync_not_blocked in Hf.
    - unfold df_add_if_not_present in Hf. destruct (last ds) as [d|]; [|by simplify_eq]. destruct (key_of keyf d.2); [destruct (put_if_absent _ _ _)|]; by simplify_eq.
  Qed.
  Lemma direct_wait (s : dfifo K O) c s' r n : starts c = true → needs_lock c = false → dcall keyf s c = (s', r, n) → r ≠ DLockWait.
  Proof.
    intros Hs Hl Hc. assert (dcall_free keyf s c = (s', r, n)) as Hf by (unfold dcall in Hc; rewrite Hl in Hc; destruct (d_busy s); done). clear Hc.
    destruct c; simpl in Hf; try done; try (destruct (key_of keyf _)); by simplify_eq.
  Qed.
  Definition drel a (z : zsys K O nat) : Prop :=
    z_q z = a_obj a ∧ z_waiting z = (a_waiting a).*1 ∧ z_ready z = a_ready a ∧ z_holder z = (λ x, x.1.1) <$> a_held a ∧ Forall (λ x, x.2 = DPop) (a_waiting a).
  Lemma pops_again (w : list (nat * dop K O)) : Forall (λ x, x.2 = DPop) w → (λ t, (t, DPop)) <$> w.*1 = w.
  Proof. induction 1 as [|[t o] w H _ IH]; [done|]. simpl in H. subst o. change ((t, DPop) :: ((λ t, (t, DPop)) <$> w.*1) = (t, DPop) :: w). by rewrite IH. Qed.
  Lemma delta_turn t o x p n w r h y s' v b : delta_part y = (x, p, n) → y = (s', v, b) → Forall (λ x, x.2 = DPop) w → (v = DBlocked → o = DPop) →
    drel (aturn t o x p n w r h) (zturn t s' v b w.*1 r ((λ x, x.1.1) <$> h)) ∧ (if zends v then Some (t, v) else None) = match p with PReturn u => Some (t, u) | _ => None end.
  Proof.
    intros He -> Hf Ho. simpl in He. unfold zturn. rewrite pops_again by done.
    destruct v; simplify_eq; (split; [|done]); destruct b; simpl; (split; [done|]); simpl; (split; [by rewrite ?fmap_app|]); (split; [done|]); (split; [done|]); try done; try (by constructor).
    all: rewrite ?Forall_app; try split; try done; constructor; [by rewrite Ho|constructor].
  Qed.
  Lemma delta_step a z b a' : drel a z → ZI keyf z → dtrans a b a' → (∀ t o, (t, o) ∈ begun [b] → starts o = true) →
    ∃ l z', ztrans keyf z l z' ∧ drel a' z' ∧ zreturned [l] = results [b].
  Proof.
    intros (H1&H2&H3&H4&H5) [D1 D2 D3 D4] Hs Hb. destruct Hs as [a t o x p n He Hd|a t o Hd|a t o r1 r2 x p n Hh Hr He|a t o l e x p n Hh He|a t o w1 w2 Hw|a t o r1 r2 Hr].
    - specialize (Hb t o ltac:(left)). unfold delta_enter in He. destruct (dcall keyf (a_obj a) o) as [[s' v] b] eqn:Ec.
      destruct (delta_turn t o x p n (a_waiting a) (a_ready a) (a_held a) _ s' v b He eq_refl H5) as [E1 E2]. { intros ->. by eapply blocked_dpop. }
      eexists (ZCall t o v), _. split; [|split].
      + eapply zt_call; [done|by rewrite H1|]. destruct Hd as [(Hd&_&_)|[Hd Hh]].
        * eapply direct_wait; [done| |exact Ec]. unfold delta_direct in Hd. by apply negb_true_iff in Hd.
        * rewrite H1 in D1, D3. destruct (busy_call _ _ _ _ _ _ D1 Ec) as [_ Hn]. apply Hn; [|done]. destruct (d_busy (a_obj a)); [|done].
          destruct (proj2 D3 ltac:(eauto)) as [? Hz]. rewrite H4, Hh in Hz. done.
      + rewrite H2, H3, H4. done.
      + simpl. unfold zreturned, results. simpl. rewrite E2. by destruct p.
    - specialize (Hb t o ltac:(left)). eexists (ZQueue t o), _. split; [apply zt_queue; [done|]; unfold delta_direct in Hd; by apply negb_false_iff in Hd|]. split; [|done].
      split; [done|]. split; [done|]. split; [by simpl; rewrite H3|done].
    - assert (starts o = true) as Ho. { apply (D4 t). rewrite H3, Hr. apply elem_of_app. right. left. }
      unfold delta_enter in He. destruct (dcall keyf (a_obj a) o) as [[s' v] b] eqn:Ec.
      destruct (delta_turn t o x p n (a_waiting a) (r1 ++ r2) (a_held a) _ s' v b He eq_refl H5) as [E1 E2]. { intros ->. by eapply blocked_dpop. }
      eexists (ZGo t o v), _. split; [|split].
      + eapply (zt_go _ _ _ _ r1 r2); [by rewrite H3|by rewrite H4, Hh|by rewrite H1].
      + rewrite H2, H4. done.
      + simpl. unfold zreturned, results. simpl. rewrite E2. by destruct p.
    - unfold delta_resume in He. destruct (dcall keyf (a_obj a) (DFinish e)) as [[s' v] b] eqn:Ec.
      destruct (delta_turn t o x p n (a_waiting a) (a_ready a) None _ s' v b He eq_refl H5) as [E1 E2].
      { intros ->. exfalso. unfold dcall in Ec. simpl in Ec. assert (df_finish e (a_obj a) = (s', DBlocked, b)) as Ef by (by destruct (d_busy (a_obj a))). unfold df_finish in Ef.
        destruct (d_busy (a_obj a)) as [[k ds]|] eqn:Eb; [destruct e as [|[]| |]; try destruct (put_if_absent _ _ _); by simplify_eq|]. by simplify_eq. }
      eexists (ZFinish t e v), _. split; [|split].
      + eapply zt_finish; [by rewrite H4, Hh|by rewrite H1].
      + rewrite H2, H3. done.
      + simpl. unfold zreturned, results. simpl. rewrite E2. by destruct p.
    - eexists (ZCancel t), _. split; [apply (zt_cancel_waiting _ _ _ (w1.*1) (w2.*1)); by rewrite H2, Hw, fmap_app|]. split; [|done].
      split; [done|]. simpl. split; [by rewrite fmap_app|]. split; [done|]. split; [done|]. rewrite Hw in H5. rewrite Forall_app, Forall_cons in H5. rewrite Forall_app. tauto.
    - eexists (ZCancel t), _. split; [eapply (zt_cancel_ready _ _ _ o r1 r2); by rewrite H3, Hr|]. split; [|done]. by split.
  Qed.
  Lemma delta_reach als a : reach dtrans (ideal_init dfifo_init) als a → (∀ t o, (t, o) ∈ begun als → starts o = true) →
    ∃ ls z, reach (ztrans keyf) zsys_init ls z ∧ drel a z ∧ zreturned ls = results als.
  Proof.
    apply (reach_trace_inv dtrans (λ als a, (∀ t o, (t, o) ∈ begun als → starts o = true) → ∃ ls z, reach (ztrans keyf) zsys_init ls z ∧ drel a z ∧ zreturned ls = results als) (ideal_init dfifo_init)).
    - intros _. exists [], zsys_init. split; [constructor|]. repeat split; try done. constructor.
    - clear als a. intros als a b a' _ IH Hs Hst. rewrite begun_app in Hst. destruct IH as (ls&z&H1&H2&H3); [intros t o Hin; apply (Hst t); apply elem_of_app; by left|].
      destruct (delta_step a z b a' H2 (ZI_reach keyf _ _ H1) Hs) as (l&z'&S1&S2&S3); [intros t o Hin; apply (Hst t); apply elem_of_app; by right|]. exists (ls ++ [l]), z'. split; [by eapply reach_snoc|]. split; [done|].
      assert (zreturned (ls ++ [l]) = zreturned ls ++ zreturned [l]) as -> by apply omap_app. assert (results (als ++ [b]) = results als ++ results [b]) as -> by apply omap_app. by rewrite H3, S3.
  Qed.
  Lemma delta_link ls (s : cst) : reach (cstep denter dresume delta_direct) (cond_init dfifo_init) ls s → Forall (λ c, starts c = true) (calls ls) →
    ∃ zls z, reach (ztrans keyf) zsys_init zls z ∧ z_q z = c_obj s ∧ z_waiting z = (to_notify s).*1 ∧ z_ready z ≡ₚ notified s ++ asking s ∧
      z_holder z = (λ x, x.1.1) <$> c_held s ∧ zreturned zls = c_log s.
  Proof.
    intros Hr Hst. destruct (refines _ _ _ _ _ _ Hr) as (als&a&H1&(A1&A2&A3&A4)&H3&H4&H5&H6&H7).
    destruct (delta_reach als a H1) as (zls&z&S1&(W1&W2&W3&W4&W5)&S3).
    { intros t o Hin. rewrite H5 in Hin. apply elem_of_lookup_imap in Hin as (i&c&[= -> ->]&Hc). rewrite Forall_forall in Hst. apply Hst. by eapply elem_of_list_lookup_2. }
    exists zls, z. split; [done|]. split; [congruence|]. split; [congruence|]. split; [by rewrite W3|]. split; [by rewrite W4, A4|congruence].
  Qed.
  Lemma delta_rest ls (s : cst) : reach (cstep denter dresume delta_direct) (cond_init dfifo_init) ls s → Forall (λ c, starts c = true) (calls ls) → at_rest denter dresume delta_direct s →
    (c_held s = None → at_lock s = []) ∧ (at_cond s ≠ [] → (dstep keyf (c_obj s) DListKeys).2 = DKeys [] ∧ (dstep keyf (c_obj s) DIsClosed).2 = DBool false).
  Proof.
    intros Hr Hst Hat. split.
    - intros Hh. destruct (rest _ _ _ _ _ _ Hr Hat Hh) as (Hq&_). unfold at_lock. by rewrite Hq.
    - intros Hne. pose proof (rest_held _ _ _ _ _ _ Hr Hat) as Hp. destruct (delta_link _ _ Hr Hst) as (zls&z&S1&S2&S3&_). rewrite <-S2. eapply df_no_stuck_waiter; [exact S1|].
      rewrite S3, pending_waiting; done.
  Qed.
End delta.
