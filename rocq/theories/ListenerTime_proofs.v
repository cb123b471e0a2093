(** Lemmas for ListenerTime_props.v. *)
From Verif Require Import Base Listener_model Listener_spec Listener_proofs ListenerTime_model ListenerTime_spec.
From Coq Require Import ZArith.

Section untimed.
  Context {N : Type}.
  Notation lis := (lis N).
  Notation lstep := (lstep (N:=N)).
  Notation init := (lis_init (N:=N)).
  Implicit Types s : lis.

  Definition room s : nat := match l_addq s with None => 1 | _ => 0 end.
  Lemma stopped_or_not s : l_pump s = PStopped ∨ l_pump s ≠ PStopped.
  Proof. destruct (l_pump s); auto. Qed.
  Lemma inflight_small s : shape s → l_pump s ≠ PStopped → length (inflight s) + room s ≤ 4.
  Proof.
    destruct s as [a q st p pe nq r]. unfold shape, inflight, room, run_part, cur_part, got_part. simpl. intros [Hp _] Hn. rewrite !app_length.
    assert (length (match r with RFetched n => [n] | _ => [] end) ≤ 1) by (destruct r; simpl; lia).
    destruct p as [|cur got put| |]; [| | |done].
    - destruct Hp as [-> ->]. destruct q; simpl; lia.
    - destruct Hp as (-> & Hc & Hm). destruct put; [|rewrite Hm by done]; destruct q, got, cur, nq; simpl; lia.
    - destruct q, nq; simpl; lia.
  Qed.
  Lemma ahead_inv ls s : reach lstep init ls s → length (accepted_of ls) + room s ≤ length (handled_of ls) + 4.
  Proof.
    intros Hr. destruct (stopped_or_not s) as [He|Hne].
    2:{ pose proof (flow_reach _ _ Hr) as HF. pose proof (inflight_small s (shape_reach _ _ Hr) Hne). unfold flow in HF.
        destruct (l_pump s); [..|done]; rewrite HF, app_length; lia. }
    revert Hr He. apply (reach_trace_inv lstep (λ ls s, l_pump s = PStopped → length (accepted_of ls) + room s ≤ length (handled_of ls) + 4)); [done|].
    clear. intros ls s l s' Hr IH Hst He. rewrite accepted_snoc, handled_snoc, !app_length.
    destruct (stopped_or_not s) as [Hp|Hp].
    - specialize (IH Hp). clear Hr. destruct Hst; unfold room in *; simpl in *; try done; try lia; try (destruct q; lia).
    - pose proof (flow_reach _ _ Hr) as HF. pose proof (inflight_small s (shape_reach _ _ Hr) Hp) as Hi. unfold flow in HF.
      destruct (l_pump s) eqn:Hps; [| | |done]; rewrite HF, app_length; destruct Hst; unfold room in *; simpl in *; simplify_eq/=; try done; try lia; try (destruct q; lia); try (repeat case_match; simplify_eq/=; lia).
  Qed.
  Lemma ahead ls s ls' s' : reach lstep init ls s → reach lstep s ls' s' → length (accepted_of ls') ≤ length (handled_of ls') + 4.
  Proof.
    intros Hr Hr'. pose proof (ahead_inv _ _ (reach_app _ _ _ _ _ _ Hr Hr')) as H. pose proof (handled_prefix _ _ Hr) as Hp%prefix_length.
    unfold accepted_of, handled_of in *. rewrite !omap_app, !app_length in H. lia.
  Qed.

  (** after the stop request *)
  Definition left_over s : nat :=
    length (run_part s) + length (olist (l_nextq s)) + match l_pump s with PWait (Some _) _ false => 1 | PJoin => match l_pend s with [] => 0 | _ => 1 end | _ => 0 end.
  Lemma left_step s l s' : shape s → l_stop s = true → lstep s l s' →
    l_stop s' = true ∧ left_over s' + length (match l with LCall n => [n] | _ => [] end) ≤ left_over s.
  Proof.
    intros [Hp _] Hs Hst. destruct Hst; unfold left_over, run_part in *; simpl in *; simplify_eq/=; (split; [done|]); try lia.
    all: repeat case_match; simplify_eq/=; try lia.
  Qed.
  Lemma left_small s : shape s → left_over s ≤ 3.
  Proof. intros [Hp _]. unfold left_over, run_part. destruct s as [a q st p pe nq r]; simpl in *. destruct r, nq, p as [|[]? []| |]; simpl in *; try case_match; lia. Qed.
  Lemma stop_calls ls s ls' s' : reach lstep init ls s → l_stop s = true → reach lstep s ls' s' → length (handled_of ls') ≤ 3.
  Proof.
    intros Hr Hs Hr'. enough (l_stop s' = true ∧ left_over s' + length (handled_of ls') ≤ left_over s) as [_ H].
    { pose proof (left_small s (shape_reach _ _ Hr)). lia. }
    induction Hr' as [|ls' s1 l s2 Hr' IH Hst]; [simpl; split; [done|lia]|]. destruct IH as [H1 H2].
    destruct (left_step s1 l s2) as [H3 H4]; [eapply shape_reach, reach_app; done|done|done|]. split; [done|].
    rewrite handled_snoc, app_length. lia.
  Qed.
End untimed.

Section timed.
  Context {N : Type} (sec res : Z).
  Notation tlis := (tlis N).
  Notation tstep := (tstep (N:=N) sec res).
  Notation lstep := (lstep (N:=N)).
  Implicit Types s : tlis.

  Lemma untimed_snoc ls (l : tlabel N) : untimed (ls ++ [l]) = untimed ls ++ match l with TDo l _ => [l] | TPass _ => [] end.
  Proof. unfold untimed. rewrite omap_app. by destruct l. Qed.
  Lemma reach_untimed s ls s' : reach tstep s ls s' → reach lstep (t_lis s) (untimed ls) (t_lis s').
  Proof.
    induction 1 as [|ls s1 l s2 Hr IH Hst]; [constructor|]. rewrite untimed_snoc. destruct Hst; simpl; [by rewrite app_nil_r|].
    by eapply reach_snoc.
  Qed.
  Lemma clock s ls s' : reach tstep s ls s' → (t_now s <= t_now s')%Z.
  Proof. induction 1 as [|ls s1 l s2 Hr IH Hst]; [lia|]. destruct Hst; simpl; lia. Qed.

  (** asleep until [dl] at least, or that is past *)
  Definition paused (dl : Z) s : Prop := (l_run (t_lis s) = RSleep ∧ t_wake s = dl) ∨ (dl < t_now s + res)%Z.
  Lemma paused_step dl s l s' : paused dl s → tstep s l s' → paused dl s'.
  Proof.
    intros Hp Hst. destruct Hst as [t Ht|l x Hx Hs]; unfold paused in *; simpl in *.
    - destruct Hp as [?|?]; [by left|right; lia].
    - destruct Hp as [[Hr Hw]|?]; [|by right]. destruct Hx; simpl in *; simplify_eq/=; try (by left).
      + left. split; [|done]. by repeat case_match.
      + right. by apply Hs.
      + by destruct H as [|[]].
  Qed.
  Lemma paused_reach dl s ls s' : paused dl s → reach tstep s ls s' → paused dl s'.
  Proof. intros Hp. induction 1; [done|]. by eapply paused_step; [apply IHreach|]. Qed.
  Lemma pause s0 ls1 t1 ls2 l t2 ls3 s' : reach tstep s0 (ls1 ++ TDo LRaise t1 :: ls2 ++ TDo l t2 :: ls3) s' → goes_on l → (t1 + 60 * sec < t2 + res)%Z.
  Proof.
    intros (s1 & Hr1 & Hr2)%reach_app_inv Hg.
    change (TDo LRaise t1 :: ls2 ++ TDo l t2 :: ls3) with ([TDo LRaise t1] ++ ls2 ++ TDo l t2 :: ls3) in Hr2.
    apply reach_app_inv in Hr2 as (s2 & H2%reach_one_inv & (s3 & Hr3 & Hr4)%reach_app_inv).
    change (TDo l t2 :: ls3) with ([TDo l t2] ++ ls3) in Hr4. apply reach_app_inv in Hr4 as (s4 & H4%reach_one_inv & _).
    assert (paused (t1 + 60 * sec) s2) as Hp. { left. inversion H2 as [|l0 x Hx Hs]; subst; simpl. split; [|done]. by inversion Hx. }
    eapply paused_reach in Hp; [|done]. inversion H4 as [|l0 x Hx Hs]; subst. destruct Hp as [[Hp _]|]; [|done].
    destruct Hg as [[n ->]| ->]; inversion Hx; subst; match goal with H : _ = t_lis s3 |- _ => rewrite <-H in Hp end; simpl in *; naive_solver.
  Qed.

  Lemma raises_snoc ls (l : tlabel N) : raises_of (ls ++ [l]) = raises_of ls + match l with TDo LRaise _ => 1 | _ => 0 end.
  Proof. unfold raises_of. rewrite omap_app, app_length. f_equal. by destruct l as [|[]]. Qed.
  Lemma returns_snoc ls (l : tlabel N) : returns_of (ls ++ [l]) = returns_of ls + match l with TDo LReturn _ => 1 | _ => 0 end.
  Proof. unfold returns_of. rewrite omap_app, app_length. f_equal. by destruct l as [|[]]. Qed.
  Definition sleeps (x : lis N) : bool := match l_run x with RSleep => true | _ => false end.
  Lemma raise_rate s ls s' : (res <= 60 * sec)%Z → reach tstep s ls s' → (Z.of_nat (raises_of ls - 1) * (60 * sec - res) <= t_now s' - t_now s)%Z.
  Proof.
    intros Hres Hr.
    enough (match raises_of ls with
      | 0 => True
      | S n => if sleeps (t_lis s') then (t_now s + Z.of_nat n * (60 * sec - res) + 60 * sec <= t_wake s')%Z ∧ (t_now s + Z.of_nat n * (60 * sec - res) <= t_now s')%Z
               else (t_now s + Z.of_nat (S n) * (60 * sec - res) <= t_now s')%Z end ∧ (t_now s <= t_now s')%Z) as [H H'].
    { destruct (raises_of ls) as [|n]; [simpl; lia|]. replace (S n - 1) with n by lia. destruct (sleeps _); lia. }
    induction Hr as [|ls s1 l s2 Hr IH Hst]; [simpl; split; [done|lia]|]. destruct IH as [IH IH'].
    rewrite raises_snoc. destruct Hst as [t Ht|l x Hx Hs]; simpl.
    { rewrite Nat.add_0_r. split; [|lia]. destruct (raises_of ls); [done|]. destruct (sleeps _); lia. }
    split; [|lia].
    assert (Hun : ∀ l', l' ≠ LRaise → l' ≠ LSlept → l' ≠ LRunStop → ∀ y y' : lis N, lstep y l' y' → sleeps y' = sleeps y).
    { intros l' H1 H2 H3 y y' Hy. destruct Hy; unfold sleeps; simpl; try done. by destruct got, cur, put. }
    assert (l = LRaise ∨ l = LSlept ∨ l = LRunStop ∨ (l ≠ LRaise ∧ l ≠ LSlept ∧ l ≠ LRunStop)) as [->|[->|[->|(H1 & H2 & H3)]]] by (destruct l; naive_solver).
    - inversion Hx; subst. match goal with H : _ = t_lis _ |- _ => rewrite <-H in IH end. unfold sleeps in *. simpl in *.
      rewrite Nat.add_1_r. destruct (raises_of ls) as [|m]; [lia|]. simpl in IH. lia.
    - specialize (Hs eq_refl). rewrite Nat.add_0_r. destruct (raises_of ls) as [|n]; [done|]. inversion Hx; subst. match goal with H : _ = t_lis _ |- _ => rewrite <-H in IH end.
      unfold sleeps in *. simpl in *. lia.
    - rewrite Nat.add_0_r. destruct (raises_of ls) as [|n]; [done|]. inversion Hx as [| | | | | | | | | | | | | | | | |]; subst. match goal with H : _ = t_lis _ |- _ => rewrite <-H in IH end.
      unfold sleeps in *. simpl in *. match goal with H : _ ∨ _ |- _ => destruct H as [->|[m ->]] end; simpl in *; lia.
    - rewrite (Hun l H1 H2 H3 _ _ Hx). replace (raises_of ls + _) with (raises_of ls) by (destruct l; done || lia).
      replace (match l with LRaise => _ | _ => _ end) with (t_wake s1) by (by destruct l). done.
  Qed.

  (** a callback that was called has not ended, or returned, or raised *)
  Definition busy (x : lis N) : nat := match l_run x with RHandling _ => 1 | _ => 0 end.
  Lemma calls_end s ls s' : reach tstep s ls s' → length (handled_of (untimed ls)) + busy (t_lis s) = raises_of ls + returns_of ls + busy (t_lis s').
  Proof.
    induction 1 as [|ls s1 l s2 Hr IH Hst]; [simpl; unfold raises_of, returns_of; simpl; lia|].
    rewrite untimed_snoc, raises_snoc, returns_snoc. destruct Hst as [t Ht|l x Hx Hs]; [rewrite app_nil_r; simpl; lia|].
    rewrite handled_snoc, app_length. simpl. unfold busy in *.
    destruct Hx; simpl in *; try lia.
    - destruct got, cur, put; simpl; lia.
    - destruct H as [->|[m ->]]; lia.
  Qed.
  Lemma throughput t0 ls s ls' s' : (res <= 60 * sec)%Z → reach tstep (t_init t0) ls s → reach tstep s ls' s' → returns_of ls' = 0 →
    (Z.of_nat (length (accepted_of (untimed ls')) - 6) * (60 * sec - res) <= t_now s' - t_now s)%Z.
  Proof.
    intros Hres Hr Hr' H0. pose proof (ahead _ _ _ _ (reach_untimed _ _ _ Hr) (reach_untimed _ _ _ Hr')) as Ha.
    pose proof (calls_end _ _ _ Hr') as Hc. pose proof (raise_rate _ _ _ Hres Hr') as Hx.
    assert (busy (t_lis s') ≤ 1) by (unfold busy; case_match; lia).
    assert (length (accepted_of (untimed ls')) - 6 ≤ raises_of ls' - 1) by lia. nia.
  Qed.
End timed.

(** ** a concrete run: a handler that raises every time; the stop request comes in the first pause *)
Section runs.
  Context (sec res : Z) (Hsec : (0 < sec)%Z) (Hres : (0 < res)%Z).
  Definition raise_ls : list (tlabel nat) :=
    (λ l, TDo l 0%Z) <$> [LStartPump; LStartRun; LAdd 1; LPut 1; LGet; LJoined; LWake; LPutNext; LFetch; LWake; LNextJoined; LCall 1;
      LAdd 2; LPut 2; LGet; LJoined; LWake; LPutNext; LWake; LRaise; LStop].
  Definition again_ls : list (tlabel nat) := TPass (60 * sec) :: ((λ l, TDo l (60 * sec)%Z) <$> [LSlept; LFetch; LCall 2; LRaise]).
  Definition end_ls : list (tlabel nat) :=
    ((λ l, TDo l (60 * sec)%Z) <$> [LNextJoined; LWake]) ++ TPass (60 * sec + 60 * sec) :: ((λ l, TDo l (60 * sec + 60 * sec)%Z) <$> [LSlept; LRunStop]).
  Definition raise_s : tlis nat := TLis (Lis AIdle None true PJoin [] (Some 2) RSleep) 0 (60 * sec).
  Definition again_s : tlis nat := TLis (Lis AIdle None true PJoin [] None RSleep) (60 * sec) (60 * sec + 60 * sec).
  Definition end_s : tlis nat := TLis (Lis AIdle None true PStopped [] None RStopped) (60 * sec + 60 * sec) (60 * sec + 60 * sec).
  Notation tstep := (tstep (N:=nat) sec res).
  Lemma reach_do s l x ls s' : lstep (t_lis s) l x → (l = LSlept → (t_wake s < t_now s + res)%Z) →
    reach tstep (TLis x (t_now s) (match l with LRaise => (t_now s + 60 * sec)%Z | _ => t_wake s end)) ls s' → reach tstep s (TDo l (t_now s) :: ls) s'.
  Proof. intros. eapply reach_cons; [|done]. by constructor. Qed.
  Ltac go := eapply (reach_do (TLis _ _ _)); [by constructor|done|simpl].
  Ltac wake := eapply (reach_do (TLis _ _ _)); [apply l_wake; naive_solver|done|simpl].
  Lemma raise_runs : reach tstep (t_init 0) raise_ls raise_s.
  Proof.
    unfold raise_ls, t_init, lis_init. simpl. do 6 go. wake. do 2 go. wake. do 6 go. wake. go. wake. do 2 go. apply reach_nil.
  Qed.
  Lemma again_runs : reach tstep raise_s again_ls again_s.
  Proof.
    unfold again_ls, raise_s. simpl. eapply reach_cons; [apply t_pass; simpl; lia|]. simpl.
    eapply (reach_do (TLis _ _ _)); [by constructor|simpl; lia|simpl]. do 3 go. apply reach_nil.
  Qed.
  Lemma end_runs : reach tstep again_s end_ls end_s.
  Proof.
    unfold end_ls, again_s. simpl. do 2 go. eapply reach_cons; [apply t_pass; simpl; lia|]. simpl.
    eapply (reach_do (TLis _ _ _)); [by constructor|simpl; lia|simpl]. eapply (reach_do (TLis _ _ _)); [apply l_runstop; by left|done|]. apply reach_nil.
  Qed.
  Lemma slow_stop : ∃ ls (s : tlis nat), reach tstep (t_init 0) ls s ∧ TDo LStop 0 ∈ ls ∧ t_now s = (60 * sec)%Z ∧ handled_of (untimed ls) = [1; 2] ∧
    (∀ ls' t s', reach tstep s (ls' ++ [TDo LRunStop t]) s' → (120 * sec < t + res)%Z) ∧
    (∃ ls' s', reach tstep s ls' s' ∧ TDo LRunStop (120 * sec) ∈ ls').
  Proof.
    exists (raise_ls ++ again_ls), again_s. split; [eapply reach_app; [apply raise_runs|apply again_runs]|].
    split; [apply elem_of_app; left; by repeat constructor|]. split; [done|]. split; [done|]. split.
    - intros ls' t s' Hr. assert (Hx : reach tstep (t_init 0) ((raise_ls ++ TPass (60 * sec) :: ((λ l, TDo l (60 * sec)%Z) <$> [LSlept; LFetch; LCall 2])) ++
        TDo LRaise (60 * sec) :: ls' ++ TDo LRunStop t :: []) s').
      { replace (_ ++ _) with ((raise_ls ++ again_ls) ++ ls' ++ [TDo LRunStop t]); [|by rewrite <-!app_assoc].
        eapply reach_app; [|done]. eapply reach_app; [apply raise_runs|apply again_runs]. }
      apply pause in Hx; [lia|]. by right.
    - exists end_ls, end_s. split; [apply end_runs|]. unfold end_ls. replace (60 * sec + 60 * sec)%Z with (120 * sec)%Z by lia.
      apply elem_of_app. right. right. right. by left.
  Qed.
End runs.
