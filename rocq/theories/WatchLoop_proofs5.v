(** After a failed resync; the tasks come to rest; what ends with a watch; a stream that raises. *)
From Verif Require Import Base Reflector_model WatchLoop_model WatchLoop_spec WatchLoop_proofs WatchLoop_proofs2 WatchLoop_proofs3 WatchLoop_proofs4.

Section loop.
  Context {O RV St : Type} (g : rcfg O RV) (q : sops O RV St).
  Implicit Types (s : wstate O RV St) (r : refl RV) (ls : list (wlabel O)).
  Ltac explode s := destruct s as [pc rd wn fi ca re k ev er eq rs ct la op st pu se cs]; unfold in_wait in *; simpl in *.

  (** ** After a failed resync *)
  Definition left (x : rerr) : nat := match x with EReady => 0 | _ => 1 end.
  Definition gone (p : wpc O RV) : Prop := p = PReturned ∨ p = PCancelled.

  Lemma failed_step r x i r' x' out : i ≠ ILast → rstep g q (r, x) i = ((r', x'), out) → r_err r ≠ ENone →
    (r_pc r = RReady ∧ r_err r = EQueued ∨ ∃ n, r_pc r = RWatching n) →
    (r_pc r' = RIdle ∨ r_pc r' = RCancelled ∨ r_pc r' = RHung) ∧ length out ≤ left (r_err r) ∨ r_err r' ≠ ENone ∧ length out + left (r_err r') ≤ left (r_err r).
  Proof.
    intros Hi Hs Hn Hpc. destruct r as [pc la op er]; simpl in *.
    assert (∀ o, length (apply_event q o x).2 ≤ 1) as Hap.
    { intros o. unfold apply_event. destruct (e_type o); simpl; try lia.
      - by destruct (so_add q x (e_obj o)).
      - by destruct (so_update q x (e_obj o)).
      - by destruct (so_delete q x (e_obj o)). }
    destruct Hpc as [[-> ->]|(n & ->)].
    - destruct i as [| | | |e|short| |due| | |]; simpl in Hs; try (injection Hs as <- <- <-; simpl; auto with lia); try done.
      rewrite orb_true_r in Hs. injection Hs as <- <- <-. auto.
    - destruct i as [| | | |e|short| |due| | |]; simpl in Hs; try (injection Hs as <- <- <-; simpl; auto with lia); try done.
      + unfold r_noticed in Hs. simpl in Hs. destruct er; [done| |].
        * destruct (classify g e) as [| |rv]; try (injection Hs as <- <- <-; simpl; auto with lia).
          specialize (Hap e). destruct (apply_event q e x) as [x2 o2]. injection Hs as <- <- <-. simpl in *. right. split; [done|lia].
        * injection Hs as <- <- <-. simpl. left. split; [auto|lia].
      + destruct (_ || _); injection Hs as <- <- <-; simpl; [left; split; [auto|lia]|right; split; [done|lia]].
      + unfold r_failed in Hs. simpl in Hs. destruct er; [done| |]; rewrite orb_true_r in Hs; injection Hs as <- <- <-; simpl; right; (split; [done|lia]).
      + unfold r_failed in Hs. simpl in Hs. destruct er; [done| |]; injection Hs as <- <- <-; simpl; left; (split; [auto|lia]).
  Qed.
  Lemma gone_step s l s' : Inv s → gone (w_pc s) → wstep g q s l s' → w_pc s' = w_pc s ∧ w_calls s' = w_calls s.
  Proof.
    intros [He Hx Hh Hf Hw Hpe Hpx Hr Hz Hp] Hg Hs. unfold wstep, wrun in Hs.
    assert (is_over (w_event s) = true ∧ is_over (w_error s) = true ∧ w_reader s = RdOver) as (Ho1 & Ho2 & Ho3) by (by destruct Hg as [Hg|Hg]; rewrite Hg in Hp).
    destruct l as [short|ok|es f| | | | |]; try (by destruct Hg as [Hg|Hg]; rewrite ?Hg, ?Ho3 in Hs; try destruct ok).
    destruct (w_ready s) as [|h hs]; [done|]. explode s. subst re. destruct h as [| | |n|]; unfold run_reader, run_event, run_error, run_handler in Hs; simpl in Hs.
    - by injection Hs as <-.
    - destruct ev as [?|?|?|]; try done; by injection Hs as <-.
    - destruct er as [?|?|?|]; try done; by injection Hs as <-.
    - destruct ((n =? wn) && negb fi); by injection Hs as <-.
    - destruct Hg as [->| ->]; by injection Hs as <-.
  Qed.

  Definition After (cs0 : list (routput O RV)) s : Prop :=
    ∃ cs, w_calls s = cs0 ++ cs ∧
      (gone (w_pc s) ∧ length cs ≤ 1 ∨ ∃ r, Rel g s r ∧ r_err r ≠ ENone ∧ length cs + left (r_err r) ≤ 1 ∧ ¬ gone (w_pc s)).

  Lemma After_step cs0 s l s' : Inv s → After cs0 s → wstep g q s l s' → After cs0 s'.
  Proof.
    intros HI (cs & Hc & [[Hg Hl]|(r & HR & Hn & Hl & Hg)]) Hs.
    - destruct (gone_step _ _ _ HI Hg Hs) as [E1 E2]. exists cs. rewrite E1, E2. auto.
    - assert (∀ s2 r2, Rel g s2 r2 → gone (w_pc s2) ↔ (r_pc r2 = RIdle ∨ r_pc r2 = RCancelled)) as Hgo.
      { intros s2 r2 [_ _ -> _ _ _]. unfold gone. destruct (w_pc s2); simpl; naive_solver. }
      destruct (sim_step g q _ _ _ _ HI HR Hs) as [(E1 & E2 & HR2)|(i & r' & out & [Hi Hst] & Hcs & HR2)].
      + exists cs. rewrite E2. split; [done|]. right. exists r. split; [done|]. split; [done|]. split; [done|]. rewrite (Hgo _ _ HR2), <-(Hgo _ _ HR). done.
      + exists (cs ++ out). rewrite Hcs, Hc, <-app_assoc. split; [done|]. rewrite app_length.
        eapply failed_step in Hst as [[Hp Ho]|[Hn2 Ho]]; [| |by intros ->|done|].
        * left. split; [|lia]. apply (Hgo _ _ HR2). destruct Hp as [?|[?|Hp]]; [auto|auto|]. destruct HR2 as [_ _ Hpl _ _ _]. rewrite Hp in Hpl. by destruct (w_pc s').
        * destruct (w_pc s') eqn:Hpc; try (right; exists r'; split; [done|]; split; [done|]; split; [lia|]; unfold gone; by intros [?|?]).
          -- left. split; [unfold gone; auto|lia].
          -- left. split; [unfold gone; auto|lia].
        * destruct HR as [_ _ Hpl Her _ Hat]. rewrite Hpl. unfold gone in Hg. clear -Hg Her Hat Hn. destruct (w_pc s) eqn:Hpc; simpl; eauto; [|by destruct Hg; left|by destruct Hg; right].
          left. split; [done|]. specialize (Her ltac:(done) ltac:(done)). destruct (r_err r); simpl in *; try done. by rewrite Hpc in Her.
  Qed.

  (** a resync has failed: at most one more call of any kind is made *)
  Lemma failed_resync rv x ls s s1 ls2 s2 : reach (wstep g q) (w_init rv x) ls s → wstep g q s WResync s1 → w_calls s1 = w_calls s ++ [CResync false] →
    reach (wstep g q) s1 ls2 s2 → (∃ cs, w_calls s2 = w_calls s1 ++ cs ∧ length cs ≤ 1) ∧ (w_ready s2 = [] → w_pc s2 ≠ PWait).
  Proof.
    intros Hr Hs Hc Hr2. pose proof (Inv_reach g q _ _ _ _ Hr) as HI. destruct (sim_reach g q _ _ _ _ Hr) as (h & r & _ & _ & HR).
    assert (After (w_calls s1) s1) as HA.
    { pose proof (sim_step g q _ _ _ _ HI HR Hs) as Hm.
      unfold wstep, wrun in Hs. assert (w_pc s ≠ PReturned ∧ w_pc s ≠ PCancelled) as [Hn1 Hn2] by (by destruct (w_pc s)).
      destruct (w_resync s); [|by destruct (w_pc s)]. destruct (so_resync q (w_store s)) as [x2 ok] eqn:Hre.
      assert (Hs' : s1 = if ok then set_store x2 [CResync ok] s
        else push (roused HError (w_error s)) (set_error (wake_get (w_error s)) true (set_resync false (set_store x2 [CResync ok] s))))
        by (destruct (w_pc s); try done; by injection Hs). clear Hs.
      destruct ok; [subst s1; simpl in Hc; by apply app_inv_head in Hc|].
      exists []. rewrite app_nil_r. split; [done|]. right.
      assert (∃ r1, Rel g s1 r1) as (r1 & HR1) by (destruct Hm as [(_ & _ & ?)|(? & ? & ? & _ & _ & ?)]; eauto).
      exists r1. split; [done|]. assert (w_pc s1 = w_pc s) as Hpc by (by subst s1).
      assert (w_errq s1 = true) as Hq by (by subst s1).
      pose proof HR1 as [_ _ _ Her _ _]. rewrite Hpc in Her. specialize (Her Hn1 Hn2).
      split; [intros Hrr; rewrite Hrr in Her; simpl in Her; destruct Her as [Her _]; congruence|].
      split; [simpl; destruct (r_err r1); simpl; lia|]. unfold gone. rewrite Hpc. by intros [?|?]. }
    assert (Inv s1 ∧ After (w_calls s1) s1 → Inv s2 ∧ After (w_calls s1) s2) as Hx.
    { intros H. revert Hr2. apply (reach_inv (wstep g q) (λ s, Inv s ∧ After (w_calls s1) s)); [|done].
      intros s3 l s4 [HI3 HA3] Hs4. split; [by eapply Inv_step|by eapply After_step]. }
    destruct Hx as [HI2 (cs & Hcs & [[Hg Hl]|(r2 & HR2 & Hn2 & Hl & _)])]; [split; [by eapply Inv_step|done]| |]; (split; [exists cs; split; [done|lia]|]).
    - intros _ Hpc. rewrite Hpc in Hg. by destruct Hg.
    - intros Hrd Hpc. pose proof (rest s2 HI2 Hrd) as Hre. rewrite Hpc in Hre. destruct Hre as (_ & Hq & Her & _). destruct HR2 as [_ _ _ Her2 _ _].
      rewrite Hpc in Her2. specialize (Her2 ltac:(done) ltac:(done)). destruct (r_err r2); simpl in Her2; [done| |].
      + destruct Her2 as [?|Hd]; congruence.
      + rewrite Hpc in Her2. destruct Her2 as [Hd|(Hq2 & _)]; congruence.
  Qed.

  (** ** The loop comes to rest *)
  Definition wt (h : handle) : nat := match h with HRead => 1 | HEvent => 1 | HError => 1 | HHandler => 3 | HDone _ => 4 end.
  Definition wsum (l : list handle) : nat := foldr (λ h n, wt h + n) 0 l.
  Definition wread (x : reader O) : nat := match x with RdHave es _ => 5 * (length es + 1) + 2 | _ => 0 end.
  (** what there is to do without anything from outside *)
  Definition weight s : nat := wsum (w_ready s) + 5 * length (w_queue s) + wread (w_reader s) + (if is_over (w_error s) then 0 else 5).

  Lemma wsum_app l1 l2 : wsum (l1 ++ l2) = wsum l1 + wsum l2.
  Proof. induction l1 as [|h l1 IH]; simpl; [done|]. unfold wsum in *. lia. Qed.
  Lemma wsum_roused {A} h (x : gtask A) : wsum (roused h x) ≤ wt h.
  Proof. destruct x as [?|[|?|]|?|]; simpl; lia. Qed.
  Lemma wsum_done s : wsum (on_done s) ≤ 4.
  Proof. unfold on_done. destruct (w_pc s); simpl; lia. Qed.
  Lemma cancel_over {A} (x : gtask A) : is_over (cancel_get x) = is_over x.
  Proof. by destruct x as [?|[|?|]|?|]. Qed.
  Lemma cancel_wread (x : reader O) : wread (cancel_reader x) ≤ wread x.
  Proof. destruct x; simpl; lia. Qed.

  Lemma weight_close why s : weight (close why s) ≤ weight s + 2.
  Proof.
    unfold weight; simpl. rewrite !wsum_app, cancel_over. pose proof (cancel_wread (w_reader s)).
    pose proof (wsum_roused HEvent (w_event s)). pose proof (wsum_roused HError (w_error s)). simpl in *. lia.
  Qed.
  Lemma weight_wait s : is_over (w_error s) = false → weight (begin_wait s) = weight s + 1.
  Proof. unfold weight; simpl. intros ->. rewrite wsum_app. simpl. lia. Qed.

  Lemma run_lowers short s s' : Inv s → wstep g q s (WRun short) s' → weight s' < weight s.
  Proof.
    intros HI Hs. unfold wstep, wrun in Hs. destruct (w_ready s) as [|h hs] eqn:Hrd; [done|].
    assert (weight s = wt h + weight (set_ready hs s)) as Hws by (unfold weight; rewrite Hrd; simpl; lia).
    destruct h as [| | |n|].
    - injection Hs as <-. rewrite Hws. unfold run_reader. simpl.
      destruct (w_reader s) as [| |es f| |] eqn:Hre; try lia.
      { unfold weight; simpl. rewrite ?Hre. simpl. lia. }
      assert (length ((Some <$> es) ++ match f with SEnd => [None] | _ => [] end) ≤ length es + 1) as Hlen by (rewrite app_length, fmap_length; by destruct f; simpl; lia).
      destruct ((Some <$> es) ++ match f with SEnd => [None] | _ => [] end) as [|i0 items0].
      + unfold weight; simpl. rewrite ?Hre. simpl. destruct f; simpl; lia.
      + unfold weight; simpl. rewrite ?Hre, wsum_app, app_length. pose proof (wsum_roused HEvent (w_event s)). simpl in *. destruct f; simpl; lia.
    - injection Hs as <-. rewrite Hws. unfold run_event. pose proof (wsum_done (set_ready hs s)). unfold weight; simpl.
      assert (live (w_event s) = false → wsum (on_done (set_ready hs s)) = 0) as Hnw.
      { intros Hl. destruct HI as [_ _ _ _ _ _ _ _ _ Hp]. unfold on_done. simpl. destruct (w_pc s); try done. destruct Hp as [Hp _]. congruence. }
      destruct (w_event s) as [[]|[|[]|]|?|]; simpl; try lia; try (rewrite wsum_app; specialize (Hnw eq_refl); simpl; lia).
      all: destruct (w_queue s) eqn:Hk; simpl; rewrite ?wsum_app; simpl; lia.
    - injection Hs as <-. rewrite Hws. unfold run_error. pose proof (wsum_done (set_ready hs s)). unfold weight; simpl.
      destruct (w_error s) as [[]|[|[]|]|?|] eqn:Her; simpl; rewrite ?Her; try (destruct (w_errq s)); simpl; rewrite ?wsum_app; simpl; lia.
    - injection Hs as <-. rewrite Hws. destruct (_ && _); [|simpl; lia]. unfold weight; simpl. rewrite wsum_app. simpl. lia.
    - destruct (Inv_pop_handler _ _ HI Hrd) as (Hpc & Hfi & Hh0 & Hov). pose proof HI as [_ _ _ _ _ _ _ _ _ Hp]. rewrite Hpc in Hp. destruct Hp as (_ & Hl & _).
      rewrite Hws. unfold run_handler in Hs. simpl in Hs. rewrite Hpc in Hs. set (s1 := set_ready hs s) in *. simpl.
      assert (∀ why s2, weight s2 = weight s1 → weight (close why s2) < 3 + weight s1) as Hcl by (intros why s2 <-; pose proof (weight_close why s2); lia).
      destruct (w_cancel s); [injection Hs as <-; by apply Hcl|].
      destruct (w_error s) as [b|f|[]|] eqn:Her; [| |injection Hs as <-; by apply Hcl|done].
      all: assert (is_over (w_error s1) = false) as Hov1 by (simpl; by rewrite Her).
      all: destruct (w_event s) as [?|?|[e|]|]; try done; [|injection Hs as <-; by apply Hcl].
      all: destruct (classify g e) as [| |rv]; [injection Hs as <-; by apply Hcl|injection Hs as <-; rewrite weight_wait by done; unfold weight; simpl; lia|].
      all: destruct (stores (e_type e)); injection Hs as <-; [unfold weight; simpl; lia|rewrite weight_wait by done; unfold weight; simpl; lia].
  Qed.

  Lemma runs_bounded s ls s' : Inv s → reach (wstep g q) s ls s' → (∀ l, l ∈ ls → is_run l = true) → length ls + weight s' ≤ weight s.
  Proof.
    intros HI Hr. induction Hr as [|ls s1 l s2 Hr IH Hs]; intros Hall; [simpl; lia|].
    assert (Inv s1) as HI1 by (revert Hr; apply (reach_inv (wstep g q) Inv); [intros ???; apply Inv_step|done]).
    rewrite app_length. simpl. assert (is_run l = true) as Hl by (apply Hall; apply elem_of_app; right; left). destruct l as [short| | | | | | |]; try done.
    pose proof (run_lowers _ _ _ HI1 Hs). assert (length ls + weight s1 ≤ weight s); [|lia]. apply IH. intros l Hl1. apply Hall. apply elem_of_app. by left.
  Qed.

  (** ** At rest *)
  Lemma rest_waiting rv x ls s : reach (wstep g q) (w_init rv x) ls s → w_ready s = [] → w_pc s = PWait →
    w_seen s = reads ls ∧ w_errq s = false ∧ (w_reader s = RdRead ∨ w_reader s = RdOver).
  Proof.
    intros Hr Hrd Hpc. pose proof (Inv_reach g q _ _ _ _ Hr) as HI. pose proof (Ord_reach g q _ _ _ _ Hr) as HO. pose proof (rest s HI Hrd) as Hre.
    rewrite Hpc in Hre. destruct Hre as (Hk & Hq & _ & Hev & Hnr & _). unfold Ord in HO. rewrite Hpc, Hk, Hev in HO. destruct HO as [(rest & tl & Hl & Hp & _) Hrs].
    destruct rest; [|done]. rewrite app_nil_r in Hp. split; [|split; [done|]].
    - rewrite Hrs, Hp. destruct (w_reader s) as [| |es f| |]; simpl; rewrite ?app_nil_r; try done. by destruct (Hnr es f).
    - destruct HI as [_ _ _ _ _ _ _ Hr2 _ _]. rewrite Hrd in Hr2. destruct (w_reader s) as [| |es f| |] eqn:E; auto; [by apply elem_of_nil in Hr2|by destruct (Hnr es f)|].
      (* a reader that leaves async with was cancelled *)
      exfalso. assert (∀ ls s, reach (wstep g q) (w_init rv x) ls s → w_reader s = RdExit → ∃ why, w_pc s = PClosing why) as Hex; [|destruct (Hex _ _ Hr E) as [why ?]; congruence].
      clear. intros ls s Hr. induction Hr as [|ls s1 l s2 Hr IH Hs]; [done|]. intros E. pose proof (Inv_reach g q _ _ _ _ Hr) as [He Hx Hh Hf Hw Hpe Hpx Hr1 Hz Hp].
      unfold wstep, wrun in Hs. destruct l as [short|ok|es f| | | | |].
      + destruct (w_ready s1) as [|h hs] eqn:Hrd; [done|]. destruct h as [| | |n|].
        * injection Hs as <-. unfold run_reader in *. simpl in *. destruct (w_reader s1) as [| |es f| |] eqn:E1; simpl in E; try congruence.
          -- destruct ((Some <$> es) ++ match f with SEnd => [None] | _ => [] end); simpl in E; destruct f; done.
          -- by apply IH.
        * injection Hs as <-. assert (w_reader (run_event (set_ready hs s1)) = w_reader s1 ∧ w_pc (run_event (set_ready hs s1)) = w_pc s1) as [E1 E2].
          { unfold run_event; simpl. destruct (w_event s1) as [[]|[|[]|]|?|]; try done; by destruct (w_queue s1). }
          rewrite E2. apply IH. congruence.
        * injection Hs as <-. assert (w_reader (run_error (set_ready hs s1)) = w_reader s1 ∧ w_pc (run_error (set_ready hs s1)) = w_pc s1) as [E1 E2].
          { unfold run_error; simpl. destruct (w_error s1) as [[]|[|[]|]|?|]; try done; by destruct (w_errq s1). }
          rewrite E2. apply IH. congruence.
        * injection Hs as <-. destruct ((n =? w_wait s1) && negb (w_fired s1)); simpl in *; auto.
        * assert (w_reader s2 = w_reader s1 ∧ w_pc s1 = PWait ∨ (∃ why, w_pc s2 = PClosing why) ∨ s2 = set_ready hs s1) as [[E1 E2]|[?|E2]]; [|rewrite E1 in E; apply IH in E as [why ?]; congruence|done|subst s2; by apply IH].
          unfold run_handler in Hs. simpl in Hs. destruct (w_pc s1) eqn:Hpc; try (injection Hs as <-; auto). destruct (w_cancel s1); [injection Hs as <-; right; left; by eexists|].
          destruct (w_error s1) as [?|?|?|]; try (injection Hs as <-; right; left; by eexists); destruct (w_event s1) as [?|?|[e|]|]; try done; try (injection Hs as <-; right; left; by eexists).
          all: destruct (classify g e) as [| |rv0]; injection Hs as <-; try (right; left; by eexists); try (left; done); left; by destruct (stores _).
      + destruct (w_pc s1); try (by destruct ok). destruct Hp as (_ & _ & Hp). destruct ok; injection Hs as <-; simpl in E; congruence.
      + destruct (w_reader s1); try (by destruct (w_pc s1)). assert (Hs' : s2 = push [HRead] (set_reader (RdHave es f) s1)) by (by destruct (w_pc s1); injection Hs). by subst s2.
      + destruct (w_reader s1); try (by destruct (w_pc s1)). assert (Hs' : s2 = set_reader RdOver s1) by (by destruct (w_pc s1); injection Hs). by subst s2.
      + destruct (w_pc s1) as [| |e rv0| | |] eqn:Hpc; try done. destruct (apply_event q e (w_store s1)). injection Hs as <-. simpl in E. apply IH in E as [why ?]. congruence.
      + destruct (w_resync s1); [|by destruct (w_pc s1)]. destruct (so_resync q (w_store s1)) as [x2 ok].
        assert (Hs' : s2 = if ok then set_store x2 [CResync ok] s1 else push (roused HError (w_error s1)) (set_error (wake_get (w_error s1)) true (set_resync false (set_store x2 [CResync ok] s1))))
          by (destruct (w_pc s1); try done; by injection Hs). destruct ok; subst s2; by apply IH.
      + destruct (w_pc s1) as [| | |why| |] eqn:Hpc; try done. destruct (w_reader s1) eqn:E1; try done. destruct (is_over (w_event s1) && is_over (w_error s1)); [|done]. injection Hs as <-.
        exfalso. unfold leave in E. simpl in E. destruct (after_close why s1); simpl in E; congruence.
      + destruct (w_pc s1) as [| |e rv0|why| |] eqn:Hpc; try done; injection Hs as <-.
        * destruct Hp as (_ & _ & Hp). simpl in E. congruence.
        * destruct (w_fired s1); simpl in *; rewrite ?Hpc; (apply IH in E as [why ?]; congruence).
        * by eexists.
        * by eexists.
  Qed.

  (** a watch that is being left is left: the loop, and then the stream, are all it waits for *)
  Lemma rest_closing rv x ls s why : reach (wstep g q) (w_init rv x) ls s → w_ready s = [] → w_pc s = PClosing why →
    w_reader s = RdExit ∨ ∃ s', wstep g q s WClosed s'.
  Proof.
    intros Hr Hrd Hpc. pose proof (Inv_reach g q _ _ _ _ Hr) as HI. pose proof (rest s HI Hrd) as Hre. rewrite Hpc in Hre. destruct Hre as [Ho1 Ho2].
    destruct HI as [_ _ _ _ _ _ _ _ _ Hp]. rewrite Hpc in Hp. destruct Hp as (_ & _ & [Hp|Hp]); [by left|]. right. unfold wstep, wrun. rewrite Hpc, Hp, Ho1, Ho2. by eexists.
  Qed.

  (** no task is left when a watch is over *)
  Lemma tasks_over rv x ls s : reach (wstep g q) (w_init rv x) ls s → between (w_pc s) →
    is_over (w_event s) = true ∧ is_over (w_error s) = true ∧ w_reader s = RdOver ∧ (w_pc s ≠ PReady → w_resync s = false).
  Proof.
    intros Hr Hpc. pose proof (Inv_reach g q _ _ _ _ Hr) as [_ _ _ _ _ _ _ _ _ Hp].
    assert (w_resync s = true → w_pc s ≠ PReturned ∧ w_pc s ≠ PCancelled) as Hz.
    { clear Hp Hpc. induction Hr as [|ls s1 l s2 Hr IH Hs]; [done|]. pose proof (Inv_reach g q _ _ _ _ Hr) as HI.
      assert (w_pc s1 = PReturned ∨ w_pc s1 = PCancelled ∨ w_pc s1 ≠ PReturned ∧ w_pc s1 ≠ PCancelled) as [Hp|[Hp|Hp]] by (destruct (w_pc s1); auto).
      1, 2: intros Hz; exfalso; assert (w_resync s1 = true) as Hz1; [|destruct (IH Hz1); congruence]; clear IH.
      1, 2: pose proof HI as [He Hx Hh Hf Hw Hpe Hpx Hr1 _ Hp2]; rewrite Hp in Hp2; destruct Hp2 as (Ho1 & Ho2 & Ho3); unfold wstep, wrun in Hs; rewrite Hp, Ho3 in Hs;
        destruct l as [short|[]|es f| | | | |]; try done; destruct (w_ready s1) as [|h hs]; [done|]; explode s1; subst re pc; destruct h as [| | |n|];
        unfold run_reader, run_event, run_error, run_handler in Hs; simpl in Hs;
        try (by injection Hs as <-); try (destruct ev as [?|?|?|]; try done; by injection Hs as <-); try (destruct er as [?|?|?|]; try done; by injection Hs as <-);
        try (destruct ((n =? wn) && negb fi); by injection Hs as <-).
      clear IH. unfold wstep, wrun in Hs. destruct l as [short|ok|es f| | | | |].
      - assert (w_pc s2 ≠ PReturned ∧ w_pc s2 ≠ PCancelled); [|done].
        destruct (w_ready s1) as [|h hs] eqn:Hrd; [done|]. destruct h as [| | |n|].
        + injection Hs as <-. unfold run_reader; simpl. destruct (w_reader s1) as [| |es f| |]; try done. by destruct ((Some <$> es) ++ _).
        + injection Hs as <-. unfold run_event; simpl. destruct (w_event s1) as [[]|[|[]|]|?|]; try done; by destruct (w_queue s1).
        + injection Hs as <-. unfold run_error; simpl. destruct (w_error s1) as [[]|[|[]|]|?|]; try done; by destruct (w_errq s1).
        + injection Hs as <-. by destruct ((n =? w_wait s1) && negb (w_fired s1)).
        + unfold run_handler in Hs. simpl in Hs. destruct (w_pc s1) eqn:Hpc; try (injection Hs as <-; simpl; by rewrite Hpc). destruct (w_cancel s1); [by injection Hs as <-|].
          destruct (w_error s1) as [?|?|?|]; try (by injection Hs as <-); destruct (w_event s1) as [?|?|[e|]|]; try done; try (by injection Hs as <-).
          all: destruct (classify g e) as [| |rv0]; injection Hs as <-; try done; by destruct (stores _).
      - destruct (w_pc s1); try (by destruct ok). by destruct ok; injection Hs as <-.
      - destruct (w_reader s1); try (by destruct (w_pc s1)). assert (Hs' : s2 = push [HRead] (set_reader (RdHave es f) s1)) by (by destruct (w_pc s1); injection Hs). by subst s2.
      - destruct (w_reader s1); try (by destruct (w_pc s1)). assert (Hs' : s2 = set_reader RdOver s1) by (by destruct (w_pc s1); injection Hs). by subst s2.
      - destruct (w_pc s1) as [| |e rv0| | |]; try done. destruct (apply_event q e (w_store s1)). by injection Hs as <-.
      - destruct (w_resync s1); [|by destruct (w_pc s1)]. destruct (so_resync q (w_store s1)) as [x2 ok].
        assert (Hs' : s2 = if ok then set_store x2 [CResync ok] s1 else push (roused HError (w_error s1)) (set_error (wake_get (w_error s1)) true (set_resync false (set_store x2 [CResync ok] s1))))
          by (destruct (w_pc s1); try done; by injection Hs). destruct ok; by subst s2.
      - destruct (w_pc s1) as [| | |why| |]; try done. destruct (w_reader s1); try done. destruct (is_over (w_event s1) && is_over (w_error s1)); [|done]. injection Hs as <-.
        unfold leave. by destruct (after_close why s1).
      - destruct (w_pc s1) as [| |e rv0|why| |] eqn:Hpc; try done; injection Hs as <-; try done. destruct (w_fired s1); simpl; by rewrite Hpc. }
    assert (w_pc s ≠ PReady → w_resync s = false) as Hz2.
    { intros Hn. destruct (w_resync s); [|done]. destruct (Hz eq_refl) as [Hz1 Hz2]. destruct Hpc as [?|[?|?]]; done. }
    destruct Hpc as [Hpc|[Hpc|Hpc]]; rewrite Hpc in Hp; destruct Hp as (? & ? & ?); done.
  Qed.

  (** ** A cancelled reflector *)
  Definition ending s : Prop := w_pc s = PWait ∧ w_cancel s = true ∨ w_pc s = PClosing ICancel ∨ w_pc s = PCancelled.
  Lemma ending_step s l s' : Inv s → ending s → wstep g q s l s' → ending s' ∧ ∃ cs, w_calls s' = w_calls s ++ cs ∧ Forall (λ c, ∃ ok, c = CResync ok) cs.
  Proof.
    intros HI He Hs.
    assert (∀ s2, w_pc s2 = w_pc s → w_cancel s2 = w_cancel s → w_calls s2 = w_calls s → ending s2 ∧ ∃ cs, w_calls s2 = w_calls s ++ cs ∧ Forall (λ c, ∃ ok, c = CResync ok) cs) as Hsame.
    { intros s2 E1 E2 E3. split; [unfold ending in *; by rewrite E1, E2|]. exists []. rewrite app_nil_r. by split. }
    unfold wstep, wrun in Hs. destruct l as [short|ok|es f| | | | |].
    - destruct (w_ready s) as [|h hs] eqn:Hrd; [done|]. destruct h as [| | |n|].
      + injection Hs as <-. unfold run_reader; simpl. destruct (w_reader s) as [| |es f| |]; try (by apply Hsame). destruct ((Some <$> es) ++ _); by apply Hsame.
      + injection Hs as <-. unfold run_event; simpl. destruct (w_event s) as [[]|[|[]|]|?|]; try (by apply Hsame); destruct (w_queue s); by apply Hsame.
      + injection Hs as <-. unfold run_error; simpl. destruct (w_error s) as [[]|[|[]|]|?|]; try (by apply Hsame); destruct (w_errq s); by apply Hsame.
      + injection Hs as <-. destruct ((n =? w_wait s) && negb (w_fired s)); by apply Hsame.
      + destruct (Inv_pop_handler _ _ HI Hrd) as (Hpc & _). unfold run_handler in Hs. simpl in Hs. rewrite Hpc in Hs. destruct He as [[_ Hca]|[He|He]]; [|congruence|congruence].
        rewrite Hca in Hs. injection Hs as <-. split; [right; by left|]. exists []. rewrite app_nil_r. by split.
    - destruct He as [[He _]|[He|He]]; rewrite He in Hs; by destruct ok.
    - destruct (w_reader s); try (by destruct (w_pc s)). assert (Hs2 : s' = push [HRead] (set_reader (RdHave es f) s)) by (by destruct (w_pc s); injection Hs). subst s'. by apply Hsame.
    - destruct (w_reader s); try (by destruct (w_pc s)). assert (Hs2 : s' = set_reader RdOver s) by (by destruct (w_pc s); injection Hs). subst s'. by apply Hsame.
    - destruct He as [[He _]|[He|He]]; by rewrite He in Hs.
    - destruct (w_resync s); [|by destruct (w_pc s)]. destruct (so_resync q (w_store s)) as [x2 ok].
      assert (Hs2 : s' = if ok then set_store x2 [CResync ok] s else push (roused HError (w_error s)) (set_error (wake_get (w_error s)) true (set_resync false (set_store x2 [CResync ok] s))))
        by (destruct (w_pc s); try done; by injection Hs).
      split; [unfold ending in *; destruct ok; by subst s'|]. exists [CResync ok]. split; [destruct ok; by subst s'|]. constructor; [by exists ok|done].
    - destruct He as [[He _]|[He|He]]; rewrite He in Hs; try done. destruct (w_reader s); try done. destruct (is_over (w_event s) && is_over (w_error s)); [|done]. injection Hs as <-.
      split; [right; by right|]. exists []. rewrite app_nil_r. by split.
    - destruct He as [[He Hc]|[He|He]]; rewrite He in Hs; try done; injection Hs as <-.
      + split; [left; split; [by destruct (w_fired s)|done]|]. exists []. rewrite app_nil_r. split; [by destruct (w_fired s)|done].
      + split; [right; by left|]. exists []. rewrite app_nil_r. by split.
  Qed.
  (** it makes no call any more but resyncs, and ends with the cancellation *)
  Lemma obeys rv x ls s s1 ls2 s2 : reach (wstep g q) (w_init rv x) ls s → wstep g q s WCancel s1 → reach (wstep g q) s1 ls2 s2 →
    (∃ cs, w_calls s2 = w_calls s ++ cs ∧ Forall (λ c, ∃ ok, c = CResync ok) cs) ∧ (w_ready s2 = [] → w_pc s2 = PClosing ICancel ∨ w_pc s2 = PCancelled).
  Proof.
    intros Hr Hs Hr2. pose proof (Inv_reach g q _ _ _ _ Hr) as HI. pose proof (Inv_step g q _ _ _ HI Hs) as HI1.
    assert (ending s1 ∧ w_calls s1 = w_calls s) as [He1 Hc1].
    { unfold wstep, wrun in Hs. destruct (w_pc s) eqn:Hpc; try done; injection Hs as <-.
      - split; [right; by right|done].
      - split; [|by destruct (w_fired s)]. left. split; [by destruct (w_fired s)|done].
      - split; [right; by left|done].
      - split; [right; by left|done]. }
    assert (Inv s2 ∧ ending s2 ∧ ∃ cs, w_calls s2 = w_calls s ++ cs ∧ Forall (λ c, ∃ ok, c = CResync ok) cs) as (HI2 & He2 & Hcs).
    { revert Hr2. apply (reach_inv (wstep g q) (λ s2, Inv s2 ∧ ending s2 ∧ ∃ cs, w_calls s2 = w_calls s ++ cs ∧ Forall (λ c, ∃ ok, c = CResync ok) cs)).
      - intros s3 l s4 (HI3 & He3 & cs & Hc3 & Hf3) Hs4. destruct (ending_step _ _ _ HI3 He3 Hs4) as [He4 (cs2 & Hc4 & Hf4)]. split; [by eapply Inv_step|]. split; [done|].
        exists (cs ++ cs2). rewrite Hc4, Hc3, app_assoc. split; [done|]. by apply Forall_app.
      - split; [done|]. split; [done|]. exists []. by rewrite app_nil_r. }
    split; [done|]. intros Hrd. destruct He2 as [[Hpc Hca]|?]; [|done]. exfalso. pose proof (rest s2 HI2 Hrd) as Hre. rewrite Hpc in Hre. intuition congruence.
  Qed.

  (** a watch whose stream raised: from then on only a failing resync or a cancellation gets the handler on *)
  Lemma hangs s ls s' : w_ready s = [] → w_pc s = PWait → w_reader s = RdOver → reach (wstep g q) s ls s' → WCancel ∉ ls →
    ∃ cs, w_calls s' = w_calls s ++ cs ∧ (CResync false ∉ cs → Forall (λ c, c = CResync true) cs ∧ w_ready s' = [] ∧ w_pc s' = PWait ∧ w_reader s' = RdOver).
  Proof.
    intros Hrd Hpc Hre Hr. induction Hr as [|ls s1 l s2 Hr IH Hs]; intros Hn; [exists []; rewrite app_nil_r; split; [done|]; intros _; by split|].
    rewrite not_elem_of_app, elem_of_list_singleton in Hn. destruct Hn as [Hn1 Hn2]. destruct (IH Hn1) as (cs & Hcs & Hin).
    assert (∃ cs2, w_calls s2 = w_calls s1 ++ cs2) as (cs2 & Hcs2).
    { pose proof Hs as Hs'. unfold wstep, wrun in Hs'. destruct l as [short|ok|es f| | | | |].
      - destruct (w_ready s1) as [|h hs]; [done|]. destruct h as [| | |n|].
        + injection Hs' as <-. exists []. rewrite app_nil_r. unfold run_reader; simpl. destruct (w_reader s1) as [| |es f| |]; try done. by destruct ((Some <$> es) ++ _).
        + injection Hs' as <-. exists []. rewrite app_nil_r. unfold run_event; simpl. destruct (w_event s1) as [[]|[|[]|]|?|]; try done; by destruct (w_queue s1).
        + injection Hs' as <-. exists []. rewrite app_nil_r. unfold run_error; simpl. destruct (w_error s1) as [[]|[|[]|]|?|]; try done; by destruct (w_errq s1).
        + injection Hs' as <-. exists []. rewrite app_nil_r. by destruct ((n =? w_wait s1) && negb (w_fired s1)).
        + exists []. rewrite app_nil_r. unfold run_handler in Hs'. simpl in Hs'. destruct (w_pc s1); try (by injection Hs' as <-). destruct (w_cancel s1); [by injection Hs' as <-|].
          destruct (w_error s1) as [?|?|?|]; try (by injection Hs' as <-); destruct (w_event s1) as [?|?|[e|]|]; try done; try (by injection Hs' as <-).
          all: destruct (classify g e) as [| |rv0]; injection Hs' as <-; try done; by destruct (stores _).
      - destruct (w_pc s1); try (by destruct ok). destruct ok; injection Hs' as <-; by eexists.
      - destruct (w_reader s1); try (by destruct (w_pc s1)). assert (Hs2 : s2 = push [HRead] (set_reader (RdHave es f) s1)) by (by destruct (w_pc s1); injection Hs'). subst s2. exists []. by rewrite app_nil_r.
      - destruct (w_reader s1); try (by destruct (w_pc s1)). assert (Hs2 : s2 = set_reader RdOver s1) by (by destruct (w_pc s1); injection Hs'). subst s2. exists []. by rewrite app_nil_r.
      - destruct (w_pc s1) as [| |e rv0| | |]; try done. destruct (apply_event q e (w_store s1)). injection Hs' as <-. by eexists.
      - destruct (w_resync s1); [|by destruct (w_pc s1)]. destruct (so_resync q (w_store s1)) as [x2 ok].
        assert (Hs2 : s2 = if ok then set_store x2 [CResync ok] s1 else push (roused HError (w_error s1)) (set_error (wake_get (w_error s1)) true (set_resync false (set_store x2 [CResync ok] s1))))
          by (destruct (w_pc s1); try done; by injection Hs'). exists [CResync ok]. destruct ok; by subst s2.
      - destruct (w_pc s1) as [| | |why| |]; try done. destruct (w_reader s1); try done. destruct (is_over (w_event s1) && is_over (w_error s1)); [|done]. injection Hs' as <-.
        exists []. rewrite app_nil_r. unfold leave. by destruct (after_close why s1).
      - by destruct Hn2. }
    exists (cs ++ cs2). rewrite Hcs2, Hcs, app_assoc. split; [done|]. rewrite not_elem_of_app. intros [Hn3 Hn4]. destruct (Hin Hn3) as (Hf & Hrd1 & Hpc1 & Hre1).
    unfold wstep, wrun in Hs. rewrite Hrd1, Hpc1, Hre1 in Hs. destruct l as [short|[]|es f| | | | |]; try done.
    destruct (w_resync s1); [|done]. destruct (so_resync q (w_store s1)) as [x2 ok]. destruct ok; injection Hs as <-; simpl in Hcs2; apply app_inv_head in Hcs2; subst cs2.
    - simpl. split; [|done]. apply Forall_app. split; [done|]. by constructor.
    - destruct Hn4. left.
  Qed.

  (** after a list, as the whole reflector *)
  Lemma refines x0 h0 rv x ls s : exec (rstep g q) (refl_init, x0) h0 (Refl RReady (Some rv) (Some rv) ENone, x) → reach (wstep g q) (w_init rv x) ls s →
    ∃ h r, exec (rstep g q) (refl_init, x0) (h0 ++ h) (r, w_store s) ∧ concat h.*2 = w_calls s ∧
      r_last r = w_last s ∧ r_opt r = w_opt s ∧ r_pc r = place (w_pc s) (w_count s).
  Proof.
    intros H0 Hr. destruct (sim_reach g q _ _ _ _ Hr) as (h & r & Hex & Hc & [H1 H2 H3 _ _ _]). exists h, r. split; [|done]. apply exec_app. by eexists.
  Qed.
  Lemma order rv x ls s : reach (wstep g q) (w_init rv x) ls s → w_seen s `prefix_of` reads ls.
  Proof. intros Hr. eapply Ord_prefix, Ord_reach, Hr. Qed.
  Lemma complete rv x ls s : reach (wstep g q) (w_init rv x) ls s → w_pc s = PReady → w_seen s = reads ls.
  Proof. intros Hr Hpc. pose proof (Ord_reach g q _ _ _ _ Hr) as HO. unfold Ord in HO. by rewrite Hpc in HO. Qed.
  Lemma can_run rv x ls s short : reach (wstep g q) (w_init rv x) ls s → w_ready s ≠ [] → ∃ s', wstep g q s (WRun short) s'.
  Proof.
    intros Hr Hn. destruct (w_ready s) as [|h hs] eqn:Hrd; [done|]. destruct (Inv_run g q short s h hs (Inv_reach g q _ _ _ _ Hr) Hrd) as (s' & Hs & _). by exists s'.
  Qed.
  Lemma settles rv x ls s : reach (wstep g q) (w_init rv x) ls s → ∃ n, ∀ ls2 s2, reach (wstep g q) s ls2 s2 → (∀ l, l ∈ ls2 → is_run l = true) → length ls2 ≤ n.
  Proof. intros Hr. exists (weight s). intros ls2 s2 Hr2 Hall. pose proof (runs_bounded s ls2 s2 (Inv_reach g q _ _ _ _ Hr) Hr2 Hall). lia. Qed.
End loop.

(** ** Cases *)
Definition wcase_cfg : rcfg (nat * nat) nat :=
  Rcfg true (λ o, negb (o.1 =? 99)) None (λ _, None) (λ _, None) (λ _, true) (λ o, if o.2 =? 0 then None else Some o.2).
Definition wcase_ops : sops (nat * nat) nat (list (nat * nat)) := Sops (λ _ l _, (l, true)) (λ s o, (s ++ [o], true)) (λ s o, (s ++ [o], true)) (λ s _, (s, true)) (λ s, (s, false)).
Fixpoint wruns {O RV St} (g : rcfg O RV) (q : sops O RV St) (s : wstate O RV St) (ls : list (wlabel O)) : option (wstate O RV St) :=
  match ls with [] => Some s | l :: ls => match wrun g q s l with Some s' => wruns g q s' ls | None => None end end.
Lemma wruns_reach {O RV St} (g : rcfg O RV) (q : sops O RV St) s ls s' : wruns g q s ls = Some s' → reach (wstep g q) s ls s'.
Proof.
  revert s. induction ls as [|l ls IH]; simpl; intros s Hs; [injection Hs as <-; constructor|]. destruct (wrun g q s l) as [s1|] eqn:E; [|done].
  eapply reach_cons; [exact E|by apply IH].
Qed.
Notation w0 := (w_init 3 [(1, 3)]).
Notation run_n n := (replicate n (WRun true)).

(** two events, of which one is skipped, and the end of the stream *)
Definition wcase_run : list (wlabel (nat * nat)) :=
  [WWatch true] ++ run_n 3 ++ [WRead [Event EvAdded (2, 4); Event EvAdded (99, 7)] SMore] ++ run_n 4 ++ [WStored] ++ run_n 4 ++ [WRead [] SEnd] ++ run_n 5 ++ [WClosed].
Definition wcase_end := Eval vm_compute in default w0 (wruns wcase_cfg wcase_ops w0 wcase_run).
Lemma wcase_runs : reach (wstep wcase_cfg wcase_ops) w0 wcase_run wcase_end ∧ w_pc wcase_end = PReady ∧ w_calls wcase_end = [CWatch (Some 3); CAdd (2, 4) true] ∧
  w_last wcase_end = Some 4 ∧ w_store wcase_end = [(1, 3); (2, 4)] ∧ w_seen wcase_end = [Event EvAdded (2, 4); Event EvAdded (99, 7)].
Proof. split; [apply wruns_reach; vm_compute; reflexivity|]. vm_compute. done. Qed.

(** a resync fails when an event has already woken the handler *)
Definition late_run1 : list (wlabel (nat * nat)) := [WWatch true] ++ run_n 3 ++ [WRead [Event EvAdded (2, 4)] SMore] ++ run_n 3.
Definition late_run2 : list (wlabel (nat * nat)) := run_n 1 ++ [WStored] ++ run_n 5 ++ [WExit; WClosed].
Definition late_at := Eval vm_compute in default w0 (wruns wcase_cfg wcase_ops w0 late_run1).
Definition late_mid := Eval vm_compute in default w0 (wrun wcase_cfg wcase_ops late_at WResync).
Definition late_end := Eval vm_compute in default w0 (wruns wcase_cfg wcase_ops late_mid late_run2).
Lemma late_runs : reach (wstep wcase_cfg wcase_ops) w0 late_run1 late_at ∧ wstep wcase_cfg wcase_ops late_at WResync late_mid ∧ w_calls late_mid = w_calls late_at ++ [CResync false] ∧
  reach (wstep wcase_cfg wcase_ops) late_mid late_run2 late_end ∧ w_calls late_end = w_calls late_mid ++ [CAdd (2, 4) true] ∧ w_pc late_end = PReturned.
Proof. split; [apply wruns_reach; vm_compute; reflexivity|]. split; [vm_compute; reflexivity|]. split; [done|]. split; [apply wruns_reach; vm_compute; reflexivity|]. done. Qed.

(** the stream raises *)
Definition raise_run : list (wlabel (nat * nat)) := [WWatch true] ++ run_n 3 ++ [WRead [Event EvAdded (2, 4)] SRaise] ++ run_n 4 ++ [WStored] ++ run_n 1.
Definition raise_end := Eval vm_compute in default w0 (wruns wcase_cfg wcase_ops w0 raise_run).
Lemma raise_runs : reach (wstep wcase_cfg wcase_ops) w0 raise_run raise_end ∧ w_ready raise_end = [] ∧ w_pc raise_end = PWait ∧ w_reader raise_end = RdOver.
Proof. split; [apply wruns_reach; vm_compute; reflexivity|]. done. Qed.
Definition calm_ops : sops (nat * nat) nat (list (nat * nat)) := Sops (λ _ l _, (l, true)) (λ s o, (s ++ [o], true)) (λ s o, (s ++ [o], true)) (λ s _, (s, true)) (λ s, (s, true)).
Lemma raise_refuted : ∃ ls s, reach (wstep wcase_cfg calm_ops) w0 ls s ∧
  ∀ ls2 s2, reach (wstep wcase_cfg calm_ops) s ls2 s2 → WCancel ∉ ls2 → w_pc s2 = PWait ∧ ∃ cs, w_calls s2 = w_calls s ++ cs ∧ Forall (λ c, c = CResync true) cs.
Proof.
  exists raise_run, raise_end. split; [apply wruns_reach; vm_compute; reflexivity|]. intros ls2 s2 Hr Hn.
  assert (∀ ls s, reach (wstep wcase_cfg calm_ops) raise_end ls s → WCancel ∉ ls → CResync false ∉ w_calls s) as Hok.
  { clear. intros ls s Hr. induction Hr as [|ls s1 l s2 Hr IH Hs]; intros Hn; [change (w_calls raise_end) with [CWatch (O := nat * nat) (Some 3); CAdd (2, 4) true]; rewrite !elem_of_cons, elem_of_nil; by intros [?|[?|?]]|].
    rewrite not_elem_of_app, elem_of_list_singleton in Hn. destruct Hn as [Hn1 Hn2]. specialize (IH Hn1).
    destruct (hangs wcase_cfg calm_ops raise_end ls s1 eq_refl eq_refl eq_refl Hr Hn1) as (cs & Hcs & Hin). rewrite Hcs, not_elem_of_app in IH.
    destruct (Hin ltac:(tauto)) as (Hf & Hrd1 & Hpc1 & Hre1). unfold wstep, wrun in Hs. rewrite Hrd1, Hpc1, Hre1 in Hs. destruct l as [short|[]|es f| | | | |]; try done.
    destruct (w_resync s1); [|done]. simpl in Hs. injection Hs as <-. simpl. rewrite Hcs, !not_elem_of_app. split; [tauto|]. by rewrite elem_of_list_singleton. }
  destruct (hangs wcase_cfg calm_ops raise_end ls2 s2 eq_refl eq_refl eq_refl Hr Hn) as (cs & Hcs & Hin). pose proof (Hok _ _ Hr Hn) as Hno. rewrite Hcs, not_elem_of_app in Hno.
  destruct (Hin ltac:(tauto)) as (Hf & _ & Hpc & _). split; [done|]. by exists cs.
Qed.
