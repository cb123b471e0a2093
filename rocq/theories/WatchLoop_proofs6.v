(** Unless its stream raised, a watch at rest is being read. *)
From Verif Require Import Base Reflector_model WatchLoop_model WatchLoop_spec WatchLoop_proofs WatchLoop_proofs2 WatchLoop_proofs3 WatchLoop_proofs4 WatchLoop_proofs5.

Section loop.
  Context {O RV St : Type} (g : rcfg O RV) (q : sops O RV St).
  Implicit Types (s : wstate O RV St) (ls : list (wlabel O)).

  Definition Rd (ra : bool) (re : reader O) (l : list (option (event O))) : Prop :=
    match re with RdNew | RdRead => True | RdHave _ f => f = SRaise → ra = true | RdExit => False | RdOver => ra = true ∨ None ∈ l end.
  Definition Alive ls s : Prop :=
    match w_pc s with
    | PWait => Rd (raised ls) (w_reader s) (taken (w_event s) ++ w_queue s)
    | PStore _ _ => Rd (raised ls) (w_reader s) (w_queue s)
    | _ => True
    end.
  Lemma raised_snoc ls l : raised (ls ++ [l]) = match l with WWatch true => false | WRead _ SRaise => true | _ => raised ls end.
  Proof. unfold raised. rewrite foldl_app. simpl. by destruct l as [|[]|es []| | | | |]. Qed.

  Lemma Alive_step ls s l s' : Inv s → Alive ls s → wstep g q s l s' → Alive (ls ++ [l]) s'.
  Proof.
    intros HI HA Hs. unfold Alive. rewrite raised_snoc. unfold Alive in HA.
    assert (∀ s2 : wstate O RV St, w_pc s2 = w_pc s → w_reader s2 = w_reader s → w_queue s2 = w_queue s → w_event s2 = w_event s →
      match w_pc s2 with PWait => Rd (raised ls) (w_reader s2) (taken (w_event s2) ++ w_queue s2) | PStore _ _ => Rd (raised ls) (w_reader s2) (w_queue s2) | _ => True end) as Hsame.
    { intros s2 E1 E2 E3 E4. rewrite E1, E2, E3, E4. done. }
    unfold wstep, wrun in Hs. destruct l as [short|ok|es f| | | | |].
    - destruct (w_ready s) as [|h hs]; [done|]. destruct h as [| | |n|].
      + injection Hs as <-. unfold run_reader; simpl. destruct (w_reader s) as [| |es f| |] eqn:Hre; simpl; rewrite ?Hre; try done.
        assert (∀ l : list (option (event O)), Rd (raised ls) (RdHave es f) l →
          Rd (raised ls) (match f with SMore => RdRead | _ => RdOver end) (l ++ (Some <$> es) ++ match f with SEnd => [None] | _ => [] end)) as Hmore.
        { intros l Hl. destruct f; simpl in *; [done|right; rewrite !elem_of_app, elem_of_list_singleton; auto|left; auto]. }
        destruct ((Some <$> es) ++ match f with SEnd => [None] | _ => [] end) as [|i0 items0] eqn:Hit; simpl; destruct (w_pc s); try done.
        * specialize (Hmore _ HA). by rewrite app_nil_r in Hmore.
        * specialize (Hmore _ HA). by rewrite app_nil_r in Hmore.
        * specialize (Hmore _ HA). rewrite <-app_assoc in Hmore. by destruct (w_event s) as [?|[|?|]|?|].
        * exact (Hmore _ HA).
      + injection Hs as <-. assert (∀ e rv0, w_pc s = PStore e rv0 → is_over (w_event s) = true) as Ho by (intros e rv0 Hpc; destruct HI as [_ _ _ _ _ _ _ _ _ Hp]; rewrite Hpc in Hp; by destruct Hp).
        unfold run_event; simpl. destruct (w_event s) as [[]|[|[]|]|?|] eqn:Hev; simpl in *; rewrite ?Hev; try done.
        all: destruct (w_queue s) eqn:Hk; simpl in *; rewrite ?Hk; destruct (w_pc s) as [| |e rv0| | |]; try done; by specialize (Ho e rv0 eq_refl).
      + injection Hs as <-. unfold run_error; simpl. destruct (w_error s) as [[]|[|[]|]|?|]; try done; by destruct (w_errq s).
      + injection Hs as <-. by destruct ((n =? w_wait s) && negb (w_fired s)).
      + unfold run_handler in Hs. simpl in Hs. destruct (w_pc s) eqn:Hpc; try (injection Hs as <-; simpl; by rewrite Hpc).
        destruct (w_cancel s); [by injection Hs as <-|].
        assert (∀ e, w_event s = GDone (Some e) → Rd (raised ls) (w_reader s) (w_queue s)) as Hq.
        { intros e Hev. rewrite Hev in HA. simpl in HA. destruct (w_reader s); try done. simpl in *. rewrite elem_of_cons in HA. destruct HA as [?|[[=]|?]]; auto. }
        destruct (w_error s) as [?|?|?|]; try (by injection Hs as <-); destruct (w_event s) as [?|?|[e|]|]; try done; try (by injection Hs as <-); specialize (Hq e eq_refl).
        all: destruct (classify g e) as [| |rv0]; injection Hs as <-; try done; destruct (stores _); done.
    - destruct (w_pc s); try (by destruct ok). by destruct ok; injection Hs as <-.
    - destruct (w_reader s); try (by destruct (w_pc s)). assert (Hs2 : s' = push [HRead] (set_reader (RdHave es f) s)) by (by destruct (w_pc s); injection Hs). subst s'. simpl.
      destruct (w_pc s); try done; simpl; by intros ->.
    - destruct (w_reader s); try (by destruct (w_pc s)). assert (Hs2 : s' = set_reader RdOver s) by (by destruct (w_pc s); injection Hs). subst s'. simpl. by destruct (w_pc s).
    - destruct (w_pc s) as [| |e rv0| | |]; try done. destruct (apply_event q e (w_store s)). by injection Hs as <-.
    - destruct (w_resync s); [|by destruct (w_pc s)]. destruct (so_resync q (w_store s)) as [x2 ok].
      assert (Hs2 : s' = if ok then set_store x2 [CResync ok] s else push (roused HError (w_error s)) (set_error (wake_get (w_error s)) true (set_resync false (set_store x2 [CResync ok] s))))
        by (destruct (w_pc s); try done; by injection Hs). destruct ok; subst s'; by apply Hsame.
    - destruct (w_pc s) as [| | |why| |]; try done. destruct (w_reader s); try done. destruct (is_over (w_event s) && is_over (w_error s)); [|done]. injection Hs as <-.
      unfold leave, after_close. destruct why as [| | | |?|[]| |?| | |]; try done. simpl. by destruct (w_count s =? 0).
    - destruct (w_pc s) as [| |e rv0|why| |] eqn:Hpc; try done; injection Hs as <-; try done. destruct (w_fired s); simpl; by rewrite Hpc.
  Qed.
  Lemma Alive_reach rv x ls s : reach (wstep g q) (w_init rv x) ls s → Alive ls s.
  Proof. induction 1 as [|ls s1 l s2 Hr IH Hs]; [done|]. eapply Alive_step; [by eapply Inv_reach|done|done]. Qed.

  Lemma rest_alive rv x ls s : reach (wstep g q) (w_init rv x) ls s → w_ready s = [] → w_pc s = PWait →
    w_seen s = reads ls ∧ w_errq s = false ∧ w_cancel s = false ∧ (w_reader s = RdRead ∨ w_reader s = RdOver ∧ raised ls = true).
  Proof.
    intros Hr Hrd Hpc. destruct (rest_waiting g q _ _ _ _ Hr Hrd Hpc) as (H1 & H2 & H3). pose proof (rest s (Inv_reach g q _ _ _ _ Hr) Hrd) as Hre. rewrite Hpc in Hre.
    destruct Hre as (Hk & _ & _ & Hev & _ & Hca). split; [done|]. split; [done|]. split; [done|]. destruct H3 as [?|Ho]; [by left|]. right. split; [done|].
    pose proof (Alive_reach _ _ _ _ Hr) as HA. unfold Alive in HA. rewrite Hpc, Ho, Hk, Hev in HA. simpl in HA. destruct HA as [?|HA]; [done|]. by apply elem_of_nil in HA.
  Qed.
End loop.
