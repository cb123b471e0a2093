(** Whatever the loop, the store and the streams that are left still owe, it is bounded; and what is left when all of it was done. *)
From Verif Require Import Base Reflector_model WatchLoop_model WatchLoop_spec WatchLoop_proofs WatchLoop_proofs2 WatchLoop_proofs3 WatchLoop_proofs4 WatchLoop_proofs5.

Section loop.
  Context {O RV St : Type} (g : rcfg O RV) (q : sops O RV St).
  Implicit Types s : wstate O RV St.

  Definition items (x : reader O) : nat := match x with RdHave es _ => length es + 1 | _ => 0 end.
  Definition leaving (x : reader O) : nat := match x with RdExit => 1 | _ => 0 end.
  Definition got (x : gtask (option (event O))) : nat := match x with GDone _ => 60 | _ => 0 end.
  Definition stage (p : wpc O RV) (x : gtask (option (event O))) : nat := match p with PWait => got x | PStore _ _ => 55 | PClosing _ => 2 | _ => 0 end.
  Definition bonus s : nat := 60 * (length (w_queue s) + items (w_reader s)) + leaving (w_reader s) + stage (w_pc s) (w_event s).
  Definition owed s : nat := 10 * weight s + bonus s.

  Lemma bonus_close why s : bonus (close why s) ≤ bonus s + 3.
  Proof. unfold bonus; simpl. destruct (w_reader s); simpl; lia. Qed.
  Lemma bonus_wait s : bonus (begin_wait s) = 60 * (length (w_queue s) + items (w_reader s)) + leaving (w_reader s).
  Proof. unfold bonus; simpl. lia. Qed.

  Lemma run_bonus short s s' : Inv s → wstep g q s (WRun short) s' → bonus s' ≤ bonus s + 3.
  Proof.
    intros HI Hs. unfold wstep, wrun in Hs. destruct (w_ready s) as [|h hs] eqn:Hrd; [done|].
    destruct h as [| | |n|].
    - injection Hs as <-. unfold run_reader. simpl. destruct (w_reader s) as [| |es f| |] eqn:Hre; try (unfold bonus; simpl; rewrite ?Hre; simpl; lia).
      assert (length ((Some <$> es) ++ match f with SEnd => [None] | _ => [] end) ≤ length es + 1) as Hlen by (rewrite app_length, fmap_length; by destruct f; simpl; lia).
      assert (stage (w_pc s) (wake_get (w_event s)) = stage (w_pc s) (w_event s)) as Hst by (destruct (w_pc s); try done; by destruct (w_event s) as [?|[|?|]|?|]).
      destruct ((Some <$> es) ++ match f with SEnd => [None] | _ => [] end) as [|i0 items0]; unfold bonus; simpl; rewrite ?Hre, ?Hst, ?app_length; simpl in *; destruct f; simpl; lia.
    - injection Hs as <-. unfold run_event. simpl.
      destruct (w_event s) as [[]|[|[]|]|?|] eqn:He; try (unfold bonus; simpl; rewrite ?He; destruct (w_pc s); simpl; lia).
      all: destruct (w_queue s) eqn:Hk; unfold bonus; simpl; rewrite ?He, ?Hk; simpl; destruct (w_pc s); simpl; lia.
    - injection Hs as <-. unfold run_error. simpl. destruct (w_error s) as [[]|[|[]|]|?|]; try (destruct (w_errq s)); unfold bonus; simpl; lia.
    - injection Hs as <-. destruct (_ && _); unfold bonus; simpl; lia.
    - destruct (Inv_pop_handler _ _ HI Hrd) as (Hpc & Hfi & Hh0 & Hov).
      unfold run_handler in Hs. simpl in Hs. rewrite Hpc in Hs. set (s1 := set_ready hs s) in *.
      assert (bonus s1 = bonus s) as Hb by done. 
      destruct (w_cancel s); [injection Hs as <-; rewrite <-Hb; by apply bonus_close|].
      destruct (w_error s) as [b|f|[]|] eqn:Her.
      3: injection Hs as <-; rewrite <-Hb; by apply bonus_close.
      all: destruct (w_event s) as [?|?|[e|]|] eqn:Hev; try done; try (injection Hs as <-; rewrite <-Hb; by apply bonus_close).
      all: destruct (classify g e) as [| |rv]; [injection Hs as <-; etransitivity; [apply bonus_close|unfold bonus; simpl; lia]|injection Hs as <-; rewrite bonus_wait; unfold bonus; simpl; lia|].
      all: destruct (stores (e_type e)); injection Hs as <-; [unfold bonus; simpl; rewrite Hpc, Hev; simpl; lia|rewrite bonus_wait; unfold bonus; simpl; lia].
  Qed.

  Lemma own_lowers s l s' : Inv s → inside l = true → wstep g q s l s' → owed s' < owed s.
  Proof.
    intros HI Hl Hs. destruct l as [short|ok|es f| | | | |]; try done.
    - pose proof (run_lowers g q _ _ _ HI Hs). pose proof (run_bonus _ _ _ HI Hs). unfold owed. lia.
    - unfold wstep, wrun in Hs. destruct (w_reader s) eqn:E; try (by destruct (w_pc s)). assert (Hs' : s' = set_reader RdOver s) by (by destruct (w_pc s); injection Hs). subst s'.
      unfold owed, weight, bonus. simpl. rewrite E. simpl. lia.
    - unfold wstep, wrun in Hs. destruct (w_pc s) as [| |e rv| | |] eqn:Hpc; try done. destruct (apply_event q e (w_store s)) as [x cs]. injection Hs as <-.
      unfold owed. rewrite bonus_wait. unfold weight, bonus. rewrite Hpc. simpl. rewrite wsum_app. simpl. destruct (is_over (w_error s)); simpl; lia.
    - unfold wstep, wrun in Hs. destruct (w_pc s) as [| | |why| |] eqn:Hpc; try done. destruct (w_reader s) eqn:E1; try done. destruct (is_over (w_event s) && is_over (w_error s)) eqn:E2; [|done]. injection Hs as <-.
      apply andb_true_iff in E2 as [E2 E3]. unfold owed, weight, bonus, leave. rewrite Hpc. destruct (after_close why s) eqn:Ea; simpl; rewrite ?E1, ?E3; simpl; try lia; unfold after_close in Ea; destruct why as [| | | | | | | | | |]; try done; by destruct (_ && _).
  Qed.
  Lemma own_bounded s ls s' : Inv s → reach (wstep g q) s ls s' → (∀ l, l ∈ ls → inside l = true) → length ls + owed s' ≤ owed s.
  Proof.
    intros HI Hr. induction Hr as [|ls s1 l s2 Hr IH Hs]; intros Hall; [simpl; lia|].
    assert (Inv s1) as HI1 by (revert Hr; apply (reach_inv (wstep g q) Inv); [intros ???; apply Inv_step|done]).
    rewrite app_length. simpl. assert (inside l = true) as Hl by (apply Hall; apply elem_of_app; right; left).
    pose proof (own_lowers _ _ _ HI1 Hl Hs). assert (length ls + owed s1 ≤ owed s); [|lia]. apply IH. intros l1 Hl1. apply Hall. apply elem_of_app. by left.
  Qed.
  Lemma all_settles rv x ls s : reach (wstep g q) (w_init rv x) ls s → ∃ n, ∀ ls2 s2, reach (wstep g q) s ls2 s2 → (∀ l, l ∈ ls2 → inside l = true) → length ls2 ≤ n.
  Proof. intros Hr. exists (owed s). intros ls2 s2 Hr2 Hall. pose proof (own_bounded s ls2 s2 (Inv_reach g q _ _ _ _ Hr) Hr2 Hall). lia. Qed.

  (** when nothing of it is possible, the handler waits or the watch is over *)
  Lemma settled rv x ls s : reach (wstep g q) (w_init rv x) ls s → (∀ l s', inside l = true → ¬ wstep g q s l s') → w_ready s = [] ∧ (w_pc s = PWait ∨ between (w_pc s)).
  Proof.
    intros Hr Hn. assert (w_ready s = []) as Hrd.
    { destruct (w_ready s) as [|h hs] eqn:Hrd; [done|]. destruct (can_run g q rv x ls s false Hr) as [s' Hs]; [by rewrite Hrd|]. by destruct (Hn (WRun false) s'). }
    split; [done|]. destruct (w_pc s) as [| |e rv0|why| |] eqn:Hpc; unfold between; auto.
    - exfalso. destruct (apply_event q e (w_store s)) as [x0 cs] eqn:E. eapply (Hn WStored); [done|]. unfold wstep, wrun. rewrite Hpc, E. done.
    - exfalso. destruct (rest_closing g q rv x ls s why Hr Hrd Hpc) as [Hre|[s' Hs]]; [|by eapply (Hn WClosed)].
      eapply (Hn WExit); [done|]. unfold wstep, wrun. by rewrite ?Hpc, Hre.
  Qed.
End loop.
