(** The resync task goes on over all watches of a list. *)
From Verif Require Import Base Reflector_model WatchLoop_model.

Section loop.
  Context {O RV St : Type} (g : rcfg O RV) (q : sops O RV St).
  Implicit Types s : wstate O RV St.

  Definition ended (p : wpc O RV) : Prop := p = PReturned ∨ p = PCancelled.
  Definition Ticks s : Prop := w_resync s = true ∨ CResync false ∈ w_calls s ∨ ended (w_pc s).
  Lemma Ticks_step s l s' : Ticks s → wstep g q s l s' → Ticks s'.
  Proof.
    intros HT Hs.
    assert (∀ s2, w_resync s2 = w_resync s → w_calls s2 = w_calls s → (ended (w_pc s) → ended (w_pc s2)) → Ticks s2) as Hk.
    { intros s2 H1 H2 H3. destruct HT as [?|[?|?]]; unfold Ticks; rewrite H1, H2; auto. }
    unfold wstep, wrun in Hs. destruct l as [short|ok|es f| | | | |].
    - destruct (w_ready s) as [|h hs]; [done|]. destruct h as [| | |n|].
      + injection Hs as <-. unfold run_reader; simpl. destruct (w_reader s) as [| |es f| |]; try (by apply Hk). by destruct ((Some <$> es) ++ _); apply Hk.
      + injection Hs as <-. unfold run_event; simpl. destruct (w_event s) as [[]|[|[]|]|?|]; try (by apply Hk); by destruct (w_queue s); apply Hk.
      + injection Hs as <-. unfold run_error; simpl. destruct (w_error s) as [[]|[|[]|]|?|]; try (by apply Hk); by destruct (w_errq s); apply Hk.
      + injection Hs as <-. by destruct ((n =? w_wait s) && negb (w_fired s)); apply Hk.
      + unfold run_handler in Hs. simpl in Hs. destruct (w_pc s) eqn:Hpc; try (by injection Hs as <-; apply Hk; simpl; rewrite ?Hpc).
        assert (∀ s2, w_resync s2 = w_resync s → w_calls s2 = w_calls s → Ticks s2) as Hk2 by (intros s2 H1 H2; apply Hk; [done|done|by intros [?|?]]).
        destruct (w_cancel s); [injection Hs as <-; by apply Hk2|].
        destruct (w_error s) as [?|?|?|]; try (by injection Hs as <-; apply Hk2); destruct (w_event s) as [?|?|[e|]|]; try done; try (by injection Hs as <-; apply Hk2).
        all: destruct (classify g e) as [| |rv0]; injection Hs as <-; try (by apply Hk2); by destruct (stores _); apply Hk2.
    - destruct (w_pc s) eqn:Hpc; try (by destruct ok). destruct ok; injection Hs as <-; [|right; right; by left].
      destruct HT as [?|[?|[?|?]]]; [by left| |congruence|congruence]. right. left. simpl. apply elem_of_app. by left.
    - destruct (w_reader s); try (by destruct (w_pc s)). assert (Hs2 : s' = push [HRead] (set_reader (RdHave es f) s)) by (by destruct (w_pc s); injection Hs). subst s'. by apply Hk.
    - destruct (w_reader s); try (by destruct (w_pc s)). assert (Hs2 : s' = set_reader RdOver s) by (by destruct (w_pc s); injection Hs). subst s'. by apply Hk.
    - destruct (w_pc s) as [| |e rv0| | |] eqn:Hpc; try done. destruct (apply_event q e (w_store s)) as [x2 cs]. injection Hs as <-.
      destruct HT as [?|[?|[?|?]]]; [by left| |congruence|congruence]. right. left. simpl. apply elem_of_app. by left.
    - destruct (w_resync s) eqn:Hrs; [|by destruct (w_pc s)]. destruct (so_resync q (w_store s)) as [x2 ok].
      assert (Hs2 : s' = if ok then set_store x2 [CResync ok] s else push (roused HError (w_error s)) (set_error (wake_get (w_error s)) true (set_resync false (set_store x2 [CResync ok] s))))
        by (destruct (w_pc s); try done; by injection Hs). destruct ok; subst s'; [by left|]. right. left. simpl. apply elem_of_app. right. left.
    - destruct (w_pc s) as [| | |why| |] eqn:Hpc; try done. destruct (w_reader s); try done. destruct (is_over (w_event s) && is_over (w_error s)); [|done]. injection Hs as <-.
      unfold leave. destruct (after_close why s) eqn:Ea.
      2-4: exfalso; unfold after_close in Ea; destruct why as [| | | | | | | | | |]; try done; by destruct (_ && _).
      + apply Hk; try done. by intros [?|?].
      + right; right; by left.
      + right; right; by right.
    - destruct (w_pc s) eqn:Hpc; try done; injection Hs as <-.
      + right; right; by right.
      + apply Hk; [by destruct (w_fired s)|by destruct (w_fired s)|by intros [?|?]].
      + apply Hk; try done. by intros [?|?].
      + apply Hk; try done. by intros [?|?].
  Qed.
  Lemma ticks rv x ls s : reach (wstep g q) (w_init rv x) ls s → CResync false ∉ w_calls s → w_pc s ≠ PReturned → w_pc s ≠ PCancelled → ∃ s', wstep g q s WResync s'.
  Proof.
    intros Hr Hn H1 H2. assert (Ticks s) as [Hrs|[?|[?|?]]]; [|clear Hn|done|done|done].
    - revert Hr. apply (reach_inv (wstep g q) Ticks); [|by left]. intros ???. apply Ticks_step.
    - unfold wstep, wrun. rewrite Hrs. destruct (so_resync q (w_store s)) as [x2 ok]. destruct (w_pc s); try done; by eexists.
  Qed.
End loop.
