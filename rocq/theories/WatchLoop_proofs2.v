(** The invariant is kept by every transition; the loop is never stuck; what holds at rest. *)
From Verif Require Import Base Reflector_model WatchLoop_model WatchLoop_proofs.

Section loop.
  Context {O RV St : Type} (g : rcfg O RV) (q : sops O RV St).
  Implicit Types (s : wstate O RV St) (r : refl RV).
  Ltac explode s := destruct s as [pc rd wn fi ca re k ev er eq rs ct la op st pu se cs]; unfold in_wait in *; simpl in *.

  (** the loop can always run what is ready *)
  Lemma Inv_run short s h hs : Inv s → w_ready s = h :: hs → ∃ s', wstep g q s (WRun short) s' ∧ Inv s'.
  Proof.
    intros HI Hrd. unfold wstep, wrun. rewrite Hrd. destruct h as [| | |n|].
    - eexists. split; [done|]. by apply Inv_reader.
    - eexists. split; [done|]. by apply Inv_event.
    - eexists. split; [done|]. by apply Inv_error.
    - eexists. split; [done|]. by apply Inv_done.
    - by apply Inv_handler.
  Qed.

  Lemma Inv_leave p s : Inv s → in_wait s = false → (p = PReady ∨ p = PReturned ∨ p = PCancelled) →
    is_over (w_event s) = true → is_over (w_error s) = true → w_reader s = RdOver → Inv (leave p s).
  Proof.
    intros [He Hx Hh Hf Hw Hpe Hpx Hr Hz Hp] Hw0 Hpp Ho1 Ho2 Ho3. explode s. rewrite Hw0 in Hh, Hf.
    destruct Hpp as [->|[->| ->]]; split; done.
  Qed.

  Lemma Inv_step s l s' : Inv s → wstep g q s l s' → Inv s'.
  Proof.
    intros HI Hs. destruct l as [short|ok|es f| | | | |].
    - destruct (w_ready s) as [|h hs] eqn:Hrd; [unfold wstep, wrun in Hs; by rewrite Hrd in Hs|].
      destruct (Inv_run short s h hs HI Hrd) as (s2 & Hs2 & H2). unfold wstep in *. rewrite Hs in Hs2. by injection Hs2 as ->.
    - pose proof HI as [He Hx Hh Hf Hw Hpe Hpx Hr Hz Hp]. unfold wstep, wrun in Hs. explode s. destruct ok, pc; try done; injection Hs as <-.
      + destruct Hp as (Hp1 & Hp2 & ->). rewrite over_sched in He by done. rewrite over_sched in Hx by done. simpl in *.
        apply Inv_begin_wait; simpl; try done.
        * rewrite countb_app, !countb_cons, countb_nil. simpl. lia.
        * rewrite countb_app, !countb_cons, countb_nil. simpl. lia.
        * rewrite countb_app, !countb_cons, countb_nil. simpl. lia.
        * intros n. rewrite elem_of_app, !elem_of_cons, elem_of_nil. intros [?|[[=]|[[=]|[]]]]. by apply Hw.
        * rewrite elem_of_app, elem_of_cons. right. by left.
        * intros Hz1. split; [|done]. by destruct (Hz Hz1).
      + destruct Hp as (Hp1 & Hp2 & ->). split; simpl; done.
    - pose proof HI as [He Hx Hh Hf Hw Hpe Hpx Hr Hz Hp]. unfold wstep, wrun in Hs. explode s.
      destruct re; try (by destruct pc). assert (pc = PWait ∨ ∃ e rv, pc = PStore e rv) as Hpc.
      { destruct pc; first [by left|by right; eauto|by destruct Hp as (_ & _ & [=])|by destruct Hp as (_ & _ & [[=]|[=]])]. }
      assert (Hs' : s' = push [HRead] (set_reader (RdHave es f) (W pc rd wn fi ca RdRead k ev er eq rs ct la op st pu se cs))) by (by destruct pc; injection Hs).
      clear Hs. subst s'. split; unfold in_wait; simpl; try done; try (rewrite countb_app, countb_cons, countb_nil; simpl; lia).
      + intros n. rewrite elem_of_app, elem_of_cons, elem_of_nil. intros [?|[[=]|[]]]. by apply Hw.
      + rewrite elem_of_app, elem_of_cons. right. by left.
      + destruct Hpc as [->|(e & rv & ->)]; [|done]. destruct Hp as (? & ? & Hp). split; [done|]. split; [done|]. destruct fi; [done|].
        destruct Hp as [? Hp]. split; [done|]. rewrite <-Hp, elem_of_app, elem_of_cons, elem_of_nil. split; [intros [?|[[=]|[]]]; done|auto].
    - pose proof HI as [He Hx Hh Hf Hw Hpe Hpx Hr Hz Hp]. unfold wstep, wrun in Hs. explode s.
      destruct re; try (by destruct pc).
      assert (Hs' : s' = set_reader RdOver (W pc rd wn fi ca RdExit k ev er eq rs ct la op st pu se cs)) by (by destruct pc; injection Hs).
      clear Hs. subst s'. split; unfold in_wait; simpl; try done. destruct pc; try done; try (by destruct Hp as (_ & _ & [=])). split; [tauto|]. split; [tauto|]. by right.
    - pose proof HI as [He Hx Hh Hf Hw Hpe Hpx Hr Hz Hp]. unfold wstep, wrun in Hs. explode s. destruct pc as [| |e rv| | |]; try done.
      destruct (apply_event q e st) as [x cs1]. injection Hs as <-. destruct Hp as (Hp1 & Hp2). rewrite over_sched in He by done.
      by apply Inv_begin_wait.
    - pose proof HI as [He Hx Hh Hf Hw Hpe Hpx Hr Hz Hp]. unfold wstep, wrun in Hs. explode s.
      assert (pc ≠ PReturned ∧ pc ≠ PCancelled) as [Hn1 Hn2] by (by destruct pc). destruct rs; [|by destruct pc].
      destruct (so_resync q st) as [x ok].
      assert (Hs' : s' = if ok then set_store x [CResync ok] (W pc rd wn fi ca re k ev er eq true ct la op st pu se cs)
        else push (roused HError er) (set_error (wake_get er) true (set_resync false (set_store x [CResync ok] (W pc rd wn fi ca re k ev er eq true ct la op st pu se cs)))))
        by (destruct pc; try done; by injection Hs). clear Hs. subst s'.
      destruct ok; [split; done|]. split; unfold in_wait; simpl; try done.
      + rewrite countb_app, roused_count. simpl. lia.
      + rewrite countb_app, roused_count, <-wake_sched with (h := HError). simpl. lia.
      + rewrite countb_app, roused_count. simpl. lia.
      + intros n. rewrite elem_of_app. intros [?|Hn%roused_elem]; [by apply Hw|done].
      + by destruct er as [?|[|?|]|?|].
      + destruct re; try done; rewrite elem_of_app; by left.
      + destruct pc; try done; rewrite ?wake_live, ?wake_over; try done.
        * destruct Hp as (? & ? & Hp). split; [done|]. split; [done|]. destruct fi; [done|]. destruct Hp as [? Hp]. split; [done|].
          rewrite <-Hp, elem_of_app. split; [intros [?|Hn%roused_elem]; done|auto].
        * destruct Hp as (? & ? & ?). by rewrite wake_quit.
    - unfold wstep, wrun in Hs. destruct (w_pc s) as [| | |why| |] eqn:Hpc; try done. destruct (w_reader s) eqn:Hre; try done.
      destruct (is_over (w_event s) && is_over (w_error s)) eqn:Ho; [|done]. apply andb_true_iff in Ho as [Ho1 Ho2]. injection Hs as <-.
      apply Inv_leave; try done; [unfold in_wait; by rewrite Hpc|].
      destruct why; simpl; auto. destruct (short && _); auto.
    - pose proof HI as [He Hx Hh Hf Hw Hpe Hpx Hr Hz Hp]. unfold wstep, wrun in Hs. destruct (w_pc s) as [| |e rv|why| |] eqn:Hpc; try done; injection Hs as <-.
      + destruct Hp as (? & ? & ?). apply Inv_leave; auto. unfold in_wait. by rewrite Hpc.
      + explode s. subst pc. destruct Hp as (Hp1 & Hp2 & Hp). destruct fi; simpl in *.
        * split; unfold in_wait; simpl; try done. split; [done|]. split; [done|]. by left.
        * split; unfold in_wait; simpl; try done; try (rewrite countb_app, countb_cons, countb_nil; simpl; lia).
          -- intros n. rewrite elem_of_app, elem_of_cons, elem_of_nil. intros [?|[[=]|[]]]. by apply Hw.
          -- destruct re; try done; rewrite elem_of_app; by left.
          -- split; [done|]. split; [done|]. by left.
      + apply Inv_close; eauto; unfold in_wait in *; by rewrite Hpc in *.
      + explode s. subst pc. by split.
  Qed.

  Lemma Inv_reach rv x ls s : reach (wstep g q) (w_init rv x) ls s → Inv s.
  Proof. apply (reach_inv (wstep g q) Inv); [intros s1 l s2; apply Inv_step|apply Inv_init]. Qed.

  (** with nothing ready, the handler that waits has looked at everything *)
  Lemma rest s : Inv s → w_ready s = [] →
    match w_pc s with
    | PWait => w_queue s = [] ∧ w_errq s = false ∧ w_error s = GWait WPending ∧ w_event s = GWait WPending ∧ (∀ es f, w_reader s ≠ RdHave es f) ∧ w_cancel s = false
    | PClosing _ => is_over (w_event s) = true ∧ is_over (w_error s) = true
    | _ => True
    end.
  Proof.
    intros [He Hx Hh Hf Hw Hpe Hpx Hr Hz Hp] Hrd. explode s. subst rd. rewrite countb_nil in *. destruct pc; try done.
    - destruct Hp as (Hp1 & Hp2 & Hp3). destruct fi; [done|]. destruct Hp3 as [-> Hp3].
      assert (is_over ev || is_over er = false) as Ho. { apply not_true_is_false. intros Hc. by apply Hp3, elem_of_nil in Hc. }
      apply orb_false_iff in Ho as [Ho1 Ho2].
      assert (ev = GWait WPending) as -> by (by destruct ev as [[]|[|[]|]|?|]). assert (er = GWait WPending) as -> by (by destruct er as [[]|[|[]|]|?|]).
      split; [auto|]. split; [auto|]. split; [done|]. split; [done|]. split; [|done]. intros es f ->. by apply elem_of_nil in Hr.
    - destruct Hp as (Hp1 & Hp2 & _). split; [by destruct ev as [[]|[|[]|]|?|]|by destruct er as [[]|[|[]|]|?|]].
  Qed.
End loop.
