(** Events in order, at most one call after a failed resync, and the tasks come to rest. *)
From Verif Require Import Base Reflector_model WatchLoop_model WatchLoop_spec WatchLoop_proofs WatchLoop_proofs2 WatchLoop_proofs3.

Section loop.
  Context {O RV St : Type} (g : rcfg O RV) (q : sops O RV St).
  Implicit Types (s : wstate O RV St) (r : refl RV) (ls : list (wlabel O)).
  Ltac explode s := destruct s as [pc rd wn fi ca re k ev er eq rs ct la op st pu se cs]; unfold in_wait in *; simpl in *.

  (** ** Order *)
  Definition taken {A} (x : gtask A) : list A := match x with GDone a => [a] | _ => [] end.
  Definition queued (l : list (option (event O))) (re : reader O) (pu se : list (event O)) : Prop :=
    ∃ rest tl, l = (Some <$> rest) ++ tl ∧ pu = se ++ rest ∧ (tl = [] ∨ tl = [None] ∧ re = RdOver).
  Definition to_put (re : reader O) : list (event O) := match re with RdHave es _ => es | _ => [] end.
  Definition Ord ls s : Prop :=
    match w_pc s with
    | PReady => w_seen s = reads ls
    | PWait => queued (taken (w_event s) ++ w_queue s) (w_reader s) (w_put s) (w_seen s) ∧ reads ls = w_put s ++ to_put (w_reader s)
    | PStore _ _ => queued (w_queue s) (w_reader s) (w_put s) (w_seen s) ∧ reads ls = w_put s ++ to_put (w_reader s)
    | PClosing (IClose _) => w_seen s = reads ls
    | _ => w_seen s `prefix_of` reads ls
    end.

  Lemma reads_snoc ls l : reads (ls ++ [l]) = match l with WWatch true => [] | WRead es _ => reads ls ++ es | _ => reads ls end.
  Proof. unfold reads. rewrite foldl_app. simpl. by destruct l as [|[]|es f| | | | |]. Qed.

  Lemma Ord_prefix ls s : Ord ls s → w_seen s `prefix_of` reads ls.
  Proof.
    unfold Ord. destruct (w_pc s) as [| | |[]| |]; try done; try (by intros ->).
    all: intros [(rest & tl & _ & Hp & _) ->]; rewrite Hp, <-app_assoc; by apply prefix_app_r.
  Qed.

  Lemma Ord_close ls why s : w_seen s `prefix_of` reads ls → (∀ b, why = IClose b → w_seen s = reads ls) → Ord ls (close why s).
  Proof. intros Hp Hc. unfold Ord; simpl. destruct why; try done. by eapply Hc. Qed.

  Lemma queued_more l pu se es f : queued l (RdHave es f) pu se →
    queued (l ++ (Some <$> es) ++ match f with SEnd => [None] | _ => [] end) (match f with SMore => RdRead | _ => RdOver end) (pu ++ es) se.
  Proof.
    intros (rest & tl & -> & -> & [->|[_ [=]]]). exists (rest ++ es), (match f with SEnd => [None] | _ => [] end).
    rewrite fmap_app, app_nil_r, <-!app_assoc. split; [done|]. split; [done|]. destruct f; auto.
  Qed.

  Lemma Ord_step ls s l s' : Inv s → Ord ls s → wstep g q s l s' → Ord (ls ++ [l]) s'.
  Proof.
    intros HI HO Hs. pose proof (Ord_prefix _ _ HO) as Hpre. pose proof HI as [He Hx Hh Hf Hw Hpe Hpx Hr Hz Hp]. unfold wstep in Hs.
    destruct l as [short|ok|es f| | | | |]; unfold wrun in Hs; unfold Ord; rewrite reads_snoc.
    - destruct (w_ready s) as [|h hs] eqn:Hrd; [done|]. destruct h as [| | |n|].
      + injection Hs as <-. unfold Ord in HO. explode s. subst rd. unfold run_reader; simpl. destruct re as [| |es f| |]; simpl; try exact HO.
        { destruct pc; try exact HO; (destruct HO as [(rest & tl & ? & ? & [->|[_ [=]]]) ?]; split; [exists rest, []; auto|done]). }
        assert (pc = PWait ∨ ∃ e rv, pc = PStore e rv) as Hpc.
        { destruct pc; first [by left|by right; eauto|by destruct Hp as (_ & _ & [=])|by destruct Hp as (_ & _ & [[=]|[=]])]. }
        destruct ((Some <$> es) ++ match f with SEnd => [None] | _ => [] end) as [|i0 items0] eqn:Hi.
        * simpl. assert (es = []) as -> by (by destruct es). simpl in Hi. rewrite app_nil_r in *.
          destruct Hpc as [->|(e & rv & ->)]; destruct HO as [HO Hre]; (split; [|by destruct f; simpl; rewrite app_nil_r]).
          all: destruct HO as (rest & tl & ? & ? & [->|[_ [=]]]); exists rest, []; auto.
        * simpl. assert (taken (wake_get ev) = taken ev) as Ht by (by destruct ev as [?|[|?|]|?|]).
          destruct Hpc as [->|(e & rv & ->)]; destruct HO as [HO Hre]; (split; [|by destruct f; simpl; rewrite app_nil_r]).
          all: apply queued_more in HO; rewrite Hi in HO; rewrite ?Ht, ?app_assoc in *; done.
      + injection Hs as <-. unfold Ord in HO. explode s. subst rd. unfold run_event; simpl. rewrite countb_cons in He. simpl in He.
        assert (sched ev = true) as Hs by (destruct (sched ev); simpl in He; [done|lia]).
        assert (pc ≠ PReady ∧ ∀ e rv, pc ≠ PStore e rv) as [Hn1 Hn2].
        { split; [intros ->; destruct Hp as (Hp & _)|intros e rv ->; destruct Hp as [Hp _]]; by rewrite over_sched in Hs. }
        destruct ev as [[]|[|[]|]|?|]; try done; destruct pc; try done; try (by destruct Hp as ([=] & _)); destruct k as [|x k]; simpl; try done.
      + injection Hs as <-. unfold Ord in HO. explode s. subst rd. unfold run_error; simpl.
        destruct er as [[]|[|[]|]|?|]; try done; destruct eq; done.
      + injection Hs as <-. unfold Ord in HO. destruct ((n =? w_wait s) && negb (w_fired s)); exact HO.
      + destruct (Inv_pop_handler _ _ HI Hrd) as (Hpc & Hfi & Hh0 & Hov). unfold Ord in HO. explode s. subst rd pc fi. unfold run_handler in Hs. simpl in Hs.
        destruct ca; [injection Hs as <-; by apply Ord_close|].
        assert (er = GDone tt ∨ er ≠ GDone tt) as [->|Hd] by (destruct er as [?|?|[]|]; auto); [injection Hs as <-; by apply Ord_close|].
        assert (match ev with
          | GDone None => s' = close (IClose short) (W PWait hs wn true false re k ev er eq rs ct la op st pu se cs)
          | GDone (Some e) => let s1 := W PWait hs wn true false re k ev er eq rs ct la op st pu (se ++ [e]) cs in
              s' = match classify g e with KRaise => close (IEvent e) s1 | KSkip => begin_wait s1
                   | KTake rv => if stores (e_type e) then set_pc (PStore e rv) s1 else begin_wait (took rv s1) end
          | _ => False end) as Hs'.
        { destruct er as [?|?|[]|]; try done; destruct ev as [?|?|[e|]|]; try done; by injection Hs as <-. }
        clear Hs. destruct HO as [(rest & tl & Hl & -> & Htl) Hre].
        destruct ev as [?|?|[e|]|]; try done; simpl in Hl.
        * destruct rest as [|e' rest]; [by destruct Htl as [->|[-> _]]|]. simpl in Hl. injection Hl as <- ->.
          assert (se ++ e :: rest = (se ++ [e]) ++ rest) as Hcons by (by rewrite <-app_assoc).
          assert (queued ((Some <$> rest) ++ tl) re (se ++ e :: rest) (se ++ [e])) as Hq by (exists rest, tl; auto).
          cbv zeta in Hs'. destruct (classify g e) as [| |rv]; subst s'.
          -- apply Ord_close; [|done]. simpl. rewrite Hre, Hcons, <-app_assoc. by apply prefix_app_r.
          -- done.
          -- destruct (stores _); done.
        * destruct rest as [|e' rest]; [|done]. destruct Htl as [->|[-> ->]]; [done|]. subst s'. apply Ord_close; [done|]. intros b _. simpl.
          rewrite Hre. simpl. by rewrite !app_nil_r.
    - destruct (w_pc s) eqn:Hpc; try (by destruct ok). destruct ok; injection Hs as <-; simpl.
      + split; [|done]. exists [], []. auto.
      + unfold Ord in HO. rewrite Hpc in HO. by rewrite HO.
    - destruct (w_reader s) eqn:Hre; try (by destruct (w_pc s)).
      assert (Hs' : s' = push [HRead] (set_reader (RdHave es f) s)) by (by destruct (w_pc s); injection Hs). subst s'. simpl. unfold Ord in HO. rewrite Hre in HO.
      destruct (w_pc s) as [| | |why| |]; try (by destruct Hp as (_ & _ & ?)); try (by destruct Hp as (_ & _ & [?|?])).
      all: destruct HO as [(rest & tl & ? & ? & [->|[_ [=]]]) ->]; split; [|simpl; by rewrite app_nil_r]; exists rest, []; auto.
    - destruct (w_reader s) eqn:Hre; try (by destruct (w_pc s)).
      assert (Hs' : s' = set_reader RdOver s) by (by destruct (w_pc s); injection Hs). subst s'. simpl. unfold Ord in HO. rewrite Hre in HO.
      destruct (w_pc s) as [| | |why| |]; try done; (destruct HO as [(rest & tl & ? & ? & [->|[_ [=]]]) ->]; split; [|done]; exists rest, []; auto).
    - destruct (w_pc s) as [| |e rv| | |] eqn:Hpc; try done. unfold Ord in HO. rewrite Hpc in HO.
      destruct (apply_event q e (w_store s)) as [x cs1]. injection Hs as <-. exact HO.
    - destruct (w_resync s); [|by destruct (w_pc s)]. destruct (so_resync q (w_store s)) as [x ok].
      assert (Hs' : s' = if ok then set_store x [CResync ok] s
        else push (roused HError (w_error s)) (set_error (wake_get (w_error s)) true (set_resync false (set_store x [CResync ok] s))))
        by (destruct (w_pc s); try done; by injection Hs). unfold Ord in HO. destruct ok; subst s'; exact HO.
    - destruct (w_pc s) as [| | |why| |] eqn:Hpc; try done. destruct (w_reader s); try done. destruct (is_over (w_event s) && is_over (w_error s)); [|done]. injection Hs as <-.
      unfold Ord in HO. rewrite Hpc in HO. destruct why; simpl; try exact Hpre. destruct (short && (w_count s =? 0)); [exact Hpre|done].
    - destruct (w_pc s) as [| |e rv|why| |] eqn:Hpc; try done; injection Hs as <-; simpl; try exact Hpre.
      unfold Ord in HO. rewrite Hpc in HO. destruct (w_fired s); simpl; rewrite Hpc; exact HO.
  Qed.

  Lemma Ord_reach rv x ls s : reach (wstep g q) (w_init rv x) ls s → Ord ls s.
  Proof.
    induction 1 as [|ls s1 l s2 Hr IH Hs]; [done|]. eapply Ord_step; [|done|done]. by eapply Inv_reach.
  Qed.
End loop.
