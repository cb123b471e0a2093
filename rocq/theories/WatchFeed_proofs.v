(** The loop connected to a server does what World_model does. *)
From Verif Require Import Base KeyFunc_model Reflector_model Store_model Store_spec Reflector_spec Reflector_proofs World_model World_proofs
  WatchLoop_model WatchLoop_spec WatchLoop_proofs WatchLoop_proofs2 WatchLoop_proofs3 WatchLoop_proofs4 WatchFeed_model WatchFeed_spec.

Section feed.
  Context {K O St : Type} `{EqDecision K} (keyf : O → option K) (g : rcfg O nat) (q : sops O nat St).
  Implicit Types (s : wstate O nat St) (cs : list (event O)).
  Notation wstep := (WatchLoop_model.wstep g q).

  (** ** Streams *)
  Lemma feeds_app cs a es1 b es2 c : feeds g cs a es1 b → feeds g cs b es2 c → feeds g cs a (es1 ++ es2) c.
  Proof. induction 1; intros; simpl; [done|eapply feeds_change; eauto|eapply feeds_other; eauto]. Qed.
  Lemma feeds_more cs cs2 a es b : feeds g cs a es b → feeds g (cs ++ cs2) a es b.
  Proof.
    induction 1; [constructor| |by apply feeds_other]. eapply feeds_change; [|done]. apply lookup_app_l_Some. done.
  Qed.

  (** ** One transition *)
  Definition quiet s s' : Prop := w_seen s' = w_seen s ∧ w_last s' = w_last s ∧ w_opt s' = w_opt s.
  Definition out_of (p : wpc O nat) : Prop := match p with PWait | PStore _ _ => False | _ => True end.
  Definition shape s (l : WatchLoop_model.wlabel O) s' : Prop :=
    l ≠ WWatch true ∧ w_pc s' = w_pc s ∧ quiet s s' ∨
    l ≠ WWatch true ∧ out_of (w_pc s') ∧ w_last s' = w_last s ∧ w_opt s' = w_opt s ∨
    (∃ e b, l = WRun b ∧ w_pc s = PWait ∧ w_seen s' = w_seen s ++ [e] ∧
      ((∀ rv, classify g e ≠ KTake rv) ∧ w_pc s' = PWait ∧ w_last s' = w_last s ∧ w_opt s' = w_opt s ∨
       ∃ rv, classify g e = KTake rv ∧
         (stores (e_type e) = false ∧ w_pc s' = PWait ∧ w_last s' = Some rv ∧ w_opt s' = Some rv ∨
          stores (e_type e) = true ∧ w_pc s' = PStore e rv ∧ w_last s' = w_last s ∧ w_opt s' = w_opt s))) ∨
    (∃ e rv, l = WStored ∧ w_pc s = PStore e rv ∧ w_pc s' = PWait ∧ w_seen s' = w_seen s ∧ w_last s' = Some rv ∧ w_opt s' = Some rv) ∨
    l = WWatch true ∧ w_pc s = PReady ∧ w_pc s' = PWait ∧ w_seen s' = [] ∧ w_last s' = w_last s ∧ w_opt s' = w_opt s.

  Lemma shape_step s l s' : wstep s l s' → shape s l s'.
  Proof.
    intros Hs. unfold shape, quiet. unfold WatchLoop_model.wstep, wrun in Hs. destruct l as [short|ok|es f| | | | |].
    - destruct (w_ready s) as [|h hs]; [done|]. destruct h as [| | |n|].
      + injection Hs as <-. left. split; [done|]. unfold run_reader; simpl. destruct (w_reader s) as [| |es f| |]; try done. by destruct ((Some <$> es) ++ _).
      + injection Hs as <-. left. split; [done|]. unfold run_event; simpl. destruct (w_event s) as [[]|[|[]|]|?|]; try done; by destruct (w_queue s).
      + injection Hs as <-. left. split; [done|]. unfold run_error; simpl. destruct (w_error s) as [[]|[|[]|]|?|]; try done; by destruct (w_errq s).
      + injection Hs as <-. left. split; [done|]. by destruct ((n =? w_wait s) && negb (w_fired s)).
      + unfold run_handler in Hs. simpl in Hs. destruct (w_pc s) eqn:Hpc; try (injection Hs as <-; by left).
        destruct (w_cancel s); [injection Hs as <-; right; by left|].
        assert (s' = close ISeeError (set_ready hs s) ∨ s' = close (IClose short) (set_ready hs s) ∨ ∃ e, let s1 := set_seen (w_seen s ++ [e]) (set_ready hs s) in
          s' = match classify g e with KRaise => close (IEvent e) s1 | KSkip => begin_wait s1
               | KTake rv => if stores (e_type e) then set_pc (PStore e rv) s1 else begin_wait (took rv s1) end) as [->|[->|(e & Hs')]].
        { destruct (w_error s) as [?|?|?|]; try (injection Hs as <-; by left); destruct (w_event s) as [?|?|[e|]|]; try done; injection Hs as <-; first [right; right; by exists e|right; by left]. }
        1, 2: right; by left.
        simpl in Hs'. destruct (classify g e) as [| |rv] eqn:Hc; subst s'.
        * right. by left.
        * right. right. left. exists e, short. split; [done|]. split; [done|]. split; [done|]. left. split; [intros; congruence|]. done.
        * right. right. left. exists e, short. split; [done|]. split; [done|]. split; [by destruct (stores _)|]. right. exists rv. split; [done|]. destruct (stores (e_type e)); auto.
    - destruct (w_pc s); try (by destruct ok). destruct ok; injection Hs as <-; [do 4 right; done|right; by left].
    - destruct (w_reader s); try (by destruct (w_pc s)). assert (Hs2 : s' = push [HRead] (set_reader (RdHave es f) s)) by (by destruct (w_pc s); injection Hs). subst s'. by left.
    - destruct (w_reader s); try (by destruct (w_pc s)). assert (Hs2 : s' = set_reader RdOver s) by (by destruct (w_pc s); injection Hs). subst s'. by left.
    - destruct (w_pc s) as [| |e rv| | |] eqn:Hpc; try done. destruct (apply_event q e (w_store s)). injection Hs as <-. right. right. right. left. by exists e, rv.
    - destruct (w_resync s); [|by destruct (w_pc s)]. destruct (so_resync q (w_store s)) as [x2 ok].
      assert (Hs2 : s' = if ok then set_store x2 [CResync ok] s else push (roused HError (w_error s)) (set_error (wake_get (w_error s)) true (set_resync false (set_store x2 [CResync ok] s))))
        by (destruct (w_pc s); try done; by injection Hs). left. split; [done|]. destruct ok; by subst s'.
    - destruct (w_pc s) as [| | |why| |] eqn:Hpc; try done. destruct (w_reader s); try done. destruct (is_over (w_event s) && is_over (w_error s)); [|done]. injection Hs as <-.
      right. left. split; [done|]. unfold leave, after_close. destruct why as [| | | |?|[]| |?| | |]; try done. by destruct (w_count s =? 0).
    - destruct (w_pc s) as [| |e rv|why| |] eqn:Hpc; try done; injection Hs as <-; try (right; by left). left. split; [done|]. destruct (w_fired s); simpl; by rewrite Hpc.
  Qed.

  (** ** The invariant *)
  Definition good cs : Prop := ∀ k e, cs !! k = Some e → stores (e_type e) = true ∧ accepted g e (S k).
  Definition tracks cs c (cur : nat) (v : nat) rs s : Prop :=
    match w_pc s with
    | PWait => cur = v ∧ ∃ pend, rs = w_seen s ++ pend ∧ feeds g cs v pend c
    | PStore e rv => cur = v ∧ rv = S v ∧ cs !! v = Some e ∧ ∃ pend, rs = w_seen s ++ pend ∧ feeds g cs (S v) pend c
    | _ => True
    end.
  Definition FI (x0 : St) (f : fed O St) : Prop :=
    good (f_changes f) ∧ ∃ wls w, reach (World_model.wstep keyf g q) (world_init, x0) wls (w, stored (f_at f)) ∧ w_changes w = f_changes f ∧
      match f_at f with
      | FIdle _ last => r_pc (w_refl w) = RIdle ∧ r_last (w_refl w) = last
      | FIn b s => ∃ v0 x ls v, reach wstep (w_init v0 x) ls s ∧ Rel g s (w_refl w) ∧ w_base w = b ∧ w_applied w = omap out_event (w_calls s) ∧
          w_last s = Some v ∧ w_opt s = Some v ∧ tracks (f_changes f) (f_cursor f) (w_cursor w) v (reads ls) s
      end.

  Lemma to_watching r x i r' x' out n : rstep g q (r, x) i = ((r', x'), out) → r_pc r = RReady → r_pc r' = RWatching n → i = IWatch.
  Proof.
    intros Hs Hp Hp'. destruct r as [pc la op er]; simpl in *; subst pc. destruct i as [| | | |e|short| |due| | |]; simpl in Hs; try done; try (injection Hs as <- <- <-; done).
    destruct (negb due || _); [injection Hs as <- <- <-; done|]. destruct (so_resync q x). injection Hs as <- <- <-. done.
  Qed.
  Lemma last_kept r x i r' x' out : rstep g q (r, x) i = ((r', x'), out) → (∀ items v, i ≠ IList items v) →
    (r_last r' = r_last r ∧ r_opt r' = r_opt r ∨ ∃ e rv, i = IEvent e ∧ classify g e = KTake rv ∧ r_last r' = Some rv) ∧ (∀ items v ok, out ≠ [CReplace items v ok]).
  Proof.
    intros Hs Hi. destruct r as [pc la op er].
    destruct i as [|items v| | |e|short| |due| | |]; simpl in Hs; try (by destruct (Hi items v)); destruct pc as [| |n| |]; simpl in Hs; try (injection Hs as <- <- <-; split; [by left|done]).
    - unfold r_noticed in Hs; simpl in Hs. assert (Hs2 : ((r', x'), out) = (Refl RIdle la op ENone, x, []) ∨
        match classify g e with KRaise => ((r', x'), out) = (Refl RIdle la op ENone, x, []) | KSkip => ((r', x'), out) = (Refl (RWatching n) la op (notice er), x, [])
        | KTake rv => ((r', x'), out) = (Refl (RWatching (n + 1)) (Some rv) (Some rv) (notice er), (apply_event q e x).1, (apply_event q e x).2) end).
      { destruct er; [right|right|left]; try (symmetry; exact Hs); destruct (classify g e); try (symmetry; exact Hs); destruct (apply_event q e x); symmetry; exact Hs. }
      destruct Hs2 as [Hs2|Hs2]; [injection Hs2 as -> -> ->; split; [by left|done]|]. destruct (classify g e) as [| |rv] eqn:Hc; injection Hs2 as -> -> ->; try (split; [by left|done]).
      split; [right; by exists e, rv|]. intros items v ok. unfold apply_event. destruct (e_type e); try done; simpl.
      + by destruct (so_add q x (e_obj e)).
      + by destruct (so_update q x (e_obj e)).
      + by destruct (so_delete q x (e_obj e)).
    - destruct (_ || _); injection Hs as <- <- <-; split; try (by left); done.
    - destruct (negb due || _); [injection Hs as <- <- <-; split; [by left|done]|]. destruct (so_resync q x). injection Hs as <- <- <-. split; [by left|done].
    - destruct (negb due || _); [injection Hs as <- <- <-; split; [by left|done]|]. destruct (so_resync q x). injection Hs as <- <- <-. split; [by left|done].
    - destruct (negb due || _); [injection Hs as <- <- <-; split; [by left|done]|]. destruct (so_resync q x). injection Hs as <- <- <-. split; [by left|done].
    - destruct (r_failed _); injection Hs as <- <- <-; split; try (by left); done.
    - destruct (r_failed _); injection Hs as <- <- <-; split; try (by left); done.
  Qed.
  Lemma observe_other (w : world O) c r (out : list (routput O nat)) : (∀ items v ok, out ≠ [CReplace items v ok]) → observe w c r out = World (w_changes w) c r (w_base w) (w_applied w ++ omap out_event out).
  Proof.
    intros Hn. unfold observe. destruct out as [|o [|o2 out]]; [done| |by destruct o as [? ? []| | | | | |]]. destruct o as [items v ok| | | | | |]; try done. by destruct (Hn items v ok).
  Qed.

  Lemma world_input x0 wls (w : world O) x i r' x' out : reach (World_model.wstep keyf g q) (world_init, x0) wls (w, x) → served keyf g w i →
    rstep g q (w_refl w, x) i = ((r', x'), out) → (∀ items v, i ≠ IList items v) →
    reach (World_model.wstep keyf g q) (world_init, x0) (wls ++ [WInput i]) (World (w_changes w) (cursor_after w i) r' (w_base w) (w_applied w ++ omap out_event out), x').
  Proof.
    intros Hr Hse Hs Hi. destruct (last_kept _ _ _ _ _ _ Hs Hi) as [_ Ho]. rewrite <-(observe_other w (cursor_after w i) r' out Ho).
    econstructor; [exact Hr|]. by constructor.
  Qed.

  (** an event of a feed that the handler looks at *)
  Lemma feed_head cs v e pend c : good cs → feeds g cs v (e :: pend) c →
    cs !! v = Some e ∧ classify g e = KTake (S v) ∧ stores (e_type e) = true ∧ feeds g cs (S v) pend c ∨
    feeds g cs v pend c ∧ ((∀ rv, classify g e ≠ KTake rv) ∨ classify g e = KTake v ∧ stores (e_type e) = false ∧ (e_type e = EvBookmark ∨ e_type e = EvUnknown)).
  Proof.
    intros Hg Hf. inversion Hf as [|c0 e0 es c1 Hl Hf2|c0 e0 es c1 Ho Hf2]; subst.
    - left. destruct (Hg _ _ Hl) as [H1 H2]. split; [done|]. split; [by apply classify_take|done].
    - right. split; [done|]. destruct Ho as [Hn|[Ht Ha]].
      + left. intros rv Hc. apply classify_take in Hc. by destruct (Hn rv).
      + right. split; [by apply classify_take|]. split; [by destruct Ht as [->| ->]|done].
  Qed.

  (** in a call of the store, only its return is an event *)
  Lemma store_event s r e rv i r' x' out : Rel g s r → w_pc s = PStore e rv → i = IEvent e → rstep g q (r, w_store s) i = ((r', x'), out) → r_last r' = Some rv.
  Proof.
    intros [_ _ Hpl Her _ Hat] Hpc -> Hs. rewrite Hpc in *. specialize (Her ltac:(done) ltac:(done)). destruct r as [pc la op er]; simpl in *. subst pc.
    assert (er ≠ EReady) as Hne by (intros ->; simpl in Her; by rewrite Hpc in Her). unfold r_noticed in Hs; simpl in Hs. rewrite Hat in Hs. destruct (apply_event q e (w_store s)).
    destruct er; try done; by injection Hs as <- <- <-.
  Qed.

  Lemma FI_loop x0 cs c b s l s' c' : FI x0 (Fed cs c (FIn b s)) → wstep s l s' → cursor_next g cs c s l c' → FI x0 (Fed cs c' (FIn b s')).
  Proof.
    intros (Hg & wls & w & Hw & Hch & v0 & x & ls & v & Hr & HR & Hb & Hap & Hla & Hop & Htr) Hs Hc. simpl in *.
    pose proof (Inv_reach g q _ _ _ _ Hr) as HI. assert (reach wstep (w_init v0 x) (ls ++ [l]) s') as Hr' by (by econstructor).
    pose proof (shape_step _ _ _ Hs) as Hsh. pose proof (sim_step g q _ _ _ _ HI HR Hs) as Hm.
    assert (r_last (w_refl w) = Some v ∧ r_opt (w_refl w) = Some v) as [Hrl Hro] by (destruct HR as [-> -> _ _ _ _]; done).
    assert (∀ e pend, w_pc s = PWait → (∃ b, l = WRun b) → w_seen s' = w_seen s ++ [e] → reads ls = w_seen s ++ pend → ∃ pend', pend = e :: pend') as Hhead.
    { intros e pend _ [b0 ->] Hse Hrd. pose proof (Ord_prefix _ _ (Ord_reach g q _ _ _ _ Hr')) as [k Hk]. rewrite reads_snoc, Hse, Hrd, <-app_assoc in Hk. apply app_inv_head in Hk.
      destruct pend as [|e2 pend]; [done|]. injection Hk as -> _. by exists pend. }
    (* what the world does *)
    assert ((∃ e rv, l = WStored ∧ w_pc s = PStore e rv ∧ w_last s' = Some rv ∧ w_last s' = Some (S v)) ∨
      w_last s' = w_last s ∧ ∃ wls' w', reach (World_model.wstep keyf g q) (world_init, x0) wls' (w', w_store s') ∧ w_changes w' = cs ∧ Rel g s' (w_refl w') ∧
        w_base w' = b ∧ w_applied w' = omap out_event (w_calls s') ∧ (w_cursor w' = w_cursor w ∨ w_cursor w' = v) ∧ (w_pc s = PReady → w_pc s' = PWait → w_cursor w' = v)) as Hwd.
    { assert (w_last s' = w_last s ∨ ∃ e rv, l = WStored ∧ w_pc s = PStore e rv ∧ w_last s' = Some rv ∧ w_last s' = Some (S v)) as [Hsame|?]; [|right|by left].
      { destruct Hsh as [(_ & _ & _ & ? & _)|[(_ & _ & ? & _)|[(e & b0 & Hl & Hpc & Hse & Hcl)|[(e & rv & Hl & Hpc & _ & _ & ? & _)|(_ & _ & _ & _ & ? & _)]]]]; try (by left).
        - unfold tracks in Htr. rewrite Hpc in Htr. destruct Htr as (_ & pend & Hrd & Hf). destruct (Hhead e pend Hpc ltac:(by eexists) Hse Hrd) as [pend' ->].
          destruct Hcl as [(_ & _ & ? & _)|(rv & Hct & [(Hst & _ & ? & _)|(_ & _ & ? & _)])]; try (by left). left.
          apply (feed_head _ _ _ _ _ Hg) in Hf as [(_ & _ & ? & _)|[_ [Hn|(Hct2 & _)]]]; [congruence|by destruct (Hn rv)|]. congruence.
        - right. exists e, rv. unfold tracks in Htr. rewrite Hpc in Htr. destruct Htr as (_ & -> & _). done. }
      split; [done|]. destruct Hm as [(E1 & E2 & HR2)|(i & r' & out & [Hfi Hst] & Hcs & HR2)].
      - exists wls, w. rewrite E1, E2. split; [done|]. split; [done|]. split; [done|]. split; [done|]. split; [done|]. split; [by left|].
        intros Hp1 Hp2. destruct HR as [_ _ Hpl _ _ _]. destruct HR2 as [_ _ Hpl2 _ _ _]. rewrite Hp1 in Hpl. rewrite Hp2 in Hpl2. simpl in *. congruence.
      - assert (∀ items n, i ≠ IList items n) as Hni by (by intros items n ->).
        assert (served keyf g w i) as Hsv.
        { destruct i as [|items n| | |e|short| |due| | |]; simpl in *; try done. destruct Hfi as [(rv & Hpc)|[Hn|(Hpc & Hse & Hst2)]].
          - exfalso. pose proof (store_event _ _ _ _ _ _ _ _ HR Hpc eq_refl Hst) as Hl2. destruct HR2 as [Hl3 _ _ _ _ _]. unfold tracks in Htr. rewrite Hpc in Htr. destruct Htr as (_ & -> & _).
            rewrite Hl3, Hsame, Hla in Hl2. injection Hl2 as Hl2. lia.
          - right. intros rv Ha. apply classify_take in Ha. by destruct (Hn rv).
          - unfold tracks in Htr. rewrite Hpc in Htr. destruct Htr as (Hcu & pend & Hrd & Hf).
            assert (∃ b0, l = WRun b0) as Hlr.
            { destruct Hsh as [(_ & _ & Hq & _)|[(_ & Ho & _)|[(e2 & b0 & -> & _)|[(e2 & rv2 & _ & Hpc2 & _)|(_ & Hpc2 & _)]]]]; [| |by eexists|congruence|congruence].
              - rewrite Hse in Hq. apply (f_equal length) in Hq. rewrite app_length in Hq. simpl in Hq. lia.
              - destruct HR as [_ _ Hpl _ _ _]. destruct HR2 as [_ _ Hpl2 _ _ _]. clear -Hs Hpc Hse Ho.
                unfold WatchLoop_model.wstep, wrun in Hs. destruct l as [b0|[]|es f| | | | |]; [by eexists| | | | | | | |]; exfalso; rewrite ?Hpc in Hs; try done.
                + destruct (w_reader s); try done. injection Hs as <-. simpl in Ho. by rewrite Hpc in Ho.
                + destruct (w_reader s); try done. injection Hs as <-. simpl in Ho. by rewrite Hpc in Ho.
                + destruct (w_resync s); [|done]. destruct (so_resync q (w_store s)) as [x2 [|]]; injection Hs as <-; simpl in Ho; by rewrite Hpc in Ho.
                + injection Hs as <-. destruct (w_fired s); simpl in Ho; by rewrite Hpc in Ho. }
            destruct (Hhead e pend Hpc Hlr Hse Hrd) as [pend' ->].
            apply (feed_head _ _ _ _ _ Hg) in Hf as [(_ & _ & ? & _)|[_ [Hn|(Hct2 & _ & Ht)]]]; [congruence| |].
            + right. intros rv Ha. apply classify_take in Ha. by destruct (Hn rv).
            + left. split; [done|]. rewrite Hcu. by apply classify_take. }
        pose proof (world_input _ _ _ _ _ _ _ _ Hw Hsv Hst Hni) as Hw2. eexists _, _. split; [exact Hw2|]. simpl. split; [done|]. split; [done|]. split; [done|].
        split; [by rewrite Hap, Hcs, omap_app|]. split.
        + unfold cursor_after. destruct i; auto. right. by rewrite Hro.
        + intros Hp1 Hp2. destruct HR as [_ _ Hpl _ _ _]. destruct HR2 as [_ _ Hpl2 _ _ _]. rewrite Hp1 in Hpl. rewrite Hp2 in Hpl2. simpl in *.
          rewrite (to_watching _ _ _ _ _ _ _ Hst Hpl Hpl2). simpl. by rewrite Hro. }
    destruct Hwd as [(e & rv & -> & Hpc & Hl1 & Hl2)|(Hsame & wls' & w' & Hw' & Hch' & HR' & Hb' & Hap' & Hcu' & Hcw)].
    - (* the change is delivered *)
      unfold tracks in Htr. rewrite Hpc in Htr. destruct Htr as (Hcu & -> & Hlk & pend & Hrd & Hf). simpl in Hc. subst c'.
      destruct Hsh as [(_ & _ & _ & ? & _)|[(_ & _ & ? & _)|[(e2 & b0 & [=] & _)|[(e2 & rv2 & _ & Hpc2 & Hpc' & Hse' & _ & Hop')|([=] & _)]]]]; [rewrite Hla in *; simplify_eq; lia|rewrite Hla in *; simplify_eq; lia|].
      rewrite Hpc in Hpc2. injection Hpc2 as <- <-.
      destruct Hm as [(E1 & E2 & HR2)|(i & r' & out & [Hfi Hst] & Hcs & HR2)].
      { exfalso. destruct HR2 as [Hx _ _ _ _ _]. rewrite Hrl, Hl2 in Hx. injection Hx. lia. }
      assert (∀ items n, i ≠ IList items n) as Hni by (by intros items n ->).
      destruct (last_kept _ _ _ _ _ _ Hst Hni) as [[[Hk _]|(e2 & rv2 & -> & Hct & Hk)] Ho].
      { exfalso. destruct HR2 as [Hx _ _ _ _ _]. rewrite Hk, Hrl, Hl2 in Hx. injection Hx. lia. }
      assert (e2 = e) as -> by (destruct Hfi as [(rv3 & ?)|[Hn|(? & _)]]; [congruence|by destruct (Hn rv2)|congruence]).
      split; [done|]. exists (wls ++ [WDeliver e]), (observe w (w_cursor w + 1) r' out). rewrite observe_other by done. simpl. split.
      { econstructor; [exact Hw|]. rewrite <-observe_other by done. constructor; [|done]. by rewrite Hch, Hcu. }
      split; [done|]. exists v0, x, (ls ++ [WStored]), (S v). split; [done|]. split; [done|]. split; [done|]. split; [by rewrite Hap, Hcs, omap_app|]. split; [done|]. split; [congruence|].
      unfold tracks. rewrite Hpc'. split; [lia|]. exists pend. by rewrite reads_snoc, Hse'.
    - split; [done|]. exists wls', w'. split; [done|]. split; [done|]. exists v0, x, (ls ++ [l]), v. split; [done|]. split; [done|]. split; [done|]. split; [done|]. split; [congruence|].
      assert (w_opt s' = Some v) as Hop'.
      { destruct HI as [_ _ _ _ _ _ _ _ _ _]. destruct Hsh as [(_ & _ & _ & _ & ?)|[(_ & _ & _ & ?)|[(e & b0 & Hl & Hpc & Hse & [(_ & _ & _ & ?)|(rv & _ & [(_ & _ & ? & ?)|(_ & _ & _ & ?)])])|[(e & rv & Hl & Hpc & _ & _ & ? & ?)|(_ & _ & _ & _ & _ & ?)]]]]; congruence. }
      split; [done|]. unfold tracks in *.
      destruct Hsh as [(Hl & Hpc' & Hse & _)|[(_ & Ho & _)|[(e & b0 & -> & Hpc & Hse & Hcl)|[(e & rv & -> & Hpc & Hpc' & _ & Hl1 & _)|(-> & Hpc & Hpc' & Hse & _)]]]].
      + rewrite Hpc', Hse. assert (∃ es, reads (ls ++ [l]) = reads ls ++ es ∧ feeds g cs c es c') as (es & Hrs & Hfe).
        { rewrite reads_snoc. destruct l as [b0|[]|es f| | | | |]; simpl in Hc; try done; try (by exists es); subst c'; exists []; rewrite app_nil_r; (split; [done|constructor]). }
        destruct (w_pc s); try done.
        * destruct Htr as (Hcu & pend & Hrd & Hf). split; [destruct Hcu'; congruence|]. exists (pend ++ es). rewrite Hrs, Hrd, app_assoc. split; [done|]. by eapply feeds_app.
        * destruct Htr as (Hcu & Hrv & Hlk & pend & Hrd & Hf). split; [destruct Hcu'; congruence|]. split; [done|]. split; [done|]. exists (pend ++ es). rewrite Hrs, Hrd, app_assoc. split; [done|]. by eapply feeds_app.
      + by destruct (w_pc s').
      + rewrite Hpc in Htr. destruct Htr as (Hcu & pend & Hrd & Hf). destruct (Hhead e pend Hpc ltac:(by eexists) Hse Hrd) as [pend' ->]. simpl in Hc. subst c'.
        assert (reads (ls ++ [WRun b0]) = w_seen s' ++ pend') as Hrd' by (rewrite reads_snoc, Hse, <-app_assoc; done).
        assert (w_cursor w' = v) as Hcv by (destruct Hcu'; congruence).
        apply (feed_head _ _ _ _ _ Hg) in Hf as [(Hlk & Hct & Hst & Hf)|[Hf Hot]].
        * destruct Hcl as [(Hn & _)|(rv & Hct2 & [(Hst2 & _)|(_ & Hpc' & _)])]; [by destruct (Hn (S v))|congruence|]. rewrite Hct in Hct2. injection Hct2 as <-.
          rewrite Hpc'. split; [done|]. split; [done|]. split; [done|]. by exists pend'.
        * destruct Hcl as [(Hn & Hpc' & _)|(rv & Hct2 & [(Hst2 & Hpc' & _)|(Hst2 & _)])].
          -- rewrite Hpc'. split; [done|]. by exists pend'.
          -- rewrite Hpc'. split; [done|]. by exists pend'.
          -- exfalso. destruct Hot as [Hn|(_ & ? & _)]; [by destruct (Hn rv)|congruence].
      + exfalso. rewrite Hpc in Htr. destruct Htr as (_ & -> & _). rewrite Hsame, Hla in Hl1. injection Hl1. lia.
      + rewrite Hpc'. simpl in Hc. rewrite Hop in Hc. simpl in Hc. subst c'. split; [by apply Hcw|]. exists []. rewrite reads_snoc, Hse. split; [done|constructor].
  Qed.

  Lemma FI_step x0 f l f' : FI x0 f → fstep keyf g q f l f' → FI x0 f'.
  Proof.
    intros HF Hs. inversion Hs as [cs c a e Hgc|cs c b s l0 s' c' Hst Hc|cs c b s Hpc|cs c x last items v x' ok Hgl Hre]; subst.
    - destruct HF as (Hg & wls & w & Hw & Hch & Hat). split; simpl in *.
      { intros k e2 Hk. apply lookup_app_Some in Hk as [Hk|[Hle Hk]]; [by apply Hg|]. apply list_lookup_singleton_Some in Hk as [Hk <-].
        destruct Hgc as (Ht & _ & Ha). split; [by destruct Ht as [->|[->| ->]]|]. by replace k with (length cs) by lia. }
      exists (wls ++ [WChange e]), (World (w_changes w ++ [e]) (w_cursor w) (w_refl w) (w_base w) (w_applied w)). split; [econstructor; [exact Hw|]; constructor; by rewrite Hch|].
      simpl. split; [by rewrite Hch|]. destruct a as [x last|b s]; [done|]. destruct Hat as (v0 & x & ls & v & Hr & HR & Hb & Hap & Hla & Hop & Htr).
      exists v0, x, ls, v. repeat (split; [done|]). unfold tracks in *. destruct (w_pc s); try done.
      + destruct Htr as (? & pend & ? & ?). split; [done|]. exists pend. split; [done|]. by apply feeds_more.
      + destruct Htr as (? & ? & ? & pend & ? & ?). split; [done|]. split; [done|]. split; [by apply lookup_app_l_Some|]. exists pend. split; [done|]. by apply feeds_more.
    - by eapply FI_loop.
    - destruct HF as (Hg & wls & w & Hw & Hch & v0 & x & ls & v & Hr & HR & _). split; [done|]. exists wls, w. simpl in *. split; [done|]. split; [done|].
      destruct HR as [-> _ -> _ _ _]. by rewrite Hpc.
    - destruct HF as (Hg & wls & w & Hw & Hch & Hpc & Hla). simpl in *. split; [by destruct ok|]. destruct w as [cs0 cu [pc la op er] ba ap]. simpl in *. subst cs0 pc la.
      exists (wls ++ [WInput (IList items v)]). destruct ok.
      + exists (World cs cu (Refl RReady (Some v) (Some v) ENone) v []). simpl. split.
        { econstructor; [exact Hw|]. apply (w_input keyf g q (World cs cu (Refl RIdle last op er) ba ap) x (IList items v) (Refl RReady (Some v) (Some v) ENone) x' [CReplace items v true]); [done|]. simpl. by rewrite Hre. }
        split; [done|]. exists v, x', [], v. split; [constructor|]. split; [by split|]. done.
      + exists (World cs cu (Refl RIdle last op ENone) ba (ap ++ [])). simpl. split; [|done].
        econstructor; [exact Hw|]. apply (w_input keyf g q (World cs cu (Refl RIdle last op er) ba ap) x (IList items v) (Refl RIdle last op ENone) x' [CReplace items v false]); [done|]. simpl. by rewrite Hre.
  Qed.
  Lemma FI_reach x0 ls f : reach (fstep keyf g q) (fed_init x0) ls f → FI x0 f.
  Proof.
    apply (reach_inv (fstep keyf g q) (FI x0)); [intros ???; apply FI_step|]. split; [by intros k e Hk|]. exists [], world_init. split; [constructor|done].
  Qed.

  (** ** The theorems *)
  Lemma feed_refines x0 ls f : reach (fstep keyf g q) (fed_init x0) ls f →
    ∃ wls w, reach (World_model.wstep keyf g q) (world_init, x0) wls (w, stored (f_at f)) ∧ w_changes w = f_changes f ∧ r_last (w_refl w) = version (f_at f).
  Proof.
    intros Hr. destruct (FI_reach _ _ _ Hr) as (_ & wls & w & Hw & Hch & Hat). exists wls, w. split; [done|]. split; [done|].
    destruct (f_at f) as [x last|b s]; [by destruct Hat|]. by destruct Hat as (v0 & x & ls2 & v & _ & [-> _ _ _ _ _] & _).
  Qed.
  Lemma feed_once x0 ls cs c b s : reach (fstep keyf g q) (fed_init x0) ls (Fed cs c (FIn b s)) →
    ∃ v, w_last s = Some v ∧ b ≤ v ≤ length cs ∧ omap out_event (w_calls s) = drop b (take v cs).
  Proof.
    intros Hr. destruct (FI_reach _ _ _ Hr) as (_ & wls & w & Hw & Hch & v0 & x & ls2 & v & _ & [Hl _ _ _ _ _] & Hb & Hap & Hla & _). simpl in *.
    exists v. split; [done|]. rewrite Hla in Hl. destruct (exactly_once keyf g q _ _ _ _ _ Hw Hl) as [H1 H2]. rewrite <-Hap, <-Hb, <-Hch. done.
  Qed.
  (** nothing is ready and the handler waits: all the stream has delivered was applied *)
  Lemma feed_caught_up x0 ls cs c b s : reach (fstep keyf g q) (fed_init x0) ls (Fed cs c (FIn b s)) → w_ready s = [] → w_pc s = PWait → w_last s = Some c.
  Proof.
    intros Hr Hrd Hpc. destruct (FI_reach _ _ _ Hr) as (_ & wls & w & Hw & Hch & v0 & x & ls2 & v & Hr2 & _ & _ & _ & Hla & _ & Htr). simpl in *.
    unfold tracks in Htr. rewrite Hpc in Htr. destruct Htr as (_ & pend & Hrds & Hf). pose proof (Inv_reach g q _ _ _ _ Hr2) as HI. pose proof (Ord_reach g q _ _ _ _ Hr2) as HO.
    pose proof (rest s HI Hrd) as Hre. rewrite Hpc in Hre. destruct Hre as (Hk & Hq & _ & Hev & Hnr & _). unfold Ord in HO. rewrite Hpc, Hk, Hev in HO. destruct HO as [(rest0 & tl & Hl & Hp & _) Hrs].
    destruct rest0; [|done]. rewrite app_nil_r in Hp. assert (pend = []) as ->.
    { rewrite Hrs, Hp in Hrds. apply app_inv_head in Hrds. subst pend. destruct (w_reader s) as [| |es f| |]; simpl; try done. by destruct (Hnr es f). }
    inversion Hf; subst. done.
  Qed.
End feed.
