From Verif Require Import Base KeyFunc_model Reflector_model Store_model Store_spec Reflector_spec.

Section proofs.
  Context {O RV S : Type} (g : rcfg O RV) (q : sops O RV S).
  Implicit Types (e : event O) (r : refl RV) (s : S) (i : rinput O RV).
  Notation rstep := (rstep g q).
  Notation entry := (rinput O RV * list (routput O RV))%type.

  Lemma gvk_check_true o : gvk_check g o = Some true ↔ expected_gvk g o.
  Proof.
    unfold gvk_check, expected_gvk. destruct (c_gvk g) as [want|]; [|naive_solver]. split.
    - intros Hc want' [= <-]. destruct (c_api g o) as [a|], (c_kind g o) as [k|]; try done.
      destruct (group_version_kind a k) as [got|] eqn:Hg; [|done]. case_bool_decide; [|done]. subst. eauto.
    - intros Hx. destruct (Hx want eq_refl) as (a & k & -> & -> & ->). by rewrite bool_decide_eq_true_2.
  Qed.
  Lemma gvk_check_none o : gvk_check g o = None ↔ ¬ readable_gvk g o.
  Proof.
    unfold gvk_check, readable_gvk. destruct (c_gvk g) as [want|]; [|naive_solver]. split.
    - intros Hc Hx. destruct (Hx want eq_refl) as (a & k & got & H1 & H2 & H3). by rewrite H1, H2, H3 in Hc.
    - intros Hn. destruct (c_api g o) as [a|] eqn:H1; [|done]. destruct (c_kind g o) as [k|] eqn:H2; [|done].
      destruct (group_version_kind a k) as [got|] eqn:H3; [|done]. exfalso. apply Hn. intros ? [= <-]. eauto 10.
  Qed.
  Lemma typed_test o : (c_typed g && negb (c_isinstance g o) = true ∧ ¬ expected_type g o) ∨ (c_typed g && negb (c_isinstance g o) = false ∧ expected_type g o).
  Proof. unfold expected_type. destruct (c_typed g), (c_isinstance g o); simpl; [right|left|right|right]; (split; [done|]); auto. intros H. by specialize (H eq_refl). Qed.
  Lemma classify_take e rv : classify g e = KTake rv ↔ accepted g e rv.
  Proof.
    unfold classify, accepted. rewrite <-gvk_check_true. destruct (decide (e_type e = EvError)); [split; [done|by intros [? _]]|].
    destruct (typed_test (e_obj e)) as [[-> Hn]|[-> Hy]]; [split; [done|by intros (_ & ? & _)]|].
    destruct (gvk_check g (e_obj e)) as [[]|]; [|split; [done|by intros (_ & _ & ? & _)]..].
    destruct (c_has_meta g (e_obj e)); simpl; [|split; [done|by intros (_ & _ & _ & ? & _)]].
    destruct (c_rv g (e_obj e)) as [rv'|]; [|split; [done|by intros (_ & _ & _ & _ & ?)]].
    split; [by intros [= ->]|by intros (_ & _ & _ & _ & [= ->])].
  Qed.
  Lemma classify_raise e : classify g e = KRaise ↔ broken g e.
  Proof.
    unfold classify, broken. rewrite <-gvk_check_true, <-gvk_check_none. destruct (decide (e_type e = EvError)); [split; [by left|done]|].
    destruct (typed_test (e_obj e)) as [[-> Hn]|[-> Hy]]; [split; [done|by intros [?|[? _]]]|].
    destruct (gvk_check g (e_obj e)) as [[]|].
    - destruct (c_has_meta g (e_obj e)); simpl; [|split; [done|by intros [?|(_ & [?|(_ & ? & _)])]]].
      destruct (c_rv g (e_obj e)) as [rv'|]; [split; [done|by intros [?|(_ & [?|(_ & _ & ?)])]]|]. split; [by auto 10|done].
    - split; [done|by intros [?|(_ & [?|(? & _)])]].
    - split; [by auto|done].
  Qed.
  Lemma accepted_not_broken e rv : accepted g e rv → ¬ broken g e.
  Proof. intros H1%classify_take H2%classify_raise. congruence. Qed.
  Lemma accepted_fun e v w : accepted g e v → accepted g e w → v = w.
  Proof. intros H1%classify_take H2%classify_take. congruence. Qed.

  Definition active (p : rpc) : Prop := match p with RReady | RWatching _ | RHung => True | _ => False end.
  Definition is_watching (p : rpc) : Prop := match p with RWatching _ => True | _ => False end.
  Record RInv (h : list entry) r : Prop := {
    ri_watch : is_watching (r_pc r) ↔ watching g (reverse h);
    ri_fail : active (r_pc r) → (r_failed r = true ↔ resync_failed (reverse h));
    ri_sync : synced g (reverse h) (r_last r);
    ri_opt : r_opt r = r_last r
  }.
  Lemma RInv_init : RInv [] refl_init.
  Proof. split; simpl; try done. constructor. Qed.

  Ltac other := apply synced_other; [by intros|by intros|done].
  Definition First (h : list entry) r : Prop := is_watching (r_pc r) → (r_noticed r = true ↔ error_first (reverse h)).
  Lemma notice_noticed (r : refl RV) p (l o : option RV) : r_noticed (Refl p l o (notice (r_err r))) = r_failed r.
  Proof. unfold r_noticed, r_failed, notice. simpl. by destruct (r_err r). Qed.
  Lemma notice_failed (r : refl RV) p (l o : option RV) : r_failed (Refl p l o (notice (r_err r))) = r_failed r.
  Proof. unfold r_failed, notice. simpl. by destruct (r_err r). Qed.
  Lemma noticed_failed (r : refl RV) : r_failed r = false → r_noticed r = false.
  Proof. unfold r_noticed, r_failed. by destruct (r_err r). Qed.
  Lemma First_step h r s i : RInv h r → First h r → First (h ++ [(i, (rstep (r, s) i).2)]) (rstep (r, s) i).1.1.
  Proof.
    intros [_ Hf _ _] HF. unfold First in *.
    assert (Hrev : ∀ x : entry, reverse (h ++ [x]) = x :: reverse h) by (intros x; by rewrite reverse_app). rewrite Hrev.
    destruct i as [|items rv| | |e|short| |due| | |]; simpl; destruct (r_pc r) as [| |n| |] eqn:Hpc; simpl in *; rewrite ?Hpc; simpl; try done; try tauto.
    - destruct (so_replace q s items rv) as [s' []]; simpl; done.
    - intros _. rewrite notice_noticed. tauto.
    - destruct (r_noticed r) eqn:Hn; simpl; [done|]. destruct (classify g e) as [| |rv]; simpl; [done|rewrite ?Hpc; intros _; rewrite notice_noticed; tauto|].
      destruct (apply_event q e s) as [s' out]. simpl. intros _. rewrite notice_noticed. tauto.
    - by destruct (r_noticed r || short && (n =? 0)).
    - destruct (negb due || r_failed r); simpl; rewrite ?Hpc; [done|]. destruct (so_resync q s) as [s' ok]; simpl. by rewrite ?Hpc.
    - destruct (negb due || r_failed r) eqn:Hb; simpl; rewrite ?Hpc; [done|]. destruct (so_resync q s) as [s' ok]; simpl. rewrite ?Hpc. intros _.
      apply orb_false_iff in Hb as [_ Hb]. destruct ok; simpl; [|done]. rewrite (noticed_failed r Hb) in HF. apply HF. done.
    - destruct (negb due || r_failed r); simpl; rewrite ?Hpc; [done|]. destruct (so_resync q s) as [s' ok]; simpl. by rewrite ?Hpc.
    - destruct (r_failed r); simpl; [done|]. by rewrite ?Hpc.
    - destruct (r_failed r); simpl; [done|]. by rewrite ?Hpc.
  Qed.
  Lemma RInv_step h r s i : First h r → RInv h r → RInv (h ++ [(i, (rstep (r, s) i).2)]) (rstep (r, s) i).1.1.
  Proof.
    intros HF [Hw Hf Hs Ho].
    assert (Hrev : ∀ x : entry, reverse (h ++ [x]) = x :: reverse h) by (intros x; by rewrite reverse_app).
    destruct i as [|items rv| | |e|short| |due| | |].
    - (* list fails *)
      destruct (r_pc r) eqn:Hpc; simpl; rewrite ?Hpc; (split; rewrite ?Hrev; simpl; rewrite ?Hpc; simpl; [done|first [done|by auto]|other|done]).
    - (* list *)
      destruct (r_pc r) eqn:Hpc; simpl; rewrite ?Hpc.
      + destruct (so_replace q s items rv) as [s' ok]. destruct ok; simpl.
        * split; rewrite ?Hrev; simpl; [done|done|constructor|done].
        * split; rewrite ?Hrev; simpl; [done|done|other|done].
      + split; rewrite ?Hrev; simpl; rewrite ?Hpc; simpl; [done|first [done|by auto]|other|done].
      + split; rewrite ?Hrev; simpl; rewrite ?Hpc; simpl; [done|first [done|by auto]|other|done].
      + split; rewrite ?Hrev; simpl; rewrite ?Hpc; simpl; [done|first [done|by auto]|other|done].
      + split; rewrite ?Hrev; simpl; rewrite ?Hpc; simpl; [done|first [done|by auto]|other|done].
    - destruct (r_pc r) eqn:Hpc; simpl; rewrite ?Hpc; (split; rewrite ?Hrev; simpl; rewrite ?Hpc; simpl; [done|first [done|by auto]|other|done]).
    - destruct (r_pc r) eqn:Hpc; simpl; rewrite ?Hpc; (split; rewrite ?Hrev; simpl; rewrite ?Hpc; simpl; [done|first [done|by auto|intros _; rewrite notice_failed; by apply Hf]|other|done]).
    - (* event *)
      assert (Hign : ¬ is_watching (r_pc r) → RInv (h ++ [(IEvent e, [])]) r).
      { intros Hn. split; rewrite ?Hrev; simpl; [rewrite <-Hw; tauto|done| |done]. apply synced_event_ignored; [|done]. rewrite <-Hw. tauto. }
      destruct (r_pc r) as [| |n| |] eqn:Hpc; simpl; rewrite ?Hpc; try (apply Hign; simpl; tauto).
      unfold First in HF. rewrite Hpc in HF. simpl in Hw, Hf, HF. specialize (HF I). destruct (r_noticed r) eqn:Hfl; simpl.
      + split; rewrite ?Hrev; simpl; [tauto|done| |done]. apply synced_event_ignored; [tauto|done].
      + destruct (classify g e) as [| |rv] eqn:Hc; simpl.
        * apply classify_raise in Hc. split; rewrite ?Hrev; simpl; [tauto|done| |done]. apply synced_event_ignored; [|done].
          intros (_ & _ & rv & Ha). by apply accepted_not_broken in Ha.
        * assert (¬ broken g e) by (rewrite <-classify_raise; congruence).
          split; rewrite ?Hrev; simpl; rewrite ?Hpc, ?Hfl; simpl.
          -- intuition congruence.
          -- intros _. rewrite notice_failed. by apply Hf.
          -- apply synced_event_ignored; [|done]. intros (_ & _ & rv & Ha%classify_take). congruence.
          -- done.
        * apply classify_take in Hc. pose proof (accepted_not_broken _ _ Hc). destruct (apply_event q e s) as [s' out]. simpl.
          split; rewrite ?Hrev; simpl; [intuition congruence|intros _; rewrite notice_failed; by apply Hf| |done].
          apply synced_event; [tauto|rewrite <-HF by done; done|done].
    - (* close *)
      destruct (r_pc r) as [| |n| |] eqn:Hpc; simpl; rewrite ?Hpc.
      3:{ destruct (r_noticed r || short && (n =? 0)) eqn:Hb; simpl.
          - split; rewrite ?Hrev; simpl; [done|done|other|done].
          - split; rewrite ?Hrev; simpl; [done|first [done|by auto]|other|done]. }
      all: split; rewrite ?Hrev; simpl; rewrite ?Hpc; simpl; [done|first [done|by auto]|other|done].
    - destruct (r_pc r) as [| |n| |] eqn:Hpc; simpl; rewrite ?Hpc; (split; rewrite ?Hrev; simpl; rewrite ?Hpc; simpl; [done|first [done|by auto]|other|done]).
    - (* resync *)
      assert (Hsame : RInv (h ++ [(IResync due, [])]) r).
      { split; rewrite ?Hrev; simpl; [done|done|other|done]. }
      simpl. destruct (r_pc r) as [| |n| |] eqn:Hpc; try done.
      all: destruct (negb due || r_failed r) eqn:Hb; [done|]; apply orb_false_iff in Hb as [_ Hb]; destruct (so_resync q s) as [s' ok]; simpl;
        simpl in Hf; rewrite Hb in Hf; (split; rewrite ?Hrev; simpl; [done| |other|done]); intros _; destruct ok; simpl; [by apply Hf|done].
    - (* see error *)
      simpl. destruct (r_pc r) as [| |n| |] eqn:Hpc; simpl; try (split; rewrite ?Hrev; simpl; rewrite ?Hpc; simpl; [tauto|first [done|by auto]|other|done]).
      all: simpl in Hw, Hf; specialize (Hf I); destruct (r_failed r) eqn:Hfl; simpl; (split; rewrite ?Hrev; simpl; rewrite ?Hpc, ?Hfl; simpl; [|done|other|done]); intuition congruence.
    - simpl. split; rewrite ?Hrev; simpl; [done|done|other|done].
    - simpl. destruct (r_pc r) eqn:Hpc; simpl; (split; rewrite ?Hrev; simpl; rewrite ?Hpc; simpl; [tauto|tauto|other|done]).
  Qed.
  Lemma RInv_exec' s0 h r s : exec rstep (refl_init, s0) h (r, s) → RInv h r ∧ First h r.
  Proof.
    intros Hex. change r with (r, s).1. revert Hex. generalize (r, s). intros x.
    apply (exec_trace_inv rstep (λ h x, RInv h x.1 ∧ First h x.1)); [split; [apply RInv_init|done]|]. intros h' [r' s'] i _ [HR HF].
    split; [by apply RInv_step|by apply First_step].
  Qed.
  Lemma RInv_exec s0 h r s : exec rstep (refl_init, s0) h (r, s) → RInv h r.
  Proof. intros Hex. by destruct (RInv_exec' _ _ _ _ Hex). Qed.
  Lemma First_exec s0 h r s : exec rstep (refl_init, s0) h (r, s) → First h r.
  Proof. intros Hex. by destruct (RInv_exec' _ _ _ _ Hex). Qed.

  (** ** C37 *)
  Lemma synced_fun h v w : synced g h v → synced g h w → v = w.
  Proof.
    intros Hv. revert w. induction Hv as [|items rv h|e rv out h Hw Hf Ha|e out h v Hn Hv IH|i out h v He Hl Hv IH]; intros w Hw'; inversion Hw'; subst;
      first [done | by apply IH | f_equal; by eapply accepted_fun | exfalso; naive_solver].
  Qed.
  Lemma last_is_synced s0 h r s v : exec rstep (refl_init, s0) h (r, s) →
    (rstep (r, s) ILast).2 = [CLast v] ↔ synced g (reverse h) v.
  Proof.
    intros [_ _ Hs _]%RInv_exec. simpl. split; [intros [= <-]; done|]. intros Hv. by rewrite (synced_fun _ _ _ Hv Hs).
  Qed.
  Lemma watch_from_synced s0 h i out x v : exec rstep (refl_init, s0) (h ++ [(i, out)]) x → CWatch v ∈ out → synced g (reverse h) v.
  Proof.
    intros Hex Hin. apply exec_snoc in Hex as ([r s] & Hex & Hst). apply RInv_exec in Hex as [_ _ Hs Ho].
    assert (v = r_opt r) as ->; [|by rewrite Ho].
    assert (Hout : CWatch v ∈ (rstep (r, s) i).2) by (by rewrite Hst). clear -Hout.
    destruct i as [|items rv| | |e|short| |due| | |]; simpl in Hout; destruct (r_pc r) eqn:Hpc; simpl in Hout;
      repeat match type of Hout with
      | context [so_replace ?a ?b ?c ?d] => destruct (so_replace a b c d) as [? []]; simpl in Hout
      | context [so_resync ?a ?b] => destruct (so_resync a b); simpl in Hout
      | context [classify ?a ?b] => destruct (classify a b); simpl in Hout
      | context [apply_event ?a ?b ?c] => unfold apply_event in Hout; destruct (e_type b); simpl in Hout
      | context [so_add ?a ?b ?c] => destruct (so_add a b c); simpl in Hout
      | context [so_update ?a ?b ?c] => destruct (so_update a b c); simpl in Hout
      | context [so_delete ?a ?b ?c] => destruct (so_delete a b c); simpl in Hout
      | context [if ?b then _ else _] => destruct b; simpl in Hout
      end; rewrite ?elem_of_cons, ?elem_of_nil in Hout; naive_solver.
  Qed.

  (** ** C38 *)
  Lemma apply_event_spec e s : ∃ ok, (apply_event q e s).2 = event_call e ok ∧
    (∀ c, c ∈ event_call (RV:=RV) e ok → call_ok q s c) ∧ (apply_event q e s).1 = foldl (call_effect q) s (event_call e ok).
  Proof.
    unfold apply_event, event_call. destruct (e_type e).
    - destruct (so_add q s (e_obj e)) as [s' ok] eqn:Hx. exists ok. split; [done|]. simpl. rewrite Hx. split; [|done].
      intros c ->%elem_of_list_singleton. simpl. by rewrite Hx.
    - destruct (so_update q s (e_obj e)) as [s' ok] eqn:Hx. exists ok. split; [done|]. simpl. rewrite Hx. split; [|done].
      intros c ->%elem_of_list_singleton. simpl. by rewrite Hx.
    - destruct (so_delete q s (e_obj e)) as [s' ok] eqn:Hx. exists ok. split; [done|]. simpl. rewrite Hx. split; [|done].
      intros c ->%elem_of_list_singleton. simpl. by rewrite Hx.
    - exists true. split; [done|]. split; [by intros c ?%elem_of_nil|done].
    - exists true. split; [done|]. split; [by intros c ?%elem_of_nil|done].
    - exists true. split; [done|]. split; [by intros c ?%elem_of_nil|done].
  Qed.
  Lemma event_accepted s0 h r s e rv : exec rstep (refl_init, s0) h (r, s) → watching g (reverse h) → ¬ error_first (reverse h) → accepted g e rv →
    ∃ ok, (rstep (r, s) (IEvent e)).2 = event_call e ok ∧ (∀ c, c ∈ event_call (RV:=RV) e ok → call_ok q s c) ∧
      r_last (rstep (r, s) (IEvent e)).1.1 = Some rv.
  Proof.
    intros Hex Hwat Hnf Ha%classify_take. pose proof (First_exec _ _ _ _ Hex) as Hf. unfold First in Hf. apply RInv_exec in Hex as [Hw _ Hs Ho]. apply Hw in Hwat.
    simpl. destruct (r_pc r) as [| |n| |]; try done. destruct (r_noticed r); [by destruct Hnf; apply Hf|]. rewrite Ha.
    destruct (apply_event_spec e s) as (ok & H1 & H2 & _). exists ok. destruct (apply_event q e s) as [s' out]. simpl in *. done.
  Qed.
  Lemma event_not_accepted s0 h r s e : exec rstep (refl_init, s0) h (r, s) →
    ¬ (watching g (reverse h) ∧ ¬ error_first (reverse h) ∧ ∃ rv, accepted g e rv) →
    (rstep (r, s) (IEvent e)).2 = [] ∧ (rstep (r, s) (IEvent e)).1.2 = s ∧ r_last (rstep (r, s) (IEvent e)).1.1 = r_last r.
  Proof.
    intros Hex Hn. pose proof (First_exec _ _ _ _ Hex) as Hf. unfold First in Hf. apply RInv_exec in Hex as [Hw _ Hs Ho]. simpl. destruct (r_pc r) as [| |n| |]; try done. simpl in Hw, Hf.
    destruct (r_noticed r); [done|]. destruct (classify g e) as [| |rv] eqn:Hc; [done|done|]. exfalso. apply classify_take in Hc. apply Hn.
    split; [tauto|]. split; [rewrite <-Hf; done|eauto].
  Qed.
  (** the watch ends: the next thing is a list *)
  Lemma event_broken s0 h r s e : exec rstep (refl_init, s0) h (r, s) → watching g (reverse h) → broken g e →
    (rstep (r, s) (IEvent e)).2 = [] ∧ (rstep (r, s) (IEvent e)).1 = (Refl RIdle (r_last r) (r_opt r) ENone, s).
  Proof.
    intros [Hw Hf Hs Ho]%RInv_exec Hwat Hb%classify_raise. apply Hw in Hwat. simpl. destruct (r_pc r) as [| |n| |]; try done.
    destruct (r_noticed r); [done|]. by rewrite Hb.
  Qed.
  Lemma store_only_by_calls s0 h r s : exec rstep (refl_init, s0) h (r, s) → s = foldl (call_effect q) s0 (concat h.*2).
  Proof.
    intros Hex. change s with (r, s).2. revert Hex. generalize (r, s). intros x. clear r s.
    apply (exec_trace_inv rstep (λ h x, x.2 = foldl (call_effect q) s0 (concat h.*2))); [done|]. intros h' [r s] i _ Hx. simpl in Hx.
    rewrite fmap_app, concat_app, foldl_app. csimpl. rewrite app_nil_r, <-Hx. clear Hx.
    destruct i as [|items rv| | |e|short| |due| | |]; simpl; destruct (r_pc r) eqn:Hpc; simpl; try done.
    - destruct (so_replace q s items rv) as [s' []] eqn:Hr; simpl; by rewrite Hr.
    - destruct (r_noticed r); [done|]. destruct (classify g e) as [| |rv]; try done.
      destruct (apply_event_spec e s) as (ok & H1 & _ & H3). destruct (apply_event q e s) as [s' out]. simpl in *. by subst.
    - by destruct (r_noticed r || short && (n =? 0)).
    - destruct (negb due || r_failed r); [done|]. destruct (so_resync q s) as [s' ok] eqn:Hr. simpl. by rewrite Hr.
    - destruct (negb due || r_failed r); [done|]. destruct (so_resync q s) as [s' ok] eqn:Hr. simpl. by rewrite Hr.
    - destruct (negb due || r_failed r); [done|]. destruct (so_resync q s) as [s' ok] eqn:Hr. simpl. by rewrite Hr.
    - by destruct (r_failed r).
    - by destruct (r_failed r).
  Qed.

  (** ** C40 *)
  Definition will_list (x : refl RV * S) : Prop := ∀ items rv, ∃ ok, (rstep x (IList items rv)).2 = [CReplace items rv ok].
  Definition will_watch (x : refl RV * S) (v : option RV) : Prop := (rstep x IWatch).2 = [CWatch v].
  Lemma idle_lists r s : r_pc r = RIdle → will_list (r, s).
  Proof. intros Hr items rv. simpl. rewrite Hr. destruct (so_replace q s items rv) as [s' ok]. exists ok. by destruct ok. Qed.
  Lemma stream_end_continues s0 h r s i : exec rstep (refl_init, s0) h (r, s) → watching g (reverse h) →
    (∃ short, i = IClose short) ∨ (∃ e, i = IEvent e ∧ broken g e) ∨ (i = ISeeError ∧ resync_failed (reverse h)) →
    will_list (rstep (r, s) i).1 ∨ will_watch (rstep (r, s) i).1 (r_last r).
  Proof.
    intros Hex Hw [[short ->]|[(e & -> & Hb)|[-> Hf]]].
    - apply RInv_exec in Hex as [Hw' _ _ Ho]. apply Hw' in Hw. simpl. destruct (r_pc r) as [| |n| |]; try done.
      destruct (r_noticed r || short && (n =? 0)); [left; by apply idle_lists|right]. unfold will_watch. simpl. by rewrite Ho.
    - left. destruct (event_broken _ _ _ _ _ Hex Hw Hb) as [_ ->]. by apply idle_lists.
    - apply RInv_exec in Hex as [Hw' Hf' _ Ho]. apply Hw' in Hw. simpl. destruct (r_pc r) as [| |n| |]; try done.
      simpl in Hf'. destruct (r_failed r); [left; by apply idle_lists|]. exfalso. assert (false = true) by tauto. done.
  Qed.
  (** a watch that closes after at least a second, or after an accepted event, is resumed without listing *)
  Lemma close_resumes s0 h r s short : exec rstep (refl_init, s0) h (r, s) → watching g (reverse h) → ¬ error_first (reverse h) →
    short = false → will_watch (rstep (r, s) (IClose short)).1 (r_last r).
  Proof.
    intros Hex Hwat Hnf ->. pose proof (First_exec _ _ _ _ Hex) as Hf. unfold First in Hf. apply RInv_exec in Hex as [Hw _ _ Ho]. apply Hw in Hwat. simpl. destruct (r_pc r) as [| |n| |]; try done.
    simpl in Hf. destruct (r_noticed r); [by destruct Hnf; apply Hf|]. simpl. unfold will_watch. simpl. by rewrite Ho.
  Qed.
  Lemma stream_raise_hangs s0 h h2 x : exec rstep (refl_init, s0) (h ++ (IStreamRaises, []) :: h2) x → watching g (reverse h) →
    ¬ resync_failed (reverse h) → (∀ i out, (i, out) ∈ h2 → i ≠ ICancel ∧ out ≠ [CResync false]) →
    ∀ i out c, (i, out) ∈ h2 → c ∈ out → c = CResync true ∨ ∃ v, c = CLast v.
  Proof.
    intros Hex Hw Hnf Hall. apply exec_app in Hex as ([r s] & Hex & Hex2). apply RInv_exec in Hex as [Hw' Hf' _ _]. apply Hw' in Hw.
    apply exec_cons_iff in Hex2 as (x1 & Hst & Hex2). simpl in Hst. destruct (r_pc r) as [| |n| |]; try done.
    simpl in Hf'. assert (r_err r = ENone) as Her. { unfold r_failed in Hf'. destruct (r_err r); [done|by destruct Hnf; apply Hf'..]. } rewrite Her in Hst. injection Hst as <-. clear Her.
    clear Hnf Hf' Hw Hw' n. revert Hex2. generalize (r_last r) (r_opt r). revert s x. clear r.
    induction h2 as [|[i out] h2 IH]; intros s x v w Hex; [by intros ??? ?%elem_of_nil|].
    apply exec_cons_iff in Hex as ([r1 s1] & Hst & Hex). destruct (Hall i out ltac:(left)) as [Hi Ho].
    assert (Hr : r1 = Refl RHung v w ENone ∧ ∀ c, c ∈ out → c = CResync true ∨ ∃ v, c = CLast v).
    { destruct i as [|items rv| | |e|short| |due| | |]; simpl in Hst; simplify_eq; try (split; [done|]; by intros c ?%elem_of_nil).
      - unfold r_failed in Hst; simpl in Hst. destruct (negb due || false); [simplify_eq; split; [done|]; by intros c ?%elem_of_nil|].
        destruct (so_resync q s) as [s' ok]. simplify_eq. destruct ok; [|done]. split; [done|]. intros c ->%elem_of_list_singleton. by left.
      - split; [done|]. intros c ->%elem_of_list_singleton. eauto. }
    destruct Hr as [-> Hc]. intros i' out' c [[= -> ->]|Hin]%elem_of_cons; [by apply Hc|]. eapply (IH); [|exact Hex|exact Hin].
    intros i0 o0 ?. apply Hall. by right.
  Qed.
End proofs.
