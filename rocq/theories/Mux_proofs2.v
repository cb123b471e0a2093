From Verif Require Import Base Mux_model Mux_spec Mux_proofs.
From Coq Require Import ZArith.

Section proofs.
  Context {E : Type} (len : Z) (mode : behavior).
  Notation mux := (mux E).
  Notation mstep := (mstep (E:=E) len mode).
  Notation init := (mux_init (E:=E)).
  Implicit Types (s : mux) (tr : list (mlabel E)) (hs : list (request E * list nat)) (rs : list (request E)) (w : mwatcher E).

  Definition inflight (i : nat) (p : mphase E) : list E :=
    match p with MDist e ids j => if bool_decide (i ∈ (if j then tail ids else ids)) then [e] else [] | _ => [] end.
  Lemma inflight_next i e ids : inflight i (dist_next e ids) = if bool_decide (i ∈ ids) then [e] else [].
  Proof. by destruct ids. Qed.

  Lemma leaves_snoc i tr l : leaves i (tr ++ [l]) = leaves i tr + match l with MCancel j | MEnd j => if bool_decide (j = i) then 1 else 0 | _ => 0 end.
  Proof. unfold leaves. rewrite omap_app, app_length. f_equal. destruct l; try done; simpl; by destruct (bool_decide _). Qed.

  Record WI (i : nat) tr s w : Prop := {
    wi_stop : MStop i ∈ tr → mw_stopped w = true;
    wi_live : not_stopped i tr → m_phase s ≠ MEnded → i ∈ m_reg s ∧ mw_stopped w = false;
    wi_ended : m_phase s = MEnded → mw_stopped w = true;
    wi_due : ∃ x, due i (handled tr) = Some x ∧ taken i tr ++ mw_buf w ++ inflight i (m_phase s) `sublist_of` x ∧
                  (not_stopped i tr → taken i tr ++ mw_buf w ++ inflight i (m_phase s) = x);
    wi_max : mw_max w = capacity len i (handled tr).*1;
    wi_late : not_stopped i tr → mw_late w = false;
    wi_lost : no_cancel i tr → not_stopped i tr → mw_lost w = 0 ∨ (mw_buf w = [] ∧ m_phase s = MEnded);
    wi_count : length (taken i tr) + mw_lost w = length (received i tr) + leaves i tr;
    wi_sub : received i tr `sublist_of` taken i tr;
    wi_recv : no_cancel i tr → not_stopped i tr → received i tr = taken i tr;
    wi_unf : mw_max w = 0%Z → mw_unfinished w + length (received i tr) = length (mw_buf w) + length (taken i tr);
    wi_join : ∀ e ids, m_phase s = MDist e (i :: ids) true → mw_max w = 0%Z
  }.
  Record WN (i : nat) tr : Prop := {
    wn_stop : MStop i ∉ tr;
    wn_due : due i (handled tr) = None;
    wn_taken : taken i tr = [];
    wn_recv : received i tr = [];
    wn_leaves : leaves i tr = 0;
    wn_cancel : MCancel i ∉ tr
  }.
  Definition WA (i : nat) tr s : Prop := match m_ws s !! i with Some w => WI i tr s w | None => WN i tr end.

  (** a label that is not about watcher [i], nor about a request *)
  Definition foreign (i : nat) (l : mlabel E) : Prop :=
    match l with
    | MTake _ _ => False
    | MStop j | MNext j | MReturn j _ | MEnd j | MCancel j | MLose j _ => j ≠ i
    | _ => True
    end.
  Lemma foreign_facts i tr l : foreign i l → handled (tr ++ [l]) = handled tr ∧ taken i (tr ++ [l]) = taken i tr ∧ received i (tr ++ [l]) = received i tr ∧ leaves i (tr ++ [l]) = leaves i tr ∧
    (MStop i ∈ tr ++ [l] ↔ MStop i ∈ tr) ∧ (MCancel i ∈ tr ++ [l] ↔ MCancel i ∈ tr).
  Proof.
    intros Hf. rewrite handled_snoc, taken_snoc, received_snoc, leaves_snoc, !elem_of_app, !elem_of_list_singleton.
    destruct l; simpl in Hf; try done; rewrite ?bool_decide_false by done; rewrite ?app_nil_r, ?Nat.add_0_r; naive_solver.
  Qed.
  Lemma WA_foreign i tr s l s' : WA i tr s → foreign i l → m_ws s' !! i = m_ws s !! i → (m_phase s' = MEnded ↔ m_phase s = MEnded) →
    inflight i (m_phase s') = inflight i (m_phase s) → (i ∈ m_reg s' ↔ i ∈ m_reg s) →
    (∀ e ids, m_phase s' = MDist e (i :: ids) true → m_phase s = MDist e (i :: ids) true) → WA i (tr ++ [l]) s'.
  Proof.
    intros HW Hf Hw Hp Hi Hr Hj. unfold WA in *. rewrite Hw. destruct (foreign_facts i tr l Hf) as (F1 & F2 & F3 & F4 & F5 & F6).
    destruct (m_ws s !! i) as [w|].
    - destruct HW as [W1 W2 W3 W4 W5 W6 W7 W8 W9 W10 W11 W12]. unfold not_stopped, no_cancel in *. split; unfold not_stopped, no_cancel; rewrite ?F1, ?F2, ?F3, ?F4.
      + by rewrite F5.
      + intros H1 H2. destruct W2 as [H3 H4]; [by intros ?%F5|by intros ?%Hp|]. split; [by apply Hr|done].
      + by rewrite Hp.
      + rewrite Hi. destruct W4 as (x & ? & ? & W4). exists x. split; [done|]. split; [done|]. intros H1. apply W4. by intros ?%F5.
      + done.
      + intros H1. apply W6. by intros ?%F5.
      + intros H1 H2. destruct W7 as [|[? H]]; [by intros ?%F6|by intros ?%F5|by left|right]. split; [done|]. by apply Hp.
      + done.
      + done.
      + intros H1 H2. apply W10; [by intros ?%F6|by intros ?%F5].
      + done.
      + intros e ids He. eapply W12. by apply Hj.
    - destruct HW as [W1 W2 W3 W4 W5 W6]. split; rewrite ?F1, ?F2, ?F3, ?F4, ?F5, ?F6; done.
  Qed.

  Lemma WA_init i : WA i [] init.
  Proof. unfold WA. simpl. split; try done; by intros ?%elem_of_nil. Qed.

  (** a step of watcher [i] itself that takes nothing *)
  Lemma due_watch i hs pre : due i (hs ++ [(RWatch pre, [])]) = if bool_decide (nwatch hs.*1 = i) then Some (default [] pre) else due i hs.
  Proof. rewrite due_snoc, due_state. done. Qed.
  Lemma due_event i hs e ms : due i (hs ++ [(REvent e, ms)]) = if bool_decide (i ∈ ms) then due i hs else (λ es, es ++ [e]) <$> due i hs.
  Proof. rewrite due_snoc, due_state. done. Qed.
  Lemma due_shutdown i hs ms : due i (hs ++ [(RShutdown, ms)]) = due i hs.
  Proof. rewrite due_snoc, due_state. done. Qed.
  Lemma nwatch_cons r rs : nwatch (r :: rs) = match r with RWatch _ => 1 | _ => 0 end + nwatch rs.
  Proof. by destruct r. Qed.
  Lemma capacity_snoc i rs r : i < nwatch rs → capacity len i (rs ++ [r]) = capacity len i rs.
  Proof. revert i. induction rs as [|r0 rs IH]; intros i; [unfold nwatch; simpl; lia|]. rewrite nwatch_cons. destruct r0; simpl; [apply IH| |apply IH]. destruct i; [done|]. intros ?. apply IH. lia. Qed.
  Lemma capacity_new rs pre : capacity len (nwatch rs) (rs ++ [RWatch pre]) = mw_max (new_watcher len pre).
  Proof. induction rs as [|r0 rs IH]; [by destruct pre|]. rewrite nwatch_cons. destruct r0; simpl; done. Qed.

  Lemma WA_take i tr s r ms s' : ctl mode tr s → WA i tr s → mstep s (MTake r ms) s' → WA i (tr ++ [MTake r ms]) s'.
  Proof.
    intros HC HW Hst. pose proof HC as [C1 C2 C3 C4 C5 C6 C7].
    assert (F : taken i (tr ++ [MTake r ms]) = taken i tr ∧ received i (tr ++ [MTake r ms]) = received i tr ∧ leaves i (tr ++ [MTake r ms]) = leaves i tr ∧
      (MStop i ∈ tr ++ [MTake r ms] ↔ MStop i ∈ tr) ∧ (MCancel i ∈ tr ++ [MTake r ms] ↔ MCancel i ∈ tr)).
    { rewrite taken_snoc, received_snoc, leaves_snoc, !elem_of_app, !elem_of_list_singleton, !app_nil_r, Nat.add_0_r. naive_solver. }
    destruct F as (F2 & F3 & F4 & F5 & F6). unfold WA in *.
    inversion Hst as [|pre q reg ws|q reg ws|e q reg ws ws' ms' Hm Hd|e q reg ws Hm| | | | | | | | | |]; subst; clear Hst; simpl in *.
    - destruct (decide (i = length ws)) as [->|Hne].
      + rewrite lookup_ge_None_2 in HW by done. destruct HW as [N1 N2 N3 N4 N5 N6]. rewrite list_lookup_middle by done.
        split; rewrite ?handled_snoc, ?F2, ?F3, ?F4, ?F5, ?F6; simpl; unfold not_stopped, no_cancel; rewrite ?F5, ?F6; try done.
        * intros _ _. split; [apply elem_of_app; right; by left|]. by destruct pre.
        * rewrite due_watch, bool_decide_true by done. exists (default [] pre). rewrite N3. simpl. rewrite app_nil_r. split; [done|]. by destruct pre.
        * rewrite fmap_app. csimpl. rewrite C3. symmetry. apply capacity_new.
        * by destruct pre.
        * left. by destruct pre.
        * rewrite N3, N4, N5. by destruct pre.
        * by rewrite N3, N4.
        * by rewrite N3, N4.
        * rewrite N3, N4. destruct pre; simpl; lia.
      + destruct (ws !! i) as [w|] eqn:Hw.
        * apply lookup_lt_Some in Hw as Hlt. rewrite lookup_app_l, Hw by done. destruct HW as [W1 W2 W3 W4 W5 W6 W7 W8 W9 W10 W11 W12].
          split; rewrite ?handled_snoc, ?F2, ?F3, ?F4, ?F5, ?F6; simpl; unfold not_stopped, no_cancel; rewrite ?F5, ?F6; try done.
          -- intros H1 H2. destruct (W2 H1 H2). split; [|done]. apply elem_of_app. by left.
          -- rewrite due_watch, bool_decide_false by lia. destruct W4 as (x & ? & ? & W4). exists x. split; [done|]. split; [done|]. intros Hx. apply W4. by intros ?%F5.
          -- rewrite fmap_app. csimpl. rewrite capacity_snoc by lia. done.
        * apply lookup_ge_None in Hw as Hge. rewrite lookup_ge_None_2 by (rewrite app_length; simpl; lia). destruct HW as [N1 N2 N3 N4 N5 N6].
          split; rewrite ?handled_snoc, ?F2, ?F3, ?F4, ?F5, ?F6; try done. rewrite due_watch, bool_decide_false by lia. done.
    - destruct (close_all_spec reg ws) as [H1 H2]. rewrite H2. destruct (ws !! i) as [w|] eqn:Hw.
      + destruct HW as [W1 W2 W3 W4 W5 W6 W7 W8 W9 W10 W11 W12]. simpl in *. apply lookup_lt_Some in Hw as Hlt.
        assert (Hst : (if bool_decide (i ∈ reg) then Some (mstop w) else Some w) = Some (mstop w)).
        { destruct (bool_decide_reflect (i ∈ reg)); [done|]. f_equal. destruct w as [? ? ? [] ? ? ?]; [done|]. simpl in *. destruct W2 as [? _]; try done. intros Hs. by specialize (W1 Hs). }
        rewrite Hst. split; rewrite ?handled_snoc, ?F2, ?F3, ?F4, ?F5, ?F6; simpl; unfold not_stopped, no_cancel; rewrite ?F5, ?F6; try done.
        * rewrite due_shutdown. destruct W4 as (x & ? & ? & W4). exists x. split; [done|]. split; [done|]. intros Hx. apply W4. by intros ?%F5.
        * rewrite fmap_app. csimpl. rewrite capacity_snoc by lia. done.
        * intros Hc Hs. destruct (W7 Hc Hs) as [|[_ ?]]; [by left|done].
      + assert ((if bool_decide (i ∈ reg) then mstop <$> None else None) = @None (mwatcher E)) as -> by (by destruct (bool_decide _)). destruct HW as [N1 N2 N3 N4 N5 N6].
        split; rewrite ?handled_snoc, ?F2, ?F3, ?F4, ?F5, ?F6; try done. by rewrite due_shutdown.
    - destruct (drop_dist_spec e reg ws ws' ms C4 Hd) as (H1 & H2 & H3). rewrite H2. destruct (ws !! i) as [w|] eqn:Hw.
      + destruct HW as [W1 W2 W3 W4 W5 W6 W7 W8 W9 W10 W11 W12]. simpl in *. apply lookup_lt_Some in Hw as Hlt. destruct W4 as (x & D1 & D2 & D3). rewrite app_nil_r in D2, D3.
        assert (Hcap : mw_max w = capacity len i (handled (tr ++ [MTake (REvent e) ms])).*1). { rewrite handled_snoc, fmap_app. csimpl. rewrite capacity_snoc by lia. done. }
        assert (Hns : not_stopped i (tr ++ [MTake (REvent e) ms]) → not_stopped i tr) by (unfold not_stopped; by rewrite F5).
        destruct (bool_decide_reflect (i ∈ reg)) as [Hr|Hr]; [destruct (mw_stopped w) eqn:Hs; [|destruct (mfull w) eqn:Hf]|].
        * simpl. rewrite ?Hs. simpl. assert (i ∉ ms). { intros (_ & w' & Hw' & ? & _)%H3. congruence. }
          split; unfold no_cancel; rewrite ?F2, ?F3, ?F4, ?F5, ?F6, ?app_nil_r; simpl; try done.
          -- intros Hx _. split; [done|]. by destruct (W2 (Hns Hx) ltac:(done)).
          -- exists (x ++ [e]). rewrite handled_snoc, due_event, bool_decide_false, D1, ?app_nil_r by done. split; [done|]. split; [by apply sublist_inserts_r|]. intros Hx. by destruct (W2 (Hns Hx) ltac:(done)).
          -- intros Hx. by apply W6, Hns.
          -- intros Hc Hx. by apply W7, Hns.
          -- intros Hc Hx. by apply W10, Hns.
        * simpl. rewrite ?Hs, ?Hf. simpl. assert (i ∈ ms). { apply H3. split; [done|]. by exists w. }
          split; unfold no_cancel; rewrite ?F2, ?F3, ?F4, ?F5, ?F6, ?app_nil_r; simpl; try done.
          -- intros Hx. by specialize (W1 Hx).
          -- exists x. rewrite handled_snoc, due_event, bool_decide_true, ?app_nil_r by done. split; [done|]. split; [done|]. intros Hx. by apply D3, Hns.
          -- intros Hx. by apply W6, Hns.
          -- intros Hc Hx. by apply W7, Hns.
          -- intros Hc Hx. by apply W10, Hns.
        * simpl. rewrite ?Hs, ?Hf. simpl. assert (i ∉ ms). { intros (_ & w' & Hw' & _ & ?)%H3. congruence. }
          split; unfold no_cancel; rewrite ?F2, ?F3, ?F4, ?F5, ?F6, ?app_nil_r; simpl; try done.
          -- intros Hx. by specialize (W1 Hx).
          -- exists (x ++ [e]). rewrite handled_snoc, due_event, bool_decide_false, D1, ?app_nil_r, app_assoc by done. split; [done|]. split; [by apply sublist_app|]. intros Hx. by rewrite D3 by (by apply Hns).
          -- intros Hx. rewrite Hs, W6 by (by apply Hns). done.
          -- intros Hc Hx. destruct (W7 Hc (Hns Hx)) as [|[_ ?]]; [by left|done].
          -- intros Hc Hx. by apply W10, Hns.
          -- intros Hx. rewrite app_length. simpl. specialize (W11 Hx). lia.
        * assert (i ∉ ms). { by intros (? & _)%H3. }
          assert (Hx : ¬ not_stopped i (tr ++ [MTake (REvent e) ms])). { intros Hx. by destruct (W2 (Hns Hx) ltac:(done)). }
          split; unfold no_cancel; rewrite ?F2, ?F3, ?F4, ?F5, ?F6, ?app_nil_r; simpl; try done.
          exists (x ++ [e]). rewrite handled_snoc, due_event, bool_decide_false, D1, ?app_nil_r by done. split; [done|]. split; [by apply sublist_inserts_r|done].
      + assert ((if bool_decide (i ∈ reg) then (λ w, if mw_stopped w || mfull w then w else mput e w) <$> None else None) = @None (mwatcher E)) as -> by (by destruct (bool_decide _)).
        destruct HW as [N1 N2 N3 N4 N5 N6]. split; rewrite ?handled_snoc, ?F2, ?F3, ?F4, ?F5, ?F6; try done. rewrite due_event, N2. by destruct (bool_decide _).
    - destruct (ws !! i) as [w|] eqn:Hw.
      + destruct HW as [W1 W2 W3 W4 W5 W6 W7 W8 W9 W10 W11 W12]. simpl in *. apply lookup_lt_Some in Hw as Hlt. destruct W4 as (x & D1 & D2 & D3). rewrite app_nil_r in D2, D3.
        assert (Hns : not_stopped i (tr ++ [MTake (REvent e) []]) → not_stopped i tr) by (unfold not_stopped; by rewrite F5).
        split; unfold no_cancel; rewrite ?F2, ?F3, ?F4, ?F5, ?F6; simpl; try done.
        * intros Hx _. by apply W2; [by apply Hns|].
        * by intros ?%dist_next_ended.
        * exists (x ++ [e]). rewrite handled_snoc, due_event, bool_decide_false, D1, inflight_next by (by apply not_elem_of_nil). split; [done|]. split.
          -- destruct (bool_decide _); [rewrite app_assoc; by apply sublist_app|rewrite app_nil_r; by apply sublist_inserts_r].
          -- intros Hx. destruct (W2 (Hns Hx) ltac:(done)) as [Hr _]. rewrite bool_decide_true by done. rewrite app_assoc. by rewrite D3 by (by apply Hns).
        * rewrite handled_snoc, fmap_app. csimpl. rewrite capacity_snoc by lia. done.
        * intros Hx. by apply W6, Hns.
        * intros Hc Hx. destruct (W7 Hc (Hns Hx)) as [|[_ ?]]; [by left|done].
        * intros Hc Hx. by apply W10, Hns.
        * intros e' ids (_ & _ & ? & _)%dist_next_phase. done.
      + destruct HW as [N1 N2 N3 N4 N5 N6]. split; rewrite ?handled_snoc, ?F2, ?F3, ?F4, ?F5, ?F6; try done. rewrite due_event, N2. by destruct (bool_decide _).
  Qed.

  Lemma own_facts tr l : match l with MTake _ _ => False | _ => True end → handled (tr ++ [l]) = handled tr.
  Proof. intros Hl. rewrite handled_snoc. destruct l; try done; by rewrite app_nil_r. Qed.
  Lemma stop_snoc i tr (l : mlabel E) : not_stopped i (tr ++ [l]) ↔ not_stopped i tr ∧ MStop i ≠ l.
  Proof. apply not_in_snoc. Qed.
  Lemma cancel_snoc i tr (l : mlabel E) : no_cancel i (tr ++ [l]) ↔ no_cancel i tr ∧ MCancel i ≠ l.
  Proof. apply not_in_snoc. Qed.
  Lemma in_stop_snoc i tr (l : mlabel E) : MStop i ∈ tr ++ [l] ↔ MStop i ∈ tr ∨ MStop i = l.
  Proof. by rewrite elem_of_app, elem_of_list_singleton. Qed.

  Ltac own := rewrite ?own_facts, ?taken_snoc, ?received_snoc, ?leaves_snoc, ?stop_snoc, ?cancel_snoc, ?in_stop_snoc, ?bool_decide_true, ?app_nil_r, ?Nat.add_0_r by done; simpl.
  Ltac ns := first [solve [intros [? _]; auto] | solve [intros [? _] [? _]; auto] | solve [intros [?|?]; [auto|done]] | solve [intros [_ []]; done] | solve [intros ? [_ []]; done] | solve [intros [_ []] ?; done]].
  Lemma WA_other i tr s l s' : ctl mode tr s → WA i tr s → mstep s l s' → match l with MTake _ _ => False | _ => True end → WA i (tr ++ [l]) s'.
  Proof.
    intros HC HW Hst Hl. pose proof HC as [C1 C2 C3 C4 C5 C6 C7].
    destruct Hst as [q p reg ws r Hlt|pre q reg ws|q reg ws|e q reg ws ws' ms Hm Hd|e q reg ws Hm|e j ids q reg ws w Hw Hf|e j ids q reg ws w Hw Hs|e j ids q reg ws w Hw Hu
      |j q p reg ws w Hw|j q p reg ws w Hw Hs Hp|j q p reg ws m b u st lt lv lo Hw|j e q p reg ws m b u st lt lv lo Hw|j q p reg ws m b u lt lv lo Hw Hb|j q p reg ws m b u st lt lv lo Hw
      |j e q p reg ws m b u st lt lv lo Hw]; try done; simpl in *; clear Hl.
    - by eapply WA_foreign.
    - destruct (C6 _ _ _ eq_refl) as (D1 & D2 & D3 & D4). apply NoDup_cons in D2 as [D2 D2']. apply lookup_lt_Some in Hw as Hlt. destruct (decide (j = i)) as [->|Hne].
      + unfold WA in *. simpl in *. rewrite Hw in HW. rewrite list_lookup_insert by done. destruct HW as [W1 W2 W3 W4 W5 W6 W7 W8 W9 W10 W11 W12]. simpl in *.
        assert (Hin : ∀ p, p = (if bool_decide (mw_max w = 0%Z) then MDist e (i :: ids) true else dist_next e ids) → p ≠ MEnded ∧ inflight i p = []).
        { intros p ->. destruct (bool_decide (mw_max w = 0%Z)); simpl; [split; [done|]; by rewrite bool_decide_false by done|]. split; [apply dist_next_ended|]. by rewrite inflight_next, bool_decide_false. }
        destruct (Hin _ eq_refl) as [Hin1 Hin2]. split; own; unfold not_stopped, no_cancel in *.
        * ns.
        * ns.
        * done.
        * rewrite Hin2, app_nil_r. rewrite bool_decide_true in W4 by left. destruct W4 as (x & ? & ? & ?). exists x. split; [done|]. split; [done|]. intros [? _]%stop_snoc; auto.
        * done.
        * intros [Hx _]. rewrite (W6 Hx). destruct (W2 Hx ltac:(done)) as [_ ->]. done.
        * intros [Hc _] [Hx _]. destruct (W7 Hc Hx) as [|[_ ?]]; [by left|done].
        * done.
        * done.
        * intros [Hc _] [Hx _]. auto.
        * intros Hm. specialize (W11 Hm). rewrite app_length. simpl. lia.
        * intros e' ids'. destruct (bool_decide_reflect (mw_max w = 0%Z)); [done|]. by intros (_ & _ & ? & _)%dist_next_phase.
      + eapply WA_foreign; [exact HW|done|..]; simpl.
        * by rewrite list_lookup_insert_ne.
        * split; [|done]. destruct (bool_decide _); [done|]. by intros ?%dist_next_ended.
        * assert (bool_decide (i ∈ j :: ids) = bool_decide (i ∈ ids)) as -> by (apply bool_decide_ext; rewrite elem_of_cons; naive_solver). destruct (bool_decide (mw_max w = 0%Z)); [done|]. apply inflight_next.
        * done.
        * intros e' ids'. destruct (bool_decide (mw_max w = 0%Z)); [congruence|]. by intros (_ & _ & ? & _)%dist_next_phase.
    - destruct (C6 _ _ _ eq_refl) as (D1 & D2 & D3 & D4). apply NoDup_cons in D2 as [D2 D2']. destruct (decide (j = i)) as [->|Hne].
      + unfold WA in *. simpl in *. rewrite Hw in HW |- *. destruct HW as [W1 W2 W3 W4 W5 W6 W7 W8 W9 W10 W11 W12]. simpl in *.
        assert (Hx : MStop i ∉ tr → False). { intros Hx. destruct (W2 Hx ltac:(done)). congruence. } split; own; unfold not_stopped, no_cancel in *; try done.
        * intros [Hy _]. by destruct (Hx Hy).
        * rewrite inflight_next, bool_decide_false, app_nil_r by done. rewrite bool_decide_true in W4 by left. destruct W4 as (x & ? & Hsub & _). exists x. split; [done|]. split.
          -- etrans; [|exact Hsub]. apply sublist_app; [done|]. by apply sublist_inserts_r.
          -- intros [Hy _]%stop_snoc. by destruct (Hx Hy).
        * intros [Hy _]. by destruct (Hx Hy).
        * intros _ [Hy _]. by destruct (Hx Hy).
        * intros _ [Hy _]. by destruct (Hx Hy).
        * by intros e' ids' (_ & _ & ? & _)%dist_next_phase.
      + eapply WA_foreign; [exact HW|done|..]; simpl; try done.
        * split; [|done]. by intros ?%dist_next_ended.
        * assert (bool_decide (i ∈ j :: ids) = bool_decide (i ∈ ids)) as -> by (apply bool_decide_ext; rewrite elem_of_cons; naive_solver). apply inflight_next.
        * by intros e' ids' (_ & _ & ? & _)%dist_next_phase.
    - eapply WA_foreign; [exact HW|done|..]; simpl; try done.
      + split; [|done]. by intros ?%dist_next_ended.
      + apply inflight_next.
      + by intros e' ids' (_ & _ & ? & _)%dist_next_phase.
    - apply lookup_lt_Some in Hw as Hlt. destruct (decide (j = i)) as [->|Hne].
      + unfold WA in *. simpl in *. rewrite Hw in HW. rewrite list_lookup_insert by done. destruct HW as [W1 W2 W3 W4 W5 W6 W7 W8 W9 W10 W11 W12]. simpl in *.
        split; own; unfold not_stopped, no_cancel in *; try done; try ns. destruct W4 as (x & ? & ? & _). exists x. split; [done|]. split; [done|]. intros [_ []]%stop_snoc; done.
      + eapply WA_foreign; [exact HW|done|..]; simpl; try done. by rewrite list_lookup_insert_ne.
    - destruct (decide (j = i)) as [->|Hne].
      + unfold WA in *. simpl in *. rewrite Hw in HW |- *. destruct HW as [W1 W2 W3 W4 W5 W6 W7 W8 W9 W10 W11 W12]. simpl in *.
        split; own; unfold not_stopped, no_cancel in *; try done; try ns.
        * intros [Hx _] Hne. destruct (W2 Hx Hne). congruence.
        * destruct W4 as (x & ? & ? & ?). exists x. split; [done|]. split; [done|]. intros [? _]%stop_snoc; auto.
      + eapply WA_foreign; [exact HW|done|..]; simpl; try done. rewrite elem_of_list_filter. naive_solver.
    - apply lookup_lt_Some in Hw as Hlt. destruct (decide (j = i)) as [->|Hne].
      + unfold WA in *. simpl in *. rewrite Hw in HW. rewrite list_lookup_insert by done. destruct HW as [W1 W2 W3 W4 W5 W6 W7 W8 W9 W10 W11 W12]. simpl in *.
        split; own; unfold not_stopped, no_cancel in *; try done; try ns. destruct W4 as (x & ? & ? & ?). exists x. split; [done|]. split; [done|]. intros [? _]%stop_snoc; auto.
      + eapply WA_foreign; [exact HW|done|..]; simpl; try done. by rewrite list_lookup_insert_ne.
    - apply lookup_lt_Some in Hw as Hlt. destruct (decide (j = i)) as [->|Hne].
      + unfold WA in *. simpl in *. rewrite Hw in HW. rewrite list_lookup_insert by done. destruct HW as [W1 W2 W3 W4 W5 W6 W7 W8 W9 W10 W11 W12]. simpl in *.
        apply sublist_length in W9 as W9'. split; own; unfold not_stopped, no_cancel in *; try done; try ns.
        * rewrite <-app_assoc. destruct W4 as (x & ? & ? & ?). exists x. split; [done|]. split; [done|]. intros [? _]%stop_snoc; auto.
        * intros [Hc _] [Hx _]. destruct (W7 Hc Hx) as [|[? _]]; [by left|done].
        * rewrite !app_length. simpl. lia.
        * by apply sublist_app.
        * intros [Hc _] [Hx _]. by rewrite W10.
        * intros Hm. specialize (W11 Hm). rewrite bool_decide_true by done. rewrite !app_length. simpl. lia.
      + eapply WA_foreign; [exact HW|done|..]; simpl; try done. by rewrite list_lookup_insert_ne.
    - apply lookup_lt_Some in Hw as Hlt. destruct (decide (j = i)) as [->|Hne].
      + unfold WA in *. simpl in *. rewrite Hw in HW. rewrite list_lookup_insert by done. destruct HW as [W1 W2 W3 W4 W5 W6 W7 W8 W9 W10 W11 W12]. simpl in *.
        split; own; unfold not_stopped, no_cancel in *; try done; try ns.
        * destruct W4 as (x & ? & ? & ?). exists x. split; [done|]. split; [done|]. intros [? _]%stop_snoc; auto.
        * intros _ [Hx _]. right. specialize (W6 Hx). subst lt. destruct Hb as [->|?]; [|done]. split; [done|]. destruct p; try done; by destruct (W2 Hx ltac:(done)).
        * lia.
      + eapply WA_foreign; [exact HW|done|..]; simpl; try done. by rewrite list_lookup_insert_ne.
    - apply lookup_lt_Some in Hw as Hlt. destruct (decide (j = i)) as [->|Hne].
      + unfold WA in *. simpl in *. rewrite Hw in HW. rewrite list_lookup_insert by done. destruct HW as [W1 W2 W3 W4 W5 W6 W7 W8 W9 W10 W11 W12]. simpl in *.
        split; own; unfold not_stopped, no_cancel in *; try done; try ns.
        * destruct W4 as (x & ? & ? & ?). exists x. split; [done|]. split; [done|]. intros [? _]%stop_snoc; auto.
        * lia.
      + eapply WA_foreign; [exact HW|done|..]; simpl; try done. by rewrite list_lookup_insert_ne.
    - apply lookup_lt_Some in Hw as Hlt. destruct (decide (j = i)) as [->|Hne].
      + unfold WA in *. simpl in *. rewrite Hw in HW. rewrite list_lookup_insert by done. destruct HW as [W1 W2 W3 W4 W5 W6 W7 W8 W9 W10 W11 W12]. simpl in *.
        split; own; unfold not_stopped, no_cancel in *; try done; try ns.
        * rewrite <-app_assoc. destruct W4 as (x & ? & ? & ?). exists x. split; [done|]. split; [done|]. intros [? _]%stop_snoc; auto.
        * intros [Hc _] [Hx _]. by destruct (W7 Hc Hx) as [|[? _]].
        * rewrite app_length. simpl. lia.
        * by apply sublist_inserts_r.
        * intros [Hc _] [Hx _]. by destruct (W7 Hc Hx) as [|[? _]].
        * intros Hm. specialize (W11 Hm). rewrite app_length. simpl. lia.
      + eapply WA_foreign; [exact HW|done|..]; simpl; try done. by rewrite list_lookup_insert_ne.
  Qed.
  Lemma WA_reach i tr s : reach mstep init tr s → WA i tr s.
  Proof.
    intros Hr. assert (ctl mode tr s ∧ WA i tr s) as [_ ?]; [|done]. revert Hr. apply (reach_trace_inv mstep (λ tr s, ctl mode tr s ∧ WA i tr s) init tr s).
    - split; [apply ctl_init|apply WA_init].
    - intros ls s1 l s2 _ [HC HW] Hst. split; [by eapply ctl_step|]. destruct l; try (eapply WA_other; [exact HC|exact HW|exact Hst|done]). by eapply WA_take.
  Qed.
End proofs.
