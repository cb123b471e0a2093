From Verif Require Import Base Mux_model Mux_spec.
From Coq Require Import ZArith.

Section proofs.
  Context {E : Type} (len : Z) (mode : behavior).
  Notation mux := (mux E).
  Notation mstep := (mstep (E:=E) len mode).
  Notation init := (mux_init (E:=E)).
  Implicit Types (s : mux) (tr : list (mlabel E)) (hs : list (request E * list nat)) (rs : list (request E)) (w : mwatcher E).

  (** ** trace functions *)
  Lemma accepted_snoc tr l : accepted (tr ++ [l]) = accepted tr ++ match l with MSubmit r => [r] | _ => [] end.
  Proof. unfold accepted. rewrite omap_app. f_equal. by destruct l. Qed.
  Lemma handled_snoc tr l : handled (tr ++ [l]) = handled tr ++ match l with MTake r ms => [(r, ms)] | _ => [] end.
  Proof. unfold handled. rewrite omap_app. f_equal. by destruct l. Qed.
  Lemma received_snoc i tr l : received i (tr ++ [l]) = received i tr ++ match l with MReturn j e => if bool_decide (j = i) then [e] else [] | _ => [] end.
  Proof. unfold received. rewrite omap_app. f_equal. destruct l; try done. simpl. by destruct (bool_decide _). Qed.
  Lemma taken_snoc i tr l : taken i (tr ++ [l]) = taken i tr ++ match l with MReturn j e | MLose j e => if bool_decide (j = i) then [e] else [] | _ => [] end.
  Proof. unfold taken. rewrite omap_app. f_equal. destruct l; try done; simpl; by destruct (bool_decide _). Qed.
  Lemma due_snoc i hs h : due i (hs ++ [h]) = (due_step i (foldl (due_step i) (0, None) hs) h).2.
  Proof. unfold due. by rewrite foldl_app. Qed.
  Lemma not_in_snoc (l0 : mlabel E) tr l : l0 ∉ tr ++ [l] ↔ l0 ∉ tr ∧ l0 ≠ l.
  Proof. rewrite elem_of_app, elem_of_list_singleton. naive_solver. Qed.

  Definition nwatch rs : nat := length (omap (λ r : request E, match r with RWatch _ => Some tt | _ => None end) rs).
  Lemma nwatch_snoc rs r : nwatch (rs ++ [r]) = nwatch rs + match r with RWatch _ => 1 | _ => 0 end.
  Proof. unfold nwatch. rewrite omap_app, app_length. f_equal. by destruct r. Qed.
  Lemma due_count i hs : (foldl (due_step i) (0, None) hs).1 = nwatch hs.*1.
  Proof.
    induction hs as [|[r ms] hs IH] using rev_ind; [done|]. rewrite foldl_app, fmap_app. csimpl. rewrite nwatch_snoc.
    destruct (foldl _ _ hs) as [n o]. simpl in *. destruct r; simpl; lia.
  Qed.
  Lemma due_state i hs : foldl (due_step i) (0, None) hs = (nwatch hs.*1, due i hs).
  Proof. rewrite <-(due_count i). unfold due. by destruct (foldl _ _ _). Qed.

  (** ** the loop *)
  Record ctl tr s : Prop := {
    c_fifo : accepted tr = (handled tr).*1 ++ m_incoming s;
    c_ended : RShutdown ∈ (handled tr).*1 ↔ m_phase s = MEnded;
    c_count : length (m_ws s) = nwatch (handled tr).*1;
    c_nodup : NoDup (m_reg s);
    c_reg : ∀ i, i ∈ m_reg s → i < length (m_ws s);
    c_dist : ∀ e ids j, m_phase s = MDist e ids j → ids ≠ [] ∧ NoDup ids ∧ (∀ i, i ∈ ids → i < length (m_ws s)) ∧ mode = WaitIfFull;
    c_missed : mode = WaitIfFull → ∀ h, h ∈ handled tr → h.2 = []
  }.

  Lemma drop_dist_spec e ids : ∀ ws ws' ms, NoDup ids → drop_dist e ids ws = (ws', ms) → length ws' = length ws ∧
    (∀ i, ws' !! i = if bool_decide (i ∈ ids) then (λ w, if mw_stopped w || mfull w then w else mput e w) <$> ws !! i else ws !! i) ∧
    (∀ i, i ∈ ms ↔ i ∈ ids ∧ ∃ w, ws !! i = Some w ∧ mw_stopped w = false ∧ mfull w = true).
  Proof.
    induction ids as [|i ids IH]; intros ws ws' ms Hnd; simpl.
    - intros [= <- <-]. split; [done|]. split; [done|]. intros i. rewrite !elem_of_nil. naive_solver.
    - apply NoDup_cons in Hnd as [Hi Hnd]. destruct (ws !! i) as [w|] eqn:Hw.
      + destruct (mw_stopped w) eqn:Hst.
        { intros Hd. destruct (IH _ _ _ Hnd Hd) as (H1 & H2 & H3). split; [done|]. split.
          - intros j. rewrite H2. destruct (decide (j = i)) as [->|Hne].
            + rewrite (bool_decide_false (i ∈ ids)) by done. rewrite bool_decide_true by left. rewrite Hw. simpl. by rewrite Hst.
            + apply (f_equal (λ b : bool, if b then _ else _)). apply bool_decide_ext. rewrite elem_of_cons. naive_solver.
          - intros j. rewrite H3, elem_of_cons. split; [intros [? ?]; split; [by right|done]|]. intros [[->|?] (w' & ? & ? & ?)]; [congruence|]. split; [done|]. by exists w'. }
        destruct (mfull w) eqn:Hf.
        * destruct (drop_dist e ids ws) as [ws1 ms1] eqn:Hd. intros [= <- <-]. destruct (IH _ _ _ Hnd Hd) as (H1 & H2 & H3). split; [done|]. split.
          -- intros j. rewrite H2. destruct (decide (j = i)) as [->|Hne].
             ++ rewrite (bool_decide_false (i ∈ ids)) by done. rewrite bool_decide_true by left. rewrite Hw. simpl. by rewrite Hst, Hf.
             ++ apply (f_equal (λ b : bool, if b then _ else _)). apply bool_decide_ext. rewrite elem_of_cons. naive_solver.
          -- intros j. rewrite !elem_of_cons, H3. split; [intros [->|[? ?]]; split; [by left|by exists w|by right|done]|]. intros [[->|?] Hx]; [by left|by right].
        * intros Hd. destruct (IH _ _ _ Hnd Hd) as (H1 & H2 & H3). rewrite insert_length in H1. apply lookup_lt_Some in Hw as Hlt. split; [done|]. split.
          -- intros j. rewrite H2. destruct (decide (j = i)) as [->|Hne].
             ++ rewrite (bool_decide_false (i ∈ ids)) by done. rewrite bool_decide_true by left. rewrite Hw. rewrite list_lookup_insert by done. simpl. by rewrite Hst, Hf.
             ++ rewrite list_lookup_insert_ne by done. apply (f_equal (λ b : bool, if b then _ else _)). apply bool_decide_ext. rewrite elem_of_cons. naive_solver.
          -- intros j. rewrite H3, elem_of_cons. destruct (decide (j = i)) as [->|Hne]; [|rewrite list_lookup_insert_ne by done; split; [intros [? ?]; split; [by right|done]|intros [[?|?] ?]; done]]. split; [intros [? _]; done|]. intros [_ (w' & Hw' & _ & Hf')]. congruence.
      + intros Hd. destruct (IH _ _ _ Hnd Hd) as (H1 & H2 & H3). split; [done|]. split.
        * intros j. rewrite H2. destruct (decide (j = i)) as [->|Hne].
          -- rewrite (bool_decide_false (i ∈ ids)) by done. rewrite bool_decide_true by left. by rewrite Hw.
          -- apply (f_equal (λ b : bool, if b then _ else _)). apply bool_decide_ext. rewrite elem_of_cons. naive_solver.
        * intros j. rewrite H3, elem_of_cons. split; [intros [? ?]; split; [by right|done]|]. intros [[->|?] (w' & ? & ? & ?)]; [congruence|]. split; [done|]. by exists w'.
  Qed.
  Lemma close_all_spec reg : ∀ (ws : list (mwatcher E)), length (foldr (λ i ws, alter mstop i ws) ws reg) = length ws ∧
    ∀ i, foldr (λ i ws, alter mstop i ws) ws reg !! i = if bool_decide (i ∈ reg) then mstop <$> ws !! i else ws !! i.
  Proof.
    induction reg as [|j reg IH]; intros ws; simpl; [done|]. destruct (IH ws) as [H1 H2]. split; [by rewrite alter_length|]. intros i. destruct (decide (i = j)) as [->|Hne].
    - rewrite list_lookup_alter, H2. rewrite (bool_decide_true (j ∈ j :: reg)) by left. destruct (bool_decide (j ∈ reg)); [|done]. destruct (ws !! j); done.
    - rewrite list_lookup_alter_ne by done. rewrite H2. apply (f_equal (λ b : bool, if b then _ else _)). apply bool_decide_ext. rewrite elem_of_cons. naive_solver.
  Qed.

  Lemma ctl_init : ctl [] init.
  Proof. split; simpl; try done; try apply NoDup_nil_2; intros; try (by apply elem_of_nil in H); try (by apply elem_of_nil in H0). split; [by intros ?%elem_of_nil|done]. Qed.

  Lemma ctl_same tr s l s' : ctl tr s → handled (tr ++ [l]) = handled tr → accepted (tr ++ [l]) = accepted tr → m_incoming s' = m_incoming s → (m_phase s' = MEnded ↔ m_phase s = MEnded) →
    length (m_ws s') = length (m_ws s) → NoDup (m_reg s') → (∀ i, i ∈ m_reg s' → i ∈ m_reg s) →
    (∀ e ids j, m_phase s' = MDist e ids j → ids ≠ [] ∧ NoDup ids ∧ (∀ i, i ∈ ids → i < length (m_ws s)) ∧ mode = WaitIfFull) → ctl (tr ++ [l]) s'.
  Proof.
    intros [C1 C2 C3 C4 C5 C6 C7] Hh Ha Hi Hp Hl Hn Hr Hd. split; rewrite ?Hh, ?Ha, ?Hi, ?Hl; try done.
    - by rewrite C2.
    - intros i ?%Hr. by apply C5.
  Qed.
  Lemma dist_next_phase (e : E) ids e' ids' j : dist_next e ids = MDist e' ids' j → e' = e ∧ ids' = ids ∧ j = false ∧ ids ≠ [].
  Proof. destruct ids; simpl; [done|]. intros [= <- <- <-]. by repeat split. Qed.
  Lemma dist_next_ended (e : E) ids : dist_next e ids ≠ MEnded.
  Proof. by destruct ids. Qed.
  Lemma ctl_step tr s l s' : ctl tr s → mstep s l s' → ctl (tr ++ [l]) s'.
  Proof.
    intros HC Hst. destruct Hst as [q p reg ws r Hlt|pre q reg ws|q reg ws|e q reg ws ws' ms Hm Hd|e q reg ws Hm|e i ids q reg ws w Hw Hf|e i ids q reg ws w Hw Hs|e i ids q reg ws w Hw Hu
      |i q p reg ws w Hw|i q p reg ws w Hw Hs Hp|i q p reg ws m b u st lt lv lo Hw|i e q p reg ws m b u st lt lv lo Hw|i q p reg ws m b u lt lv lo Hw Hb|i q p reg ws m b u st lt lv lo Hw
      |i e q p reg ws m b u st lt lv lo Hw]; pose proof HC as [C1 C2 C3 C4 C5 C6 C7]; simpl in *.
    - split; rewrite ?handled_snoc, ?accepted_snoc, ?app_nil_r; simpl; try done. by rewrite C1, app_assoc.
    - assert (RShutdown ∉ (handled tr).*1) by (intros ?%C2; done). split; rewrite ?handled_snoc, ?accepted_snoc, ?app_nil_r, ?fmap_app; csimpl; try done.
      + rewrite C1, <-app_assoc. done.
      + rewrite elem_of_app, elem_of_list_singleton. naive_solver.
      + rewrite app_length, nwatch_snoc, C3. done.
      + apply NoDup_app. split; [done|]. split; [|apply NoDup_singleton]. intros x Hx ->%elem_of_list_singleton. apply C5 in Hx. lia.
      + intros i [?%C5| ->%elem_of_list_singleton]%elem_of_app; rewrite app_length; simpl; lia.
      + intros ? h [?| ->%elem_of_list_singleton]%elem_of_app; naive_solver.
    - destruct (close_all_spec reg ws) as [H1 H2]. split; rewrite ?handled_snoc, ?accepted_snoc, ?app_nil_r, ?fmap_app; csimpl; try done.
      + rewrite C1, <-app_assoc. done.
      + rewrite elem_of_app, elem_of_list_singleton. naive_solver.
      + rewrite H1, nwatch_snoc, C3. simpl. lia.
      + apply NoDup_nil_2.
      + by intros i ?%elem_of_nil.
      + intros ? h [?| ->%elem_of_list_singleton]%elem_of_app; naive_solver.
    - destruct (drop_dist_spec e reg ws ws' ms C4 Hd) as (H1 & H2 & H3). assert (RShutdown ∉ (handled tr).*1) by (intros ?%C2; done).
      split; rewrite ?handled_snoc, ?accepted_snoc, ?app_nil_r, ?fmap_app; csimpl; try done.
      + rewrite C1, <-app_assoc. done.
      + rewrite elem_of_app, elem_of_list_singleton. naive_solver.
      + rewrite H1, nwatch_snoc, C3. simpl. lia.
      + intros i ?%C5. lia.
      + by rewrite Hm.
    - assert (RShutdown ∉ (handled tr).*1) by (intros ?%C2; done). split; rewrite ?handled_snoc, ?accepted_snoc, ?app_nil_r, ?fmap_app; csimpl; try done.
      + rewrite C1, <-app_assoc. done.
      + rewrite elem_of_app, elem_of_list_singleton. split; [naive_solver|]. intros Hx. by destruct reg.
      + rewrite nwatch_snoc, C3. simpl. lia.
      + intros e' ids' j (-> & -> & -> & Hne)%dist_next_phase. naive_solver.
      + intros ? h [?| ->%elem_of_list_singleton]%elem_of_app; naive_solver.
    - destruct (C6 _ _ _ eq_refl) as (D1 & D2 & D3 & D4). apply NoDup_cons in D2 as [D2 D2']. assert (Hids : ∀ j, j ∈ ids → j < length ws) by (intros; apply D3; by right).
      eapply ctl_same; [exact HC|by rewrite handled_snoc, app_nil_r|by rewrite accepted_snoc, app_nil_r|done|..]; simpl; try done.
      + split; [|done]. destruct (bool_decide _); [done|]. by intros ?%dist_next_ended.
      + by rewrite insert_length.
      + intros e' ids' j. destruct (bool_decide _); [intros [= <- <- <-]; by apply (C6 e (i :: ids) false)|]. intros (-> & -> & -> & Hne)%dist_next_phase. done.
    - destruct (C6 _ _ _ eq_refl) as (D1 & D2 & D3 & D4). apply NoDup_cons in D2 as [D2 D2']. assert (Hids : ∀ j, j ∈ ids → j < length ws) by (intros; apply D3; by right).
      eapply ctl_same; [exact HC|by rewrite handled_snoc, app_nil_r|by rewrite accepted_snoc, app_nil_r|done|..]; simpl; try done.
      + split; [by intros ?%dist_next_ended|done].
      + intros e' ids' j (-> & -> & -> & Hne)%dist_next_phase. done.
    - destruct (C6 _ _ _ eq_refl) as (D1 & D2 & D3 & D4). apply NoDup_cons in D2 as [D2 D2']. assert (Hids : ∀ j, j ∈ ids → j < length ws) by (intros; apply D3; by right).
      eapply ctl_same; [exact HC|by rewrite handled_snoc, app_nil_r|by rewrite accepted_snoc, app_nil_r|done|..]; simpl; try done.
      + split; [by intros ?%dist_next_ended|done].
      + intros e' ids' j (-> & -> & -> & Hne)%dist_next_phase. done.
    - eapply ctl_same; [exact HC|by rewrite handled_snoc, app_nil_r|by rewrite accepted_snoc, app_nil_r|done|..]; simpl; try done. by rewrite insert_length.
    - eapply ctl_same; [exact HC|by rewrite handled_snoc, app_nil_r|by rewrite accepted_snoc, app_nil_r|done|..]; simpl; try done; [by apply NoDup_filter|]. intros j. rewrite elem_of_list_filter. naive_solver.
    - eapply ctl_same; [exact HC|by rewrite handled_snoc, app_nil_r|by rewrite accepted_snoc, app_nil_r|done|..]; simpl; try done. by rewrite insert_length.
    - eapply ctl_same; [exact HC|by rewrite handled_snoc, app_nil_r|by rewrite accepted_snoc, app_nil_r|done|..]; simpl; try done. by rewrite insert_length.
    - eapply ctl_same; [exact HC|by rewrite handled_snoc, app_nil_r|by rewrite accepted_snoc, app_nil_r|done|..]; simpl; try done. by rewrite insert_length.
    - eapply ctl_same; [exact HC|by rewrite handled_snoc, app_nil_r|by rewrite accepted_snoc, app_nil_r|done|..]; simpl; try done. by rewrite insert_length.
    - eapply ctl_same; [exact HC|by rewrite handled_snoc, app_nil_r|by rewrite accepted_snoc, app_nil_r|done|..]; simpl; try done. by rewrite insert_length.
  Qed.
  Lemma ctl_reach tr s : reach mstep init tr s → ctl tr s.
  Proof. apply (reach_trace_inv mstep ctl init tr s); [apply ctl_init|]. intros ls s1 l s2 _. apply ctl_step. Qed.
End proofs.
