From Verif Require Import Base FakeSource_model FakeSource_spec.

Section proofs.
  Context {K V : Type} `{EqDecision K} (keyof : nat → K).
  Notation copy := (copy K V).
  Notation fsrc := (fsrc K V).
  Notation st := (fstep (K:=K) (V:=V) keyof).
  Notation hist := (list (fop V * fres K V)).
  Implicit Types (s : fsrc) (k : K) (r : nat) (h : hist) (ch : list (ety * nat)).

  (** the last change of k in a list of changes: the object, None for a deletion *)
  Fixpoint last_eff k ch : option (option nat) :=
    match ch with
    | [] => None
    | (ty, r) :: ch =>
        match last_eff k ch with
        | Some x => Some x
        | None => if decide (k = keyof r) then match ty with EAdded | EModified => Some (Some r) | EDeleted => Some None | EOther => None end else None
        end
    end.
  Lemma last_eff_app k ch1 ch2 : last_eff k (ch1 ++ ch2) = match last_eff k ch2 with Some x => Some x | None => last_eff k ch1 end.
  Proof. induction ch1 as [|[ty r] ch1 IH]; simpl; [by destruct (last_eff k ch2)|]. rewrite IH. by destruct (last_eff k ch2). Qed.
  Definition derefs (hp : dict nat (V * nat)) ch : list (ety * copy) := omap (λ x, (λ c, (x.1, c)) <$> deref keyof hp x.2) ch.
  Lemma derefs_cons hp ty r ch : derefs hp ((ty, r) :: ch) = match dget r hp with Some c => (ty, Copy (keyof r) c) :: derefs hp ch | None => derefs hp ch end.
  Proof. unfold derefs. cbn [omap list_omap fst snd]. unfold deref at 1. by destruct (dget r hp). Qed.
  Definition refs_ok (hp : dict nat (V * nat)) ch : Prop := ∀ x, x ∈ ch → is_Some (dget x.2 hp).
  Lemma replay_app (es1 es2 : list (ety * copy)) m : replay (es1 ++ es2) m = replay es2 (replay es1 m).
  Proof. revert m. induction es1 as [|e es1 IH]; intros m; simpl; [done|]. apply IH. Qed.
  Lemma replay_derefs hp ch m k : refs_ok hp ch → replay (derefs hp ch) m k = match last_eff k ch with Some (Some r) => dget r hp | Some None => None | None => m k end.
  Proof.
    revert m. induction ch as [|[ty r] ch IH]; intros m Hok; [done|].
    assert (refs_ok hp ch) as Hok' by (intros x Hx; apply Hok; by right).
    destruct (Hok (ty, r)) as [c Hc]; [by left|]. simpl in Hc. rewrite derefs_cons, Hc. simpl.
    rewrite (IH _ Hok'). destruct (last_eff k ch) as [[r'|]|]; [done|done|]. unfold apply_event. simpl. destruct (decide (k = keyof r)) as [->|]; [|done]. by destruct ty.
  Qed.

  Definition cur s : contents (K:=K) (V:=V) := λ k, dget k (f_items s) ≫= λ r, dget r (f_heap s).
  Record fok s : Prop := {
    fk_refs : refs_ok (f_heap s) (f_changes s);
    fk_key k r : dget k (f_items s) = Some r → keyof r = k ∧ is_Some (dget r (f_heap s));
    fk_wf : dwf (f_items s)
  }.
  Lemma refs_ok_mono (hp : dict nat (V * nat)) ch r c : refs_ok hp ch → refs_ok (dset r c hp) ch.
  Proof. intros H x Hx. rewrite dget_dset. destruct (decide _); [done|]. by apply H. Qed.
  Lemma fok_step s o : fok s → fok (st s o).1.
  Proof.
    intros [H1 H2 H3]. destruct o as [ty r v d| |rc]; simpl; [|done|].
    - assert (Hr : refs_ok (dset r (v, S (length (f_changes s))) (f_heap s)) (f_changes s ++ [(ty, r)])).
      { intros x [Hx| ->%elem_of_list_singleton]%elem_of_app; simpl; rewrite dget_dset; [|by rewrite decide_True]. destruct (decide _); [done|]. by apply H1. }
      assert (Hk : ∀ k r0, dget k (f_items s) = Some r0 → keyof r0 = k ∧ is_Some (dget r0 (dset r (v, S (length (f_changes s))) (f_heap s)))).
      { intros k r0 H. destruct (H2 _ _ H). split; [done|]. rewrite dget_dset. by destruct (decide _). }
      assert (Hset : ∀ k r0, dget k (dset (keyof r) r (f_items s)) = Some r0 → keyof r0 = k ∧ is_Some (dget r0 (dset r (v, S (length (f_changes s))) (f_heap s)))).
      { intros k r0. rewrite dget_dset. destruct (decide _) as [->|]; [|apply Hk]. intros [= ->]. rewrite dget_dset, decide_True by done. done. }
      unfold fchange. destruct ty; [..|].
      + split; simpl; [done|done|by apply dwf_dset].
      + split; simpl; [done|done|by apply dwf_dset].
      + destruct (dget (keyof r) (f_items s)) eqn:E; simpl; split; simpl; try done; [|by apply dwf_ddel].
        intros k r0. rewrite dget_ddel. destruct (decide _); [done|]. apply Hk.
      + by split.
    - unfold fwatch. destruct (_ <? _)%Z; [by split|]. destruct (_ <? _)%Z; by split.
  Qed.
  Lemma fok_exec h s : exec st f_init h s → fok s.
  Proof.
    intros Hx. apply (exec_inv st fok f_init h s); [intros; by apply fok_step| |done]. split; simpl; [intros x Hx'; by apply elem_of_nil in Hx'|done|constructor].
  Qed.

  (** what a list answers *)
  Lemma listed_cur s objs rv : fok s → flist keyof s = FListed objs rv → rv = length (f_changes s) ∧ ∀ k, listed objs k = cur s k.
  Proof.
    intros [_ H2 H3] [= <- <-]. split; [done|]. intros k. unfold cur, dvals.
    assert (Hi : ∀ k r, (k, r) ∈ f_items s → keyof r = k ∧ is_Some (dget r (f_heap s))) by (intros k0 r0 ?; apply H2; by apply elem_of_dget).
    clear H2. revert H3 Hi. generalize (f_items s) as d. induction d as [|[k0 r0] d IH]; intros Hwf Hi; [done|].
    destruct (Hi k0 r0) as [<- [c Hc]]; [by left|]. csimpl. unfold deref at 1. rewrite Hc. simpl.
    change (dget k ((keyof r0, r0) :: d)) with (if decide (k = keyof r0) then Some r0 else dget k d).
    inversion Hwf as [|? ? Hni Hnd]; subst. destruct (decide (k = keyof r0)) as [->|]; [simpl; by rewrite Hc|]. apply IH; [done|]. intros k1 r1 H1. apply Hi. by right.
  Qed.

  (** the changes made by a history, and those that reached the watchers *)

  Fixpoint made h : list (ety * nat) := match h with [] => [] | (FChange ty r _ _, _) :: h => (ty, r) :: made h | _ :: h => made h end.
  Fixpoint sent h : list (ety * nat) := match h with [] => [] | (FChange ty r _ false, FDone) :: h => (ty, r) :: sent h | _ :: h => sent h end.
  Lemma made_app h1 h2 : made (h1 ++ h2) = made h1 ++ made h2.
  Proof. induction h1 as [|[[] ?] h1 IH]; simpl; rewrite ?IH; done. Qed.
  Lemma sent_app h1 h2 : sent (h1 ++ h2) = sent h1 ++ sent h2.
  Proof. induction h1 as [|[[ty r v []| |] []] h1 IH]; simpl; rewrite ?IH; done. Qed.
  Lemma changes_made s0 h s : exec st s0 h s → f_changes s = f_changes s0 ++ made h.
  Proof.
    intros Hx. apply (exec_trace_inv st (λ h s, f_changes s = f_changes s0 ++ made h) s0 h s); [by rewrite app_nil_r| |done].
    clear h s Hx. intros h s o Hx IH. rewrite made_app, app_assoc, <- IH. destruct o as [ty r v d| |rc]; simpl.
    - unfold fchange. destruct ty; try done. by destruct (dget _ _).
    - by rewrite app_nil_r.
    - rewrite app_nil_r. unfold fwatch. destruct (_ <? _)%Z; [done|]. by destruct (_ <? _)%Z.
  Qed.
  Lemma heap_watch rc s : f_heap (fwatch keyof rc s).1 = f_heap s ∧ f_items (fwatch keyof rc s).1 = f_items s ∧ f_changes (fwatch keyof rc s).1 = f_changes s.
  Proof. unfold fwatch. destruct (_ <? _)%Z; [done|]. by destruct (_ <? _)%Z. Qed.
  Lemma no_other_app h1 h2 : no_other (h1 ++ h2) → no_other h1 ∧ no_other h2.
  Proof. intros H. split; intros r v d res Hin; eapply H; apply elem_of_app; eauto. Qed.

  (** the effect of a history on the items and on the objects of a key *)
  Lemma effect s0 h s : fok s0 → exec st s0 h s → no_other h → ∀ k,
    dget k (f_items s) = match last_eff k (made h) with Some x => x | None => dget k (f_items s0) end ∧
    (last_eff k (made h) = None → ∀ r, keyof r = k → dget r (f_heap s) = dget r (f_heap s0)).
  Proof.
    intros H0 Hx Hno k. revert Hno.
    apply (exec_trace_inv st (λ h s, no_other h → dget k (f_items s) = match last_eff k (made h) with Some x => x | None => dget k (f_items s0) end ∧
      (last_eff k (made h) = None → ∀ r, keyof r = k → dget r (f_heap s) = dget r (f_heap s0))) s0 h s); [done| |done].
    clear h s Hx. intros h s o Hx IH [Hno1 Hno2]%no_other_app. destruct (IH Hno1) as [IH1 IH2]. clear IH Hno1. rewrite made_app, last_eff_app.
    destruct o as [ty r v d| |rc]; [|done|].
    - cbn [made last_eff fst snd]. simpl. destruct (decide (k = keyof r)) as [->|Hne].
      + unfold fchange. destruct ty.
        * simpl. split; [by rewrite dget_dset, decide_True|done].
        * simpl. split; [by rewrite dget_dset, decide_True|done].
        * simpl. destruct (dget (keyof r) (f_items s)) eqn:E; simpl; (split; [|done]); [by rewrite dget_ddel, decide_True|done].
        * exfalso. eapply Hno2. by left.
      + assert (Hhp : ∀ r0, keyof r0 = k → dget r0 (dset r (v, S (length (f_changes s))) (f_heap s)) = dget r0 (f_heap s)). { intros r0 Hr0. rewrite dget_dset, decide_False; [done|]. congruence. }
        unfold fchange. destruct ty; simpl.
        * rewrite dget_dset, decide_False by done. split; [done|]. intros Hl r0 Hr0. rewrite Hhp by done. by apply IH2.
        * rewrite dget_dset, decide_False by done. split; [done|]. intros Hl r0 Hr0. rewrite Hhp by done. by apply IH2.
        * destruct (dget (keyof r) (f_items s)) eqn:E; simpl; [rewrite dget_ddel, decide_False by done|]; (split; [done|]; intros Hl r0 Hr0; rewrite Hhp by done; by apply IH2).
        * split; [done|]. intros Hl r0 Hr0. rewrite Hhp by done. by apply IH2.
    - simpl. destruct (heap_watch rc s) as (->&->&_). done.
  Qed.

  Lemma prefix_cur s0 h s : fok s0 → exec st s0 h s → no_other h → ∀ k, replay (derefs (f_heap s) (made h)) (cur s0) k = cur s k.
  Proof.
    intros H0 Hx Hno k. assert (Hok : fok s) by (eapply (exec_inv st fok s0 h s); [intros; by apply fok_step|done|done]).
    rewrite replay_derefs.
    - destruct (effect s0 h s H0 Hx Hno k) as [H1 H2]. unfold cur. rewrite H1. destruct (last_eff k (made h)) as [[r|]|] eqn:E; simpl; [done|done|].
      destruct (dget k (f_items s0)) as [r|] eqn:Er; simpl; [|done]. symmetry. apply H2; [done|]. by apply (fk_key _ H0) in Er as [? _].
    - intros x Hx'. apply (fk_refs _ Hok). rewrite (changes_made _ _ _ Hx). apply elem_of_app. by right.
  Qed.

  (** with what reached the watchers alone *)
  Lemma effect_sent s0 h s : fok s0 → exec st s0 h s → no_other h → none_dropped h → ∀ k,
    dget k (f_items s) = match last_eff k (sent h) with Some x => x | None => dget k (f_items s0) end ∧
    (last_eff k (sent h) = None → is_Some (dget k (f_items s0)) → ∀ r, keyof r = k → dget r (f_heap s) = dget r (f_heap s0)).
  Proof.
    intros H0 Hx Hno Hnd k. revert Hno Hnd.
    apply (exec_trace_inv st (λ h s, no_other h → none_dropped h → dget k (f_items s) = match last_eff k (sent h) with Some x => x | None => dget k (f_items s0) end ∧
      (last_eff k (sent h) = None → is_Some (dget k (f_items s0)) → ∀ r, keyof r = k → dget r (f_heap s) = dget r (f_heap s0))) s0 h s); [done| |done].
    clear h s Hx. intros h s o Hx IH [Hno1 Hno2]%no_other_app Hnd.
    assert (none_dropped h) as Hnd1 by (intros ty r v d res Hin; eapply Hnd; apply elem_of_app; by left). destruct (IH Hno1 Hnd1) as [IH1 IH2]. clear IH Hno1 Hnd1. rewrite sent_app, last_eff_app.
    destruct o as [ty r v d| |rc]; [|done|].
    - assert (d = false) as -> by (eapply Hnd; apply elem_of_app; right; by left).
      assert (Hhp : keyof r ≠ k → ∀ r0, keyof r0 = k → dget r0 (dset r (v, S (length (f_changes s))) (f_heap s)) = dget r0 (f_heap s)). { intros Hne r0 Hr0. rewrite dget_dset, decide_False; [done|]. congruence. }
      simpl. unfold fchange. destruct ty; simpl.
      + destruct (decide (k = keyof r)) as [->|Hne]; [split; [by rewrite dget_dset, decide_True|done]|]. rewrite dget_dset, decide_False by done. split; [done|]. intros Hl Hs r0 Hr0. rewrite Hhp by done. by apply IH2.
      + destruct (decide (k = keyof r)) as [->|Hne]; [split; [by rewrite dget_dset, decide_True|done]|]. rewrite dget_dset, decide_False by done. split; [done|]. intros Hl Hs r0 Hr0. rewrite Hhp by done. by apply IH2.
      + destruct (dget (keyof r) (f_items s)) eqn:E; simpl.
        * destruct (decide (k = keyof r)) as [->|Hne]; [split; [by rewrite dget_ddel, decide_True|done]|]. rewrite dget_ddel, decide_False by done. split; [done|]. intros Hl Hs r0 Hr0. rewrite Hhp by done. by apply IH2.
        * split; [done|]. intros Hl Hs r0 Hr0. destruct (decide (k = keyof r)) as [->|Hne]; [|rewrite Hhp by done; by apply IH2].
          exfalso. rewrite Hl in IH1. rewrite IH1 in E. rewrite E in Hs. by destruct Hs.
      + exfalso. eapply Hno2. by left.
    - simpl. destruct (heap_watch rc s) as (->&->&_). done.
  Qed.
  Lemma sent_made h x : x ∈ sent h → x ∈ made h.
  Proof. induction h as [|[[ty r v []| |] []] h IH]; simpl; rewrite ?elem_of_cons; naive_solver. Qed.

  (** a watcher's stream *)
  Lemma watcher_grows s0 h s w evs : exec st s0 h s → f_watchers s0 !! w = Some evs → f_watchers s !! w = Some (evs ++ ((λ x, WRef x.1 x.2) <$> sent h)).
  Proof.
    intros Hx Hw. apply (exec_trace_inv st (λ h s, f_watchers s !! w = Some (evs ++ ((λ x, WRef x.1 x.2) <$> sent h))) s0 h s); [by rewrite app_nil_r| |done].
    clear h s Hx. intros h s o Hx IH. rewrite sent_app, fmap_app, app_assoc. destruct o as [ty r v d| |rc]; simpl.
    - unfold fchange. destruct ty; simpl.
      + destruct d; simpl; [by rewrite app_nil_r|]. by rewrite list_lookup_fmap, IH.
      + destruct d; simpl; [by rewrite app_nil_r|]. by rewrite list_lookup_fmap, IH.
      + destruct (dget _ _); simpl; [|destruct d; simpl; by rewrite app_nil_r]. destruct d; simpl; [by rewrite app_nil_r|]. by rewrite list_lookup_fmap, IH.
      + destruct d; simpl; [by rewrite app_nil_r|]. by rewrite list_lookup_fmap, IH.
    - by rewrite app_nil_r.
    - rewrite app_nil_r. unfold fwatch. destruct (_ <? _)%Z; simpl; [by apply lookup_app_l_Some|]. destruct (_ <? _)%Z; [done|]. by apply lookup_app_l_Some.
  Qed.
  Lemma watch_makes s v s' w : fwatch keyof (Z.of_nat v) s = (s', FWatching w) → v ≤ length (f_changes s) ∧
    f_watchers s' !! w = Some (copies keyof snd (λ x c, WCopy x.1 c) (f_heap s) (drop v (f_changes s))) ∧ f_heap s' = f_heap s ∧ f_items s' = f_items s ∧ f_changes s' = f_changes s.
  Proof.
    unfold fwatch. destruct (Z.ltb_spec (Z.of_nat v) (Z.of_nat (length (f_changes s)))) as [Hlt|Hge].
    - intros [= <- <-]. split; [lia|]. simpl. split; [|done]. rewrite list_lookup_middle by done. unfold slice. destruct (Z.ltb_spec (Z.of_nat v) 0); [lia|]. by rewrite Nat2Z.id.
    - destruct (Z.ltb_spec (Z.of_nat (length (f_changes s))) (Z.of_nat v)); [done|]. intros [= <- <-]. split; [lia|]. simpl. split; [|done]. rewrite list_lookup_middle by done. rewrite drop_ge by lia. done.
  Qed.
  Lemma read_app s (w1 w2 : list (wevent K V)) : read keyof s (w1 ++ w2) = read keyof s w1 ++ read keyof s w2.
  Proof. unfold read. by rewrite omap_app. Qed.
  Lemma read_copies s hp ch : read keyof s (copies keyof snd (λ x c, WCopy x.1 c) hp ch) = derefs hp ch.
  Proof. unfold read, copies, derefs. induction ch as [|[ty r] ch IH]; [done|]. cbn [omap list_omap fst snd]. destruct (deref keyof hp r); simpl; [f_equal|]; exact IH. Qed.
  Lemma read_refs s ch : read keyof s ((λ x, WRef x.1 x.2) <$> ch) = derefs (f_heap s) ch.
  Proof. unfold read, derefs. induction ch as [|[ty r] ch IH]; [done|]. cbn [fmap list_fmap omap list_omap fst snd]. destruct (deref keyof (f_heap s) r); simpl; [f_equal|]; exact IH. Qed.

  Lemma exec_fok s0 h s : fok s0 → exec st s0 h s → fok s.
  Proof. intros H0 Hx. eapply (exec_inv st fok s0 h s); [intros; by apply fok_step|done|done]. Qed.

  (** the stream made at s2 from the version of s1, read at s *)
  Lemma stream s1 h2 s2 s2' w h3 s : fok s1 → exec st s1 h2 s2 → fwatch keyof (Z.of_nat (length (f_changes s1))) s2 = (s2', FWatching w) → exec st s2' h3 s →
    ∃ evs, f_watchers s !! w = Some evs ∧ read keyof s evs = derefs (f_heap s2) (made h2) ++ derefs (f_heap s) (sent h3).
  Proof.
    intros H1 Hx2 Hw Hx3. destruct (watch_makes _ _ _ _ Hw) as (_&Hlook&_). rewrite (changes_made _ _ _ Hx2), drop_app in Hlook.
    eexists. split; [exact (watcher_grows _ _ _ _ _ Hx3 Hlook)|]. by rewrite read_app, read_copies, read_refs.
  Qed.
  Lemma live_cur s1 h2 s2 s2' w h3 s : fok s1 → exec st s1 h2 s2 → no_other h2 → fwatch keyof (Z.of_nat (length (f_changes s1))) s2 = (s2', FWatching w) →
    exec st s2' h3 s → no_other h3 → none_dropped h3 →
    ∃ evs, f_watchers s !! w = Some evs ∧ ∀ k, replay (read keyof s evs) (cur s1) k = cur s k.
  Proof.
    intros H1 Hx2 Hno2 Hw Hx3 Hno3 Hnd. destruct (stream _ _ _ _ _ _ _ H1 Hx2 Hw Hx3) as (evs&He&Hread). exists evs. split; [done|]. intros k. rewrite Hread, replay_app.
    destruct (watch_makes _ _ _ _ Hw) as (_&_&Hhp&Hit&Hch). assert (Hok2 : fok s2) by (by eapply exec_fok).
    assert (Hok2' : fok s2') by (destruct Hok2 as [A B C]; split; rewrite ?Hhp, ?Hit, ?Hch; done).
    assert (Hok : fok s) by (by eapply exec_fok).
    rewrite replay_derefs.
    - destruct (effect_sent _ _ _ Hok2' Hx3 Hno3 Hnd k) as [E1 E2]. unfold cur at 2. rewrite E1. destruct (last_eff k (sent h3)) as [[r|]|] eqn:El; [done|done|].
      rewrite (prefix_cur s1 h2 s2 H1 Hx2 Hno2 k). unfold cur. rewrite Hit. destruct (dget k (f_items s2)) as [r|] eqn:Er; [|done]. simpl. rewrite <- Hhp. symmetry. apply E2; [done|by rewrite Hit, Er|].
      by apply (fk_key _ Hok2) in Er as [? _].
    - intros x Hin%sent_made. apply (fk_refs _ Hok). rewrite (changes_made _ _ _ Hx3). apply elem_of_app. by right.
  Qed.

  (** the property, for a list, a later watch from its version and what follows *)
  Lemma list_watch h1 s1 objs v h2 s2 s2' w h3 s : exec st f_init h1 s1 → flist keyof s1 = FListed objs v → exec st s1 h2 s2 → st s2 (FWatch (Z.of_nat v)) = (s2', FWatching w) → exec st s2' h3 s →
    no_other (h2 ++ h3) → none_dropped h3 → ∃ evs objs' v', f_watchers s !! w = Some evs ∧ flist keyof s = FListed objs' v' ∧ ∀ k, replay (read keyof s evs) (listed objs) k = listed objs' k.
  Proof.
    intros Hx1 Hl Hx2 Hw Hx3 [Hn2 Hn3]%no_other_app Hnd. pose proof (fok_exec _ _ Hx1) as Hok1. destruct (listed_cur _ _ _ Hok1 Hl) as [-> Hlc].
    destruct (live_cur s1 h2 s2 s2' w h3 s Hok1 Hx2 Hn2 Hw Hx3 Hn3 Hnd) as (evs&He&Hc). eexists evs, _, _. split; [done|]. split; [done|]. intros k.
    assert (Hok : fok s). { eapply exec_fok; [|exact Hx3]. change s2' with (s2', FWatching w : fres K V).1. rewrite <- Hw. apply fok_step. by eapply exec_fok. }
    destruct (listed_cur s _ _ Hok eq_refl) as [_ ->]. rewrite <- Hc. clear -Hlc. revert Hlc. generalize (listed objs) as m1, (cur s1) as m2. induction (read keyof s evs) as [|e es IH]; intros m1 m2 Hm; simpl; [done|].
    apply IH. intros k0. unfold apply_event. destruct (decide _); [|done]. destruct e.1; try done.
  Qed.
  Lemma replay_ext (es : list (ety * copy)) m1 m2 : (∀ k, m1 k = m2 k) → ∀ k, replay es m1 k = replay es m2 k.
  Proof.
    revert m1 m2. induction es as [|e es IH]; intros m1 m2 Hm k; simpl; [done|]. apply IH. intros k0. unfold apply_event. destruct (decide _); [|done]. by destruct e.1.
  Qed.

  (** when no object is used twice *)
  Lemma objects_app h1 h2 : objects (h1 ++ h2) = objects h1 ++ objects h2.
  Proof. unfold objects. by rewrite omap_app. Qed.
  Lemma log_app n h1 h2 : log_from keyof n (h1 ++ h2) = log_from keyof n h1 ++ log_from keyof (n + length (made h1)) h2.
  Proof. revert n. induction h1 as [|[[] ?] h1 IH]; intros n; simpl; rewrite ?Nat.add_0_r, ?IH; simpl; try done. by rewrite Nat.add_succ_r. Qed.
  Lemma made_objects h ty r : (ty, r) ∈ made h → r ∈ objects h.
  Proof.
    induction h as [|[[ty' r' v d| |] ?] h IH]; intros Hin; simpl in Hin; [by apply elem_of_nil in Hin| |by apply IH..].
    apply elem_of_cons in Hin as [[= -> ->]|Hin]; unfold objects; csimpl; [by left|]. right. by apply IH.
  Qed.
  Lemma derefs_app hp ch1 ch2 : derefs hp (ch1 ++ ch2) = derefs hp ch1 ++ derefs hp ch2.
  Proof. unfold derefs. by rewrite omap_app. Qed.
  Lemma derefs_ext hp hp' ch : (∀ ty r, (ty, r) ∈ ch → dget r hp = dget r hp') → derefs hp ch = derefs hp' ch.
  Proof.
    induction ch as [|[ty r] ch IH]; intros H; [done|]. rewrite !derefs_cons, (H ty r) by (by left). rewrite IH; [done|]. intros ty' r' Hin. eapply H. by right.
  Qed.
  Lemma heap_keep s0 h s r : exec st s0 h s → r ∉ objects h → dget r (f_heap s) = dget r (f_heap s0).
  Proof.
    intros Hx. apply (exec_trace_inv st (λ h s, r ∉ objects h → dget r (f_heap s) = dget r (f_heap s0)) s0 h s); [done| |done].
    clear h s Hx. intros h s o Hx IH Hn. rewrite objects_app, not_elem_of_app in Hn. destruct Hn as [Hn1 Hn2]. rewrite <- (IH Hn1). destruct o as [ty r' v d| |rc]; simpl; [|done|].
    - assert (r ≠ r') as Hne by (intros ->; apply Hn2; by left). assert (dget r (dset r' (v, S (length (f_changes s))) (f_heap s)) = dget r (f_heap s)) as He by (by rewrite dget_dset, decide_False).
      unfold fchange. destruct ty; simpl; try done. by destruct (dget (keyof r') (f_items s)).
    - by destruct (heap_watch rc s) as (->&_).
  Qed.
  Lemma log_heap h s : exec st f_init h s → NoDup (objects h) → derefs (f_heap s) (made h) = log keyof h.
  Proof.
    intros Hx. unfold log. apply (exec_trace_inv st (λ h s, NoDup (objects h) → derefs (f_heap s) (made h) = log_from keyof 0 h) f_init h s); [done| |done].
    clear h s Hx. intros h s o Hx IH Hnd. rewrite objects_app in Hnd. apply NoDup_app in Hnd as (Hnd1&Hdis&_). specialize (IH Hnd1).
    rewrite made_app, derefs_app, log_app, Nat.add_0_l. pose proof (changes_made _ _ _ Hx) as Hch. simpl in Hch.
    assert (Hpre : derefs (f_heap (st s o).1) (made h) = log_from keyof 0 h).
    { rewrite <- IH. apply derefs_ext. intros ty r Hin. apply (heap_keep s [(o, (st s o).2)]).
      - apply exec_one. by destruct (st s o).
      - intros Hr. eapply Hdis; [by eapply made_objects|done]. }
    rewrite Hpre. f_equal. destruct o as [ty r v d| |rc]; [|done|done]. cbn [made log_from]. rewrite derefs_cons.
    assert (dget r (f_heap (fchange keyof ty r v d s).1) = Some (v, S (length (made h)))) as Hg.
    { rewrite <- Hch. unfold fchange. destruct ty; simpl; rewrite ?dget_dset, ?decide_True by done; try done. destruct (dget (keyof r) (f_items s)); simpl; by rewrite dget_dset, decide_True. }
    change (fstep keyof s (FChange ty r v d)) with (fchange keyof ty r v d s). by rewrite Hg.
  Qed.
  Lemma all_seen_sent h : all_seen h → sent h = made h.
  Proof.
    induction h as [|[[ty r v d| |] res] h IH]; intros Hs; simpl; try (apply IH; intros ? ? ? ? ? ?; eapply Hs; by right); [done|].
    destruct (Hs ty r v d res) as [-> ->]; [by left|]. f_equal. apply IH. intros ? ? ? ? ? ?; eapply Hs; by right.
  Qed.
  Lemma exec_join s1 h2 s2 o s2' res h3 s : exec st s1 h2 s2 → st s2 o = (s2', res) → exec st s2' h3 s → exec st s1 (h2 ++ (o, res) :: h3) s.
  Proof.
    intros H1 H2 H3. apply exec_app. exists s2. split; [done|]. by econstructor.
  Qed.
  Lemma replay_empty_cur h s : exec st f_init h s → no_other h → NoDup (objects h) → ∀ k, replay (log keyof h) (λ _, None) k = cur s k.
  Proof.
    intros Hx Hno Hnd k. rewrite <- (log_heap _ _ Hx Hnd). erewrite <- (prefix_cur f_init h s); [|by apply (fok_exec [] f_init); constructor|done|done]. by apply replay_ext.
  Qed.
  (** the events of a watch from v are the changes after v, in order, with their versions *)
  Lemma exact_events h1 s1 h2 s2 s2' w h3 s : exec st f_init h1 s1 → exec st s1 h2 s2 → st s2 (FWatch (Z.of_nat (length (made h1)))) = (s2', FWatching w) → exec st s2' h3 s →
    NoDup (objects (h1 ++ h2 ++ h3)) → all_seen h3 →
    ∃ evs, f_watchers s !! w = Some evs ∧ read keyof s evs = drop (length (made h1)) (log keyof (h1 ++ h2 ++ h3)).
  Proof.
    intros Hx1 Hx2 Hw Hx3 Hnd Hseen. pose proof (changes_made _ _ _ Hx1) as Hch. simpl in Hch.
    assert (Hx : exec st f_init (h1 ++ h2 ++ (FWatch (Z.of_nat (length (made h1))), FWatching w) :: h3) s). { apply exec_app. exists s1. split; [done|]. by eapply exec_join. }
    assert (Hw' : fwatch keyof (Z.of_nat (length (f_changes s1))) s2 = (s2', FWatching w)) by (by rewrite Hch).
    destruct (stream s1 h2 s2 s2' w h3 s (fok_exec _ _ Hx1) Hx2 Hw' Hx3) as (evs&He&Hr). exists evs. split; [done|]. rewrite Hr, (all_seen_sent _ Hseen).
    assert (Hx2f : exec st f_init (h1 ++ h2) s2) by (apply exec_app; by exists s1).
    rewrite !objects_app in Hnd. pose proof Hnd as Hnd0. rewrite app_assoc in Hnd. apply NoDup_app in Hnd as (Hnd12&Hdis&_).
    assert (Hl2 : derefs (f_heap s2) (made (h1 ++ h2)) = log keyof (h1 ++ h2)) by (apply log_heap; [done|by rewrite objects_app]).
    assert (Hobj : objects (h1 ++ h2 ++ (FWatch (Z.of_nat (length (made h1))), FWatching w) :: h3) = objects h1 ++ objects h2 ++ objects h3) by (rewrite !objects_app; done).
    assert (Hl : derefs (f_heap s) (made (h1 ++ h2 ++ (FWatch (Z.of_nat (length (made h1))), FWatching w) :: h3)) = log keyof (h1 ++ h2 ++ (FWatch (Z.of_nat (length (made h1))), FWatching w) :: h3))
      by (apply log_heap; [done|by rewrite Hobj]).
    unfold log in *. rewrite !log_app in *. simpl in *. rewrite !made_app, !derefs_app in *. simpl in *.
    assert (Hlen : ∀ n (h : hist), length (log_from keyof n h) = length (made h)). { clear. intros n h. revert n. induction h as [|[[] ?] h IH]; intros n; simpl; rewrite ?IH; done. }
    assert (length (derefs (f_heap s) (made h1)) = length (made h1) ∧ length (derefs (f_heap s2) (made h1)) = length (made h1)) as [Hd1 Hd2].
    { assert (∀ hp ch, refs_ok hp ch → length (derefs hp ch) = length ch) as Hdl. { intros hp ch Hok. induction ch as [|[ty r] ch IH]; [done|]. rewrite derefs_cons. destruct (Hok (ty, r)) as [c Hc]; [by left|]. simpl in Hc. rewrite Hc. simpl. f_equal. apply IH. intros x Hin. apply Hok. by right. }
      split; apply Hdl; intros x Hin.
      - apply (fk_refs _ (fok_exec _ _ Hx)). rewrite (changes_made _ _ _ Hx). rewrite made_app. apply elem_of_app. right. apply elem_of_app. by left.
      - apply (fk_refs _ (fok_exec _ _ Hx2f)). rewrite (changes_made _ _ _ Hx2f). rewrite made_app. apply elem_of_app. right. apply elem_of_app. by left. }
    apply app_inj_1 in Hl as [_ Hl]; [|by rewrite Hd1, Hlen]. apply app_inj_1 in Hl2 as [_ Hl2]; [|by rewrite Hd2, Hlen].
    rewrite drop_app_alt by (by rewrite Hlen). rewrite Hl2. f_equal.
    assert (Hlen3 : length (derefs (f_heap s) (made h2)) = length (log_from keyof (length (made h1)) h2)).
    { rewrite <- Hl2. f_equal. apply derefs_ext. intros ty r Hin. destruct (watch_makes _ _ _ _ Hw') as (_&_&Hhp&_). rewrite <- Hhp. apply (heap_keep _ _ _ _ Hx3).
      intros H3. apply (Hdis r); [apply elem_of_app; right; by eapply made_objects|done]. }
    by apply app_inj_1 in Hl as [_ Hl].
  Qed.
  Lemma every_version h1 s1 objs v h2 s2 s2' w h3 s : exec st f_init h1 s1 → flist keyof s1 = FListed objs v → exec st s1 h2 s2 → st s2 (FWatch (Z.of_nat v)) = (s2', FWatching w) → exec st s2' h3 s →
    no_other h1 → NoDup (objects (h1 ++ h2 ++ h3)) → all_seen h3 →
    ∃ evs, f_watchers s !! w = Some evs ∧ ∀ n k, replay (take n (read keyof s evs)) (listed objs) k = replay (take (v + n) (log keyof (h1 ++ h2 ++ h3))) (λ _, None) k.
  Proof.
    intros Hx1 Hl Hx2 Hw Hx3 Hno Hnd Hseen. pose proof (fok_exec _ _ Hx1) as Hok1. destruct (listed_cur _ _ _ Hok1 Hl) as [-> Hlc].
    pose proof (changes_made _ _ _ Hx1) as Hch. simpl in Hch. rewrite Hch in *.
    destruct (exact_events h1 s1 h2 s2 s2' w h3 s Hx1 Hx2 Hw Hx3 Hnd Hseen) as (evs&He&Hr). exists evs. split; [done|]. intros n k. rewrite Hr.
    assert (Hlen : ∀ n (h : hist), length (log_from keyof n h) = length (made h)). { clear. intros n h. revert n. induction h as [|[[] ?] h IH]; intros n; simpl; rewrite ?IH; done. }
    assert (Hlog : log keyof (h1 ++ h2 ++ h3) = log keyof h1 ++ log_from keyof (length (made h1)) (h2 ++ h3)) by (unfold log; by rewrite log_app).
    rewrite Hlog. rewrite drop_app_alt by (unfold log; by rewrite Hlen). rewrite take_add_app by (unfold log; by rewrite Hlen). rewrite replay_app.
    apply replay_ext. intros k0. rewrite Hlc. symmetry. apply replay_empty_cur; [done|done|]. rewrite objects_app in Hnd. by apply NoDup_app in Hnd as (?&_).
  Qed.
  Lemma version_made h : version h = length (made h).
  Proof. unfold version, objects. induction h as [|[[] ?] h IH]; csimpl; rewrite ?IH; done. Qed.
  Lemma exact_version h1 s1 h2 s2 s2' w h3 s : exec st f_init h1 s1 → exec st s1 h2 s2 → st s2 (FWatch (Z.of_nat (version h1))) = (s2', FWatching w) → exec st s2' h3 s →
    NoDup (objects (h1 ++ h2 ++ h3)) → all_seen h3 →
    ∃ evs, f_watchers s !! w = Some evs ∧ read keyof s evs = drop (version h1) (log keyof (h1 ++ h2 ++ h3)).
  Proof. rewrite version_made. apply exact_events. Qed.
  Lemma watch_outcome h s rc : exec st f_init h s → (0 ≤ rc)%Z → (st s (FWatch rc)).2 = if (Z.of_nat (version h) <? rc)%Z then FFuture else FWatching (length (f_watchers s)).
  Proof.
    intros Hx H0. rewrite version_made. pose proof (changes_made _ _ _ Hx) as Hch. simpl in Hch. simpl. unfold fwatch. rewrite Hch.
    destruct (Z.ltb_spec rc (Z.of_nat (length (made h)))), (Z.ltb_spec (Z.of_nat (length (made h))) rc); try done; lia.
  Qed.
  Lemma list_version h s objs rv : exec st f_init h s → st s FList = (s, FListed objs rv) → rv = version h.
  Proof. intros Hx [= _ <-]. rewrite version_made, (changes_made _ _ _ Hx). done. Qed.
  Lemma list_step s objs rv s' : st s FList = (s', FListed objs rv) → s' = s ∧ flist keyof s = FListed objs rv.
  Proof. simpl. unfold flist. by intros [= <- <- <-]. Qed.
  Lemma list_watch' h1 s1 objs v s1' h2 s2 s2' w h3 s : exec st f_init h1 s1 → st s1 FList = (s1', FListed objs v) → exec st s1' h2 s2 → st s2 (FWatch (Z.of_nat v)) = (s2', FWatching w) → exec st s2' h3 s →
    no_other (h2 ++ h3) → none_dropped h3 → ∃ evs objs' v' s', f_watchers s !! w = Some evs ∧ st s FList = (s', FListed objs' v') ∧ ∀ k, replay (read keyof s evs) (listed objs) k = listed objs' k.
  Proof.
    intros Hx1 [-> Hl]%list_step Hx2 Hw Hx3 Hno Hnd. destruct (list_watch h1 s1 objs v h2 s2 s2' w h3 s) as (evs&objs'&v'&H1&H2&H3); try done. exists evs, objs', v', s. split; [done|]. split; [|done]. simpl. by rewrite H2.
  Qed.
  Lemma every_version' h1 s1 objs v s1' h2 s2 s2' w h3 s : exec st f_init h1 s1 → st s1 FList = (s1', FListed objs v) → exec st s1' h2 s2 → st s2 (FWatch (Z.of_nat v)) = (s2', FWatching w) → exec st s2' h3 s →
    no_other h1 → NoDup (objects (h1 ++ h2 ++ h3)) → all_seen h3 →
    ∃ evs, f_watchers s !! w = Some evs ∧ ∀ n k, replay (take n (read keyof s evs)) (listed objs) k = replay (take (v + n) (log keyof (h1 ++ h2 ++ h3))) (λ _, None) k.
  Proof. intros Hx1 [-> Hl]%list_step. by apply every_version. Qed.
End proofs.

(** cases; keys and values are numbers *)
Definition one_key (r : nat) : nat := 0.
Definition own_key (r : nat) : nat := r.
Definition reuse_h : list (fop nat * fres nat nat) := [(FChange EAdded 0 10 false, FDone); (FChange EModified 0 20 false, FDone); (FWatch 0, FWatching 0)].
Lemma reuse_case : ∃ s evs, exec (fstep one_key) f_init reuse_h s ∧ f_watchers s !! 0 = Some evs ∧ all_seen (reuse_h) ∧
  replay (take 1 (read one_key s evs)) (λ _, None) 0 = Some (20, 2) ∧ replay (take 1 (log one_key reuse_h)) (λ _, None) 0 = Some (10, 1).
Proof.
  exists (FS [(0, (20, 2))] [(0, 0)] [(EAdded, 0); (EModified, 0)] [[WCopy EAdded (Copy 0 (20, 2)); WCopy EModified (Copy 0 (20, 2))]]).
  eexists. split; [apply exec_check; by vm_compute|]. split; [done|]. split; [|by vm_compute].
  intros ty r v d res Hin. unfold reuse_h in Hin. repeat (apply elem_of_cons in Hin as [?|Hin]; [by simplify_eq|]). by apply elem_of_nil in Hin.
Qed.
Lemma dropped_case : ∃ s, exec (fstep own_key) f_init [(FWatch 0, FWatching 0); (FChange EAdded 3 10 true, FDone)] s ∧ f_watchers s !! 0 = Some [] ∧ flist own_key s = FListed [Copy 3 (10, 1)] 1.
Proof. exists (FS [(3, (10, 1))] [(3, 3)] [(EAdded, 3)] [[]]). split; [apply exec_check; by vm_compute|]. by vm_compute. Qed.
Definition other_h : list (fop nat * fres nat nat) := [(FChange EAdded 3 10 false, FDone); (FList, FListed [Copy 3 (10, 1)] 1); (FWatch 1, FWatching 0); (FChange EOther 3 20 false, FDone)].
Lemma other_case : ∃ s evs, exec (fstep own_key) f_init other_h s ∧ f_watchers s !! 0 = Some evs ∧ flist own_key s = FListed [Copy 3 (20, 2)] 2 ∧
  replay (read own_key s evs) (listed [Copy 3 (10, 1)]) 3 = Some (10, 1).
Proof. exists (FS [(3, (20, 2))] [(3, 3)] [(EAdded, 3); (EOther, 3)] [[WRef EOther 3]]). eexists. split; [apply exec_check; by vm_compute|]. by vm_compute. Qed.
(** two listed objects; then one is changed, one deleted, one added, and a deletion fails, before and after the watch *)
Definition case_h1 : list (fop nat * fres nat nat) := [(FChange EAdded 3 10 false, FDone); (FChange EAdded 4 11 false, FDone)].
Definition case_h2 : list (fop nat * fres nat nat) := [(FChange EModified 3 12 true, FDone); (FChange EDeleted 9 0 false, FKeyError)].
Definition case_h3 : list (fop nat * fres nat nat) := [(FChange EDeleted 4 13 false, FDone); (FChange EAdded 5 14 false, FDone); (FChange EDeleted 8 0 false, FKeyError)].
Lemma full_case : ∃ s1 s2 s2' s, exec (fstep own_key) f_init case_h1 s1 ∧ fstep own_key s1 FList = (s1, FListed [Copy 3 (10, 1); Copy 4 (11, 2)] 2) ∧ exec (fstep own_key) s1 case_h2 s2 ∧
  fstep own_key s2 (FWatch 2) = (s2', FWatching 0) ∧ exec (fstep own_key) s2' case_h3 s ∧ no_other (case_h2 ++ case_h3) ∧ none_dropped case_h3 ∧
  flist own_key s = FListed [Copy 3 (12, 3); Copy 5 (14, 6)] 7.
Proof.
  eexists _, _, _, _.
  split; [refine (exec_check _ _ _ _ _); vm_compute; reflexivity|]. split; [vm_compute; reflexivity|]. split; [refine (exec_check _ _ _ _ _); vm_compute; reflexivity|].
  split; [vm_compute; reflexivity|]. split; [refine (exec_check _ _ _ _ _); vm_compute; reflexivity|]. split; [|split].
  - intros r v d res Hin. unfold case_h2, case_h3 in Hin. simpl in Hin. repeat (apply elem_of_cons in Hin as [?|Hin]; [by simplify_eq|]). by apply elem_of_nil in Hin.
  - intros ty r v d res Hin. unfold case_h3 in Hin. repeat (apply elem_of_cons in Hin as [?|Hin]; [by simplify_eq|]). by apply elem_of_nil in Hin.
  - vm_compute. reflexivity.
Qed.
(** each change has an object of its own: 3 added, 4 added; 13 modifies 3; 14 deletes 4, 5 is added *)
Definition mod_key (r : nat) : nat := r mod 10.
Definition fresh_h1 : list (fop nat * fres nat nat) := [(FChange EAdded 3 10 false, FDone); (FChange EAdded 4 11 false, FDone)].
Definition fresh_h2 : list (fop nat * fres nat nat) := [(FChange EModified 13 12 false, FDone)].
Definition fresh_h3 : list (fop nat * fres nat nat) := [(FChange EDeleted 14 13 false, FDone); (FChange EAdded 5 14 false, FDone)].
Lemma fresh_case : ∃ s1 s2 s2' s evs, exec (fstep mod_key) f_init fresh_h1 s1 ∧ fstep mod_key s1 FList = (s1, FListed [Copy 3 (10, 1); Copy 4 (11, 2)] 2) ∧ exec (fstep mod_key) s1 fresh_h2 s2 ∧
  fstep mod_key s2 (FWatch 2) = (s2', FWatching 0) ∧ exec (fstep mod_key) s2' fresh_h3 s ∧ no_other fresh_h1 ∧ NoDup (objects (fresh_h1 ++ fresh_h2 ++ fresh_h3)) ∧ all_seen fresh_h3 ∧
  f_watchers s !! 0 = Some evs ∧ read mod_key s evs = [(EModified, Copy 3 (12, 3)); (EDeleted, Copy 4 (13, 4)); (EAdded, Copy 5 (14, 5))].
Proof.
  eexists _, _, _, _, _.
  split; [refine (exec_check _ _ _ _ _); vm_compute; reflexivity|]. split; [vm_compute; reflexivity|]. split; [refine (exec_check _ _ _ _ _); vm_compute; reflexivity|].
  split; [vm_compute; reflexivity|]. split; [refine (exec_check _ _ _ _ _); vm_compute; reflexivity|]. split; [|split; [|split; [|split]]].
  - intros r v d res Hin. unfold fresh_h1 in Hin. repeat (apply elem_of_cons in Hin as [?|Hin]; [by simplify_eq|]). by apply elem_of_nil in Hin.
  - apply (bool_decide_unpack _). by vm_compute.
  - intros ty r v d res Hin. unfold fresh_h3 in Hin. repeat (apply elem_of_cons in Hin as [?|Hin]; [by simplify_eq|]). by apply elem_of_nil in Hin.
  - vm_compute. reflexivity.
  - vm_compute. reflexivity.
Qed.
