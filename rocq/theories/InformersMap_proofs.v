From Verif Require Import Base InformersMap_model InformersMap_spec.
From Coq Require Import QArith Lqa.
Local Open Scope nat_scope.

Section proofs.
  Context {G : Type} `{EqDecision G}.
  Implicit Types (tr : list (ilabel G)) (g : G) (s : imap G).
  Notation ist := imstep.

  Lemma dget_cons {X} g g' (x : X) d : dget g ((g', x) :: d) = if decide (g = g') then Some x else dget g d.
  Proof. done. Qed.
  Lemma dget_run_all g (infs : dict G minf) : dget g (run_all infs) = (λ i, MInf (mi_id i) (S (mi_todo i)) (mi_runs i) (mi_synced i)) <$> dget g infs.
  Proof.
    unfold run_all. induction infs as [|[g' i] infs IH]; csimpl; [done|]. change (Datatypes.id g') with g'. rewrite !dget_cons. by destruct (decide (g = g')).
  Qed.

  Definition ids s g : option nat := mi_id <$> dget g (im_infs s).
  Lemma ids_step s l s' g : ist s l s' → match ids s g with
    | Some id => ids s' g = Some id ∧ (∀ r, l ≠ IAdd r g true)
    | None => ids s' g = None ∧ (∀ r, l ≠ IAdd r g true) ∨ (∃ r, l = IAdd r g true) ∧ ids s' g = Some (im_next s)
    end.
  Proof.
    intros Hs. unfold ids.
    destruct Hs as [g'|r g' Hr|r g' found st infs next id c Hr Hf|r g' id Hr Hsy|r p Hr Hp| |g' i n Hi Ht|g' i Hi Hn]; simpl;
      try (destruct (dget g (im_infs s)); simpl; [split; [done|by intros]|left; split; [done|by intros]]; done).
    - unfold find_or_add in Hf. destruct found as [id'|].
      { injection Hf as <- <- <- <-. destruct (dget g (im_infs s)); simpl; [split; [done|by intros r' [=]]|left; split; [done|by intros r' [=]]]. }
      destruct (dget g' (im_infs s)) as [i|] eqn:Ei.
      { injection Hf as <- <- <- <-. destruct (dget g (im_infs s)); simpl; [split; [done|by intros r' [=]]|left; split; [done|by intros r' [=]]]. }
      injection Hf as <- <- <- <-. rewrite dget_dset. destruct (decide (g = g')) as [->|Hne].
      + rewrite Ei. simpl. right. split; [by exists r|done].
      + destruct (dget g (im_infs s)); simpl; [split; [done|intros r' [= _ ?]; congruence]|left; split; [done|intros r' [= _ ?]; congruence]].
    - rewrite dget_run_all. destruct (dget g (im_infs s)); simpl; [split; [done|by intros]|left; split; [done|by intros]].
    - rewrite dget_dset. destruct (decide (g = g')) as [->|]; [rewrite Hi; simpl; split; [done|by intros]|].
      destruct (dget g (im_infs s)); simpl; [split; [done|by intros]|left; split; [done|by intros]].
    - rewrite dget_dset. destruct (decide (g = g')) as [->|]; [rewrite Hi; simpl; split; [done|by intros]|].
      destruct (dget g (im_infs s)); simpl; [split; [done|by intros]|left; split; [done|by intros]].
  Qed.
  Lemma ids_keep s l s' g id : ist s l s' → ids s g = Some id → ids s' g = Some id.
  Proof. intros Hs Hi. pose proof (ids_step _ _ _ g Hs) as H. rewrite Hi in H. tauto. Qed.

  (** the informer a call has is the one in the map *)
  Definition phase_ok s (p : gphase G) : Prop :=
    match p with
    | GFound g (Some id) _ | GWait g id | GDone g id _ => ids s g = Some id
    | _ => True
    end.
  Lemma phase_keep s l s' p : ist s l s' → phase_ok s p → phase_ok s' p.
  Proof. intros Hs. destruct p as [g|g [id|] st|g id|g id st|]; simpl; try done; by apply ids_keep with (l := l). Qed.
  Lemma forall_insert {X} (P : X → Prop) (l : list X) r p : Forall P l → P p → Forall P (<[r:=p]> l).
  Proof.
    intros Hl Hp. rewrite Forall_lookup in *. intros i x [[-> [<- _]]|[_ ?]]%list_lookup_insert_Some; [done|eauto].
  Qed.
  Lemma phases_step s l s' : ist s l s' → Forall (phase_ok s) (im_gets s) → Forall (phase_ok s') (im_gets s').
  Proof.
    intros Hs Hf. assert (Forall (phase_ok s') (im_gets s)) as Hf'. { eapply Forall_impl; [done|]. intros p. by eapply phase_keep. }
    destruct Hs as [g'|r g' Hr|r g' found st infs next id c Hr Hfa|r g' id Hr Hsy|r p Hr Hp| |g' i n Hi Ht|g' i Hi Hn]; simpl in *; try done.
    - apply Forall_app. split; [done|]. by repeat constructor.
    - apply forall_insert; [done|]. simpl. by destruct (dget g' (im_infs s)) eqn:E; simpl; [unfold ids; simpl; rewrite E|].
    - apply forall_insert; [done|]. assert (phase_ok {| im_infs := infs; im_started := im_started s; im_next := next; im_gets := <[r:=after_find g' id st infs]> (im_gets s) |} (GWait g' id)) as H1.
      { simpl. unfold ids. simpl. unfold find_or_add in Hfa. destruct found as [id'|].
        - injection Hfa as <- <- <- <-. rewrite Forall_lookup in Hf. specialize (Hf _ _ Hr). simpl in Hf. done.
        - destruct (dget g' (im_infs s)) as [i|] eqn:Ei; injection Hfa as <- <- <- <-; [by rewrite Ei|]. rewrite dget_dset. by rewrite decide_True. }
      unfold after_find. by destruct (_ && _).
    - apply forall_insert; [done|]. rewrite Forall_lookup in Hf'. exact (Hf' _ _ Hr).
    - by apply forall_insert.
  Qed.
  Lemma reach_phases tr s : reach ist im_init tr s → Forall (phase_ok s) (im_gets s).
  Proof.
    intros Hr. apply (reach_inv ist (λ s, Forall (phase_ok s) (im_gets s)) im_init tr s); [| |done].
    - intros. by eapply phases_step.
    - by constructor.
  Qed.
  Lemma one_informer tr s r1 r2 g id1 id2 st1 st2 : reach ist im_init tr s → returned r1 g id1 st1 s → returned r2 g id2 st2 s → id1 = id2.
  Proof. intros Hr%reach_phases H1 H2. rewrite Forall_lookup in Hr. pose proof (Hr _ _ H1) as Ha. pose proof (Hr _ _ H2) as Hb. simpl in *. congruence. Qed.
  Lemma created_once tr s g : reach ist im_init tr s → created g tr ≤ 1.
  Proof.
    intros Hr. enough (created g tr = match ids s g with Some _ => 1 | None => 0 end) as -> by (destruct (ids s g); lia).
    apply (reach_trace_inv ist (λ tr s, created g tr = match ids s g with Some _ => 1 | None => 0 end) im_init tr s); [done| |done].
    intros tr1 s1 l s2 _ IH Hs. unfold created in *. rewrite countb_app, countb_cons, countb_nil, IH.
    pose proof (ids_step _ _ _ g Hs) as H. destruct (ids s1 g) as [id|].
    - destruct H as [-> Hl]. destruct l as [| |r g' []| | | | |]; try lia. rewrite bool_decide_eq_false_2; [lia|]. intros ->. by apply (Hl r).
    - destruct H as [[-> Hl]|[[r ->] ->]].
      + destruct l as [| |r g' []| | | | |]; try lia. rewrite bool_decide_eq_false_2; [lia|]. intros ->. by apply (Hl r).
      + rewrite bool_decide_eq_true_2 by done. lia.
  Qed.

  (** an informer that no start has seen *)
  Definition unrun g s : Prop := match dget g (im_infs s) with Some i => mi_todo i = 0 ∧ mi_runs i = 0 ∧ mi_synced i = false | None => True end.
  Lemma unrun_step g s l s' : ist s l s' → l ≠ IStart → unrun g s → unrun g s'.
  Proof.
    intros Hs Hl Hu. unfold unrun in *.
    destruct Hs as [g'|r g' Hr|r g' found st infs next id c Hr Hfa|r g' id Hr Hsy|r p Hr Hp| |g' i n Hi Ht|g' i Hi Hn]; simpl in *; try done.
    - unfold find_or_add in Hfa. destruct found; [by injection Hfa as <- <- <- <-|]. destruct (dget g' (im_infs s)) eqn:Ei; injection Hfa as <- <- <- <-; [done|].
      rewrite dget_dset. destruct (decide (g = g')) as [->|]; [done|]. done.
    - rewrite dget_dset. destruct (decide (g = g')) as [->|]; [|done]. rewrite Hi in Hu. destruct Hu as (?&?&?). congruence.
    - rewrite dget_dset. destruct (decide (g = g')) as [->|]; [|done]. rewrite Hi in Hu. destruct Hu as (?&?&?). congruence.
  Qed.
  Lemma unrun_synced g s : unrun g s → synced g (im_infs s) = false.
  Proof. unfold unrun, synced. destruct (dget g (im_infs s)); [by intros (?&?&?)|done]. Qed.
  Lemma never_done_step g s l s' : ist s l s' → l ≠ IStart → unrun g s → (∀ r id, ¬ returned r g id true s) → ∀ r id, ¬ returned r g id true s'.
  Proof.
    intros Hs Hl Hu Hn r0 id0 Hr0. unfold returned in *. pose proof (unrun_step _ _ _ _ Hs Hl Hu) as Hu'. apply unrun_synced in Hu, Hu'.
    destruct Hs as [g'|r g' Hr|r g' found st infs next id c Hr Hfa|r g' id Hr Hsy|r p Hr Hp| |g' i n Hi Ht|g' i Hi Hn']; simpl in *;
      try (by apply (Hn r0 id0)); try (apply list_lookup_insert_Some in Hr0 as [(->&Heq&_)|[_ ?]]; [|by apply (Hn r0 id0)]).
    - apply lookup_app_Some in Hr0 as [?|[_ Hr0]]; [by apply (Hn r0 id0)|]. destruct (r0 - length (im_gets s)); [done|]. by destruct n.
    - done.
    - unfold after_find in Heq. destruct st; simpl in Heq; [|by destruct (synced g' infs)]. destruct (synced g' infs) eqn:E; simpl in Heq; [|done]. injection Heq as -> ->. congruence.
    - injection Heq as -> ->. congruence.
    - done.
  Qed.
  Lemma late_never_returns tr s g : reach ist im_init tr s → dget g (im_infs s) = None → (∀ r id, ¬ returned r g id true s) ∧
    ∀ ls s', reach ist s ls s' → IStart ∉ ls → ∀ r id, ¬ returned r g id true s'.
  Proof.
    intros Hr Hg. assert (Hn : ∀ r id, ¬ returned r g id true s).
    { intros r id H. apply reach_phases in Hr. rewrite Forall_lookup in Hr. specialize (Hr _ _ H). simpl in Hr. unfold ids in Hr. by rewrite Hg in Hr. }
    split; [done|]. intros ls s' Hr'.
    assert (Hu : unrun g s) by (unfold unrun; by rewrite Hg).
    enough (IStart ∉ ls → unrun g s' ∧ ∀ r id, ¬ returned r g id true s') as H by (intros ?; by apply H).
    apply (reach_trace_inv ist (λ ls s', IStart ∉ ls → unrun g s' ∧ ∀ r id, ¬ returned r g id true s') s ls s'); [done| |done].
    intros ls1 s1 l s2 _ IH Hs [Hn1 Hn2]%not_elem_of_app. destruct (IH Hn1) as [IH1 IH2]. assert (l ≠ IStart) by (intros ->; apply Hn2; by left).
    split; [by eapply unrun_step|by eapply never_done_step].
  Qed.

  (** after a start every informer of the map can sync, and every call for it return *)
  Definition runnable g s : Prop := ∃ i, dget g (im_infs s) = Some i ∧ (mi_todo i ≠ 0 ∨ mi_runs i ≠ 0).
  Lemma runnable_step g s l s' : ist s l s' → runnable g s → runnable g s'.
  Proof.
    intros Hs (i0&Hi0&Hor). unfold runnable in *.
    destruct Hs as [g'|r g' Hr|r g' found st infs next id c Hr Hfa|r g' id Hr Hsy|r p Hr Hp| |g' i n Hi Ht|g' i Hi Hn]; simpl in *; try (by exists i0).
    - unfold find_or_add in Hfa. destruct found; [injection Hfa as <- <- <- <-; by exists i0|]. destruct (dget g' (im_infs s)) eqn:Ei; injection Hfa as <- <- <- <-; [by exists i0|].
      rewrite dget_dset. destruct (decide (g = g')) as [->|]; [congruence|]. by exists i0.
    - rewrite dget_run_all, Hi0. simpl. eexists. split; [done|]. simpl. by left.
    - rewrite dget_dset. destruct (decide (g = g')) as [->|]; [|by exists i0]. eexists. split; [done|]. simpl. by right.
    - rewrite dget_dset. destruct (decide (g = g')) as [->|]; [|by exists i0]. eexists. split; [done|]. simpl. by right.
  Qed.
  Lemma known_runnable l1 l2 s r g : reach ist im_init (l1 ++ IStart :: l2) s → IAdd r g true ∈ l1 → runnable g s.
  Proof.
    intros Hr Hin. apply reach_app_inv in Hr as (s1&Hr1&Hr2). apply (reach_app_inv _ _ [_]) in Hr2 as (s2&Hs%reach_one_inv&Hr2).
    assert (is_Some (ids s1 g)) as [id Hid].
    { revert Hin. apply (reach_trace_inv ist (λ tr s, IAdd r g true ∈ tr → is_Some (ids s g)) im_init l1 s1); [by intros ?%elem_of_nil| |done].
      intros tr t l t' _ IH Hst [Hi|Hl%elem_of_list_singleton]%elem_of_app.
      - destruct (IH Hi) as [id Hid]. exists id. by eapply ids_keep.
      - subst l. pose proof (ids_step _ _ _ g Hst) as H. destruct (ids t g) as [id|]; [destruct H as [_ H]; by destruct (H r)|]. destruct H as [[_ H]|[_ ->]]; [by destruct (H r)|]. by eexists. }
    apply (reach_inv ist (runnable g) s2 l2 s); [intros; by eapply runnable_step| |done].
    unfold ids in Hid. destruct (dget g (im_infs s1)) as [i|] eqn:Ei; [|done]. inversion Hs; subst. unfold runnable. simpl. rewrite dget_run_all, Ei. eexists. split; [done|]. simpl. by left.
  Qed.
  Lemma known_returns l1 l2 s r0 g r id : reach ist im_init (l1 ++ IStart :: l2) s → IAdd r0 g true ∈ l1 → im_gets s !! r = Some (GWait g id) →
    ∃ ls s', reach ist s ls s' ∧ returned r g id true s' ∧ IStart ∉ ls.
  Proof.
    intros Hr Hin Hg. destruct (known_runnable _ _ _ _ _ Hr Hin) as (i&Hi&Hor).
    assert (Hgo : ∀ s1, im_gets s1 = im_gets s → (∃ i, dget g (im_infs s1) = Some i ∧ mi_runs i ≠ 0) → ∃ s', reach ist s1 [ISync g; IWake r] s' ∧ returned r g id true s').
    { intros s1 Hg1 (i1&Hi1&Hn1). eexists. split.
      - eapply reach_cons; [by eapply im_sync|]. eapply reach_cons; [eapply im_wake; simpl; [by rewrite Hg1|]|constructor]. unfold synced. simpl. rewrite dget_dset. by rewrite decide_True.
      - unfold returned. simpl. apply list_lookup_insert. rewrite Hg1. by eapply lookup_lt_Some. }
    destruct (decide (mi_runs i = 0)) as [H0|H0].
    - destruct Hor as [Ht|]; [|done]. destruct (mi_todo i) as [|n] eqn:Et; [done|].
      assert (ist s (IBegin g) (IM (dset g (MInf (mi_id i) n (S (mi_runs i)) false) (im_infs s)) (im_started s) (im_next s) (im_gets s))) as Hb by (by apply im_begin).
      match type of Hb with imstep _ _ ?s1 => destruct (Hgo s1) as (s'&Hr'&Hd) end.
      + done.
      + simpl. rewrite dget_dset, decide_True by done. eexists. by split.
      + exists (IBegin g :: [ISync g; IWake r]), s'. split; [by eapply reach_cons|]. split; [done|]. rewrite !elem_of_cons, elem_of_nil. naive_solver.
    - destruct (Hgo s) as (s'&Hr'&Hd); [done|by exists i|]. exists [ISync g; IWake r], s'. split; [done|]. split; [done|]. rewrite !elem_of_cons, elem_of_nil. naive_solver.
  Qed.

  (** C74 *)
  Lemma returns_synced s l s' r g id : ist s l s' → ¬ returned r g id true s → returned r g id true s' → synced g (im_infs s') = true.
  Proof.
    intros Hs Hn Hr0. unfold returned in *.
    destruct Hs as [g'|r' g' Hr|r' g' found st infs next id' c Hr Hfa|r' g' id' Hr Hsy|r' p Hr Hp| |g' i n Hi Ht|g' i Hi Hn']; simpl in *; try done;
      try (apply list_lookup_insert_Some in Hr0 as [(->&Heq&_)|[_ ?]]; [|done]); try done.
    - apply lookup_app_Some in Hr0 as [?|[_ Hr0]]; [done|]. destruct (r - length (im_gets s)); [done|]. by destruct n.
    - unfold after_find in Heq. destruct st; simpl in Heq; [|by destruct (synced g' infs)]. destruct (synced g' infs) eqn:E; simpl in Heq; [|done]. by injection Heq as -> ->.
    - by injection Heq as -> ->.
  Qed.
  (** whether a call finds the cache started is settled when it reads it *)
  Lemma started_iff tr s g : reach ist im_init tr s → im_started s = true ↔ IStart ∈ tr.
  Proof.
    intros Hr. apply (reach_trace_inv ist (λ tr s, im_started s = true ↔ IStart ∈ tr) im_init tr s); [by rewrite elem_of_nil| |done].
    intros tr1 s1 l s2 _ IH Hs. rewrite elem_of_app, elem_of_list_singleton.
    destruct Hs; simpl; rewrite ?IH; naive_solver.
  Qed.
  Lemma before_start tr s r g l s' : reach ist im_init tr s → im_gets s !! r = Some (GFound g l false) →
    (∃ c s1, ist s (IAdd r g c) s1) ∧ (∀ c, ist s (IAdd r g c) s' → ∃ id, returned r g id false s').
  Proof.
    intros Hr Hg. assert (r < length (im_gets s)) by (by eapply lookup_lt_Some). split.
    - destruct (find_or_add g l s) as [[[infs next] id] c] eqn:E. eexists _, _. by eapply im_add.
    - intros c Hs. inversion Hs as [| |? ? found st infs next id ? Hr' Hfa| | | | |]; subst. rewrite Hg in Hr'. injection Hr' as <- <-. exists id. unfold returned. simpl. by rewrite list_lookup_insert.
  Qed.

  Lemma runs_exact tr s g : reach ist im_init tr s → (match dget g (im_infs s) with Some i => mi_todo i | None => 0 end) + begins g tr ≤ starts tr.
  Proof.
    intros Hr. apply (reach_trace_inv ist (λ tr s, (match dget g (im_infs s) with Some i => mi_todo i | None => 0 end) + begins g tr ≤ starts tr) im_init tr s); [done| |done].
    intros tr1 s1 l s2 _ IH Hs. unfold begins, starts in *. rewrite !countb_app, !countb_cons, !countb_nil.
    destruct Hs as [g'|r g' Hr'|r g' found st infs next id c Hr' Hfa|r g' id Hr' Hsy|r p Hr' Hp| |g' i n Hi Ht|g' i Hi Hn]; cbn [im_infs set_get]; try lia.
    - unfold find_or_add in Hfa. destruct found; [injection Hfa as <- <- <- <-; lia|]. destruct (dget g' (im_infs s1)) eqn:Ei; injection Hfa as <- <- <- <-; [lia|].
      rewrite dget_dset. destruct (decide (g = g')) as [->|]; [rewrite Ei in IH; simpl; lia|lia].
    - rewrite dget_run_all. destruct (dget g (im_infs s1)); simpl; lia.
    - rewrite dget_dset. destruct (decide (g = g')) as [->|Hne]; [rewrite Hi in IH; rewrite bool_decide_eq_true_2 by done; simpl; lia|].
      rewrite bool_decide_eq_false_2 by done. lia.
    - rewrite dget_dset. destruct (decide (g = g')) as [->|Hne]; [rewrite Hi in IH; simpl; lia|lia].
  Qed.
  Lemma runs_le tr s g : reach ist im_init tr s → begins g tr ≤ starts tr.
  Proof. intros Hr. pose proof (runs_exact _ _ g Hr). lia. Qed.

  (** a call made after the start, for a kind without an informer *)
  Definition late g (p : option (gphase G)) : Prop :=
    match p with
    | Some (GLook g') | Some (GFound g' _ true) | Some (GWait g' _) | Some (GDone g' _ true) => g' = g
    | Some GCancelled => True
    | _ => False
    end.
  Lemma late_step g r s l s' : ist s l s' → im_started s = true → late g (im_gets s !! r) → im_started s' = true ∧ late g (im_gets s' !! r).
  Proof.
    intros Hs Hst Hl.
    destruct Hs as [g'|r' g' Hr'|r' g' found st infs next id c Hr' Hfa|r' g' id Hr' Hsy|r' p Hr' Hp| |g' i n Hi Ht|g' i Hi Hn]; simpl; split; try done.
    - rewrite lookup_app_l; [done|]. destruct (im_gets s !! r) eqn:E; [by eapply lookup_lt_Some|done].
    - destruct (decide (r' = r)) as [->|]; [|by rewrite list_lookup_insert_ne]. rewrite list_lookup_insert by (by eapply lookup_lt_Some). rewrite Hr' in Hl. simpl in *. by rewrite Hst.
    - destruct (decide (r' = r)) as [->|]; [|by rewrite list_lookup_insert_ne]. rewrite list_lookup_insert by (by eapply lookup_lt_Some). rewrite Hr' in Hl. simpl in *. destruct st; [|done].
      unfold after_find. by destruct (_ && _).
    - destruct (decide (r' = r)) as [->|]; [|by rewrite list_lookup_insert_ne]. rewrite list_lookup_insert by (by eapply lookup_lt_Some). rewrite Hr' in Hl. done.
    - destruct (decide (r' = r)) as [->|]; [|by rewrite list_lookup_insert_ne]. by rewrite list_lookup_insert by (by eapply lookup_lt_Some).
  Qed.
  Lemma late_hangs tr s g r : reach ist im_init tr s → IStart ∈ tr → dget g (im_infs s) = None → im_gets s !! r = Some (GLook g) →
    ∀ ls s', reach ist s ls s' → IStart ∉ ls → ∀ g' id st, ¬ returned r g' id st s'.
  Proof.
    intros Hr Hin Hg Hl ls s' Hr' Hno g' id st Hret. apply (started_iff tr s g Hr) in Hin.
    assert (im_started s' = true ∧ late g (im_gets s' !! r)) as [_ Hla].
    { apply (reach_inv ist (λ s, im_started s = true ∧ late g (im_gets s !! r)) s ls s'); [| |done].
      - intros s1 l s2 [? ?] Hs. by eapply late_step.
      - by rewrite Hl. }
    unfold returned in *. rewrite Hret in Hla. simpl in Hla. destruct st; [|done]. subst. destruct (late_never_returns _ _ _ Hr Hg) as [_ H]. by apply (H _ _ Hr' Hno r id).
  Qed.
End proofs.

Lemma period_range resync r : (0 <= resync)%Q → (0 <= r)%Q → (r < 1)%Q → (0 <= resync_period resync r)%Q ∧ (resync_period resync r <= resync * (18 # 100))%Q.
Proof.
  intros H1 H2 H3. unfold resync_period. assert (resync * (r / 5 * (9 # 10)) == (resync * r) * (18 # 100))%Q as -> by field.
  assert (0 <= resync * r)%Q by (apply Qmult_le_0_compat; lra). assert (resync * r <= resync)%Q by nra. split; nra.
Qed.
Lemma period_never_near resync r : (0 < resync)%Q → (0 <= r)%Q → (r < 1)%Q → ¬ near resync (resync_period resync r).
Proof. intros H1 H2 H3 [Hn _]. destruct (period_range resync r) as [_ H]; [lra|done|done|]. nra. Qed.
Lemma period_onto resync p : (0 < resync)%Q → (0 <= p)%Q → (p < resync * (18 # 100))%Q → ∃ r, (0 <= r)%Q ∧ (r < 1)%Q ∧ (resync_period resync r == p)%Q.
Proof.
  intros H1 H2 H3. assert (0 < resync * (18 # 100))%Q by nra. exists (p / (resync * (18 # 100)))%Q. split; [|split].
  - apply Qle_shift_div_l; [done|]. lra.
  - apply Qlt_shift_div_r; [done|]. lra.
  - unfold resync_period. field. lra.
Qed.

#[local] Transparent dget dset.
Local Ltac go := repeat (eapply reach_cons; [econstructor; cbv; (reflexivity || done)|]; cbv); by constructor.
Lemma get_hangs_case : ∃ (s : imap nat), reach imstep im_init [IStart; IGet 7] s ∧
  ∀ ls s', reach imstep s ls s' → IStart ∉ ls → ∀ g id st, ¬ returned 0 g id st s'.
Proof.
  eexists. assert (reach imstep im_init [IStart; IGet 7] (IM [] true 0 [GLook 7])) as Hr by go.
  split; [done|]. by eapply (late_hangs [IStart; IGet 7] _ 7 0); [|by left| |].
Qed.
Definition three_gets : list (ilabel nat) :=
  [IGet 7; IGet 7; IRead 0; IRead 1; IAdd 1 7 true; IAdd 0 7 false; IStart; IGet 7; IRead 2; IAdd 2 7 false; IBegin 7; ISync 7; IWake 2].
Lemma three_gets_case : ∃ s, reach imstep im_init three_gets s ∧ returned 0 7 0 false s ∧ returned 1 7 0 false s ∧ returned 2 7 0 true s.
Proof.
  exists (IM [(7, MInf 0 0 1 true)] true 1 [GDone 7 0 false; GDone 7 0 false; GDone 7 0 true]). split; [|done].
  unfold three_gets. go.
Qed.
Lemma unsynced_case : ∃ (s s' : imap nat), reach imstep im_init [IGet 7; IRead 0; IAdd 0 7 true; IStart; IBegin 7; ISync 7] s ∧ synced 7 (im_infs s) = true ∧
  reach imstep s [IStart; IBegin 7] s' ∧ synced 7 (im_infs s') = false.
Proof.
  exists (IM [(7, MInf 0 0 1 true)] true 1 [GDone 7 0 false]), (IM [(7, MInf 0 0 2 false)] true 1 [GDone 7 0 false]).
  split; [go|]. split; [done|]. split; [go|done].
Qed.
