From Verif Require Import Base KeyFunc_model KeyFunc_spec KeyFunc_proofs Reflector_model Store_model Store_spec Store_proofs Reflector_spec Reflector_proofs World_model.

Section proofs.
  Context {K O S : Type} `{EqDecision K} (keyf : O → option K) (g : rcfg O nat) (q : sops O nat S).
  Implicit Types (w : world O) (s : S) (e : event O).
  Notation wstep := (wstep keyf g q).

  Record WInv w : Prop := {
    wi_good : ∀ n e, w_changes w !! n = Some e →
      (e_type e = EvAdded ∨ e_type e = EvModified ∨ e_type e = EvDeleted) ∧ is_Some (keyf (e_obj e)) ∧ accepted g e (n + 1);
    wi_none : r_last (w_refl w) = None → ¬ active (r_pc (w_refl w));
    wi_opt : r_opt (w_refl w) = r_last (w_refl w);
    wi_some : ∀ v, r_last (w_refl w) = Some v → v ≤ length (w_changes w) ∧ w_base w ≤ v ∧
      w_applied w = drop (w_base w) (take v (w_changes w)) ∧ (is_watching (r_pc (w_refl w)) → w_cursor w = v)
  }.
  Lemma WInv_init : WInv world_init.
  Proof. split; simpl; [by intros n e|tauto|done|done]. Qed.

  (** what a step of the reflector does, from the outside *)
  Inductive rkind (w : world O) s : rinput O nat → refl nat → S → list (routput O nat) → Prop :=
  | rk_list items v s' : r_pc (w_refl w) = RIdle → so_replace q s items v = (s', true) →
      rkind w s (IList items v) (Refl RReady (Some v) (Some v) ENone) s' [CReplace items v true]
  | rk_list_fails items v s' : r_pc (w_refl w) = RIdle → so_replace q s items v = (s', false) →
      rkind w s (IList items v) (to_idle (w_refl w)) s' [CReplace items v false]
  | rk_event e n rv s' out : r_pc (w_refl w) = RWatching n → r_noticed (w_refl w) = false → accepted g e rv → apply_event q e s = (s', out) →
      rkind w s (IEvent e) (Refl (RWatching (n + 1)) (Some rv) (Some rv) (notice (r_err (w_refl w)))) s' out
  | rk_resync due s' ok : active (r_pc (w_refl w)) → so_resync q s = (s', ok) →
      rkind w s (IResync due) (Refl (r_pc (w_refl w)) (r_last (w_refl w)) (r_opt (w_refl w)) (if ok then ENone else EQueued)) s' [CResync ok]
  | rk_watch : r_pc (w_refl w) = RReady →
      rkind w s IWatch (Refl (RWatching 0) (r_last (w_refl w)) (r_opt (w_refl w)) (notice (r_err (w_refl w)))) s [CWatch (r_opt (w_refl w))]
  | rk_quiet i r out : (∀ e rv, i = IEvent e → accepted g e rv → ¬ is_watching (r_pc r)) →
      (∀ c, c ∈ out → out_event c = None) → (∀ items v ok, CReplace items v ok ∉ out) →
      r_last r = r_last (w_refl w) → r_opt r = r_opt (w_refl w) → (active (r_pc r) → active (r_pc (w_refl w))) →
      (is_watching (r_pc r) → is_watching (r_pc (w_refl w))) →
      rkind w s i r s out.
  Lemma rstep_kind w s i r s' out : rstep g q (w_refl w, s) i = ((r, s'), out) → rkind w s i r s' out.
  Proof.
    intros Hst. set (r0 := w_refl w) in *.
    assert (Hq : s' = s → (∀ e rv, i = IEvent e → accepted g e rv → ¬ is_watching (r_pc r)) → out = [] ∨ (∃ v, out = [CWatch v]) ∨ (∃ v, out = [CLast v]) →
      r_last r = r_last r0 → r_opt r = r_opt r0 → (active (r_pc r) → active (r_pc r0)) →
      (is_watching (r_pc r) → is_watching (r_pc r0)) → rkind w s i r s' out).
    { intros -> He Ho H1 H2 H3 H5. apply rk_quiet; try done.
      - intros c Hc. destruct Ho as [->|[[v ->]|[v ->]]]; [by apply elem_of_nil in Hc|by apply elem_of_list_singleton in Hc as ->..].
      - intros items v ok Hc. destruct Ho as [->|[[v' ->]|[v' ->]]]; [by apply elem_of_nil in Hc|by apply elem_of_list_singleton in Hc..]. }
    destruct i as [|items rv| | |e|short| |due| | |]; simpl in Hst.
    - destruct (r_pc r0) eqn:Hpc; simplify_eq; apply Hq; simpl; rewrite ?Hpc; naive_solver.
    - destruct (r_pc r0) eqn:Hpc; try (simplify_eq; apply Hq; simpl; rewrite ?Hpc; naive_solver).
      destruct (so_replace q s items rv) as [s1 []] eqn:Hr; simplify_eq; by constructor.
    - destruct (r_pc r0) eqn:Hpc; simplify_eq; apply Hq; simpl; rewrite ?Hpc; naive_solver.
    - destruct (r_pc r0) eqn:Hpc; simplify_eq; try (apply Hq; simpl; rewrite ?Hpc; naive_solver). by constructor.
    - destruct (r_pc r0) as [| |n| |] eqn:Hpc; try (simplify_eq; apply Hq; simpl; rewrite ?Hpc; naive_solver).
      destruct (r_noticed r0) eqn:Hf; [simplify_eq; apply Hq; simpl; rewrite ?Hpc; naive_solver|].
      destruct (classify g e) as [| |rv] eqn:Hc.
      + simplify_eq; apply Hq; simpl; rewrite ?Hpc; naive_solver.
      + assert (∀ rv, ¬ accepted g e rv) by (intros rv ?%classify_take; congruence).
        simplify_eq; apply Hq; simpl; rewrite ?Hpc; naive_solver.
      + apply classify_take in Hc. destruct (apply_event q e s) as [s1 out1] eqn:Ha. simplify_eq. by econstructor.
    - destruct (r_pc r0) as [| |n| |] eqn:Hpc; try (simplify_eq; apply Hq; simpl; rewrite ?Hpc; naive_solver).
      destruct (r_noticed r0 || short && (n =? 0)); simplify_eq; apply Hq; simpl; rewrite ?Hpc; naive_solver.
    - destruct (r_pc r0) as [| |n| |] eqn:Hpc; simplify_eq; apply Hq; simpl; rewrite ?Hpc; naive_solver.
    - destruct (r_pc r0) as [| |n| |] eqn:Hpc; try (simplify_eq; apply Hq; simpl; rewrite ?Hpc; naive_solver).
      all: destruct (negb due || r_failed r0); [simplify_eq; apply Hq; simpl; rewrite ?Hpc; naive_solver|];
        destruct (so_resync q s) as [s1 ok] eqn:Hr; simplify_eq; rewrite <-Hpc; constructor; [by fold r0; rewrite Hpc|done].
    - destruct (r_pc r0) as [| |n| |] eqn:Hpc; try (simplify_eq; apply Hq; simpl; rewrite ?Hpc; naive_solver).
      all: destruct (r_failed r0); simplify_eq; apply Hq; simpl; rewrite ?Hpc; naive_solver.
    - simplify_eq; apply Hq; simpl; naive_solver.
    - destruct (r_pc r0) as [| |n| |] eqn:Hpc; simplify_eq; apply Hq; simpl; rewrite ?Hpc; naive_solver.
  Qed.

  Lemma observe_quiet w cur r out : (∀ items v, out ≠ [CReplace items v true]) →
    observe w cur r out = World (w_changes w) cur r (w_base w) (w_applied w ++ omap out_event out).
  Proof.
    intros Hn. unfold observe. destruct out as [|c out]; [done|]. destruct c; try done. destruct out; [|by destruct ok]. destruct ok; [|done]. by destruct (Hn items rv).
  Qed.
  Lemma omap_quiet out : (∀ c, c ∈ out → out_event (O:=O) c = None) → omap out_event out = [].
  Proof.
    induction out as [|c out IH]; [done|]. intros Hall. csimpl. rewrite (Hall c) by left. apply IH. intros c' ?. apply Hall. by right.
  Qed.
  Lemma apply_event_out e s s' out : apply_event (RV:=nat) q e s = (s', out) →
    omap out_event out = match e_type e with EvAdded | EvModified | EvDeleted => [e] | _ => [] end ∧ ∀ items v, out ≠ [CReplace items v true].
  Proof.
    unfold apply_event. destruct e as [ty o]. simpl. destruct ty.
    1: destruct (so_add q s o). 2: destruct (so_update q s o). 3: destruct (so_delete q s o). all: intros; by simplify_eq.
  Qed.
  Lemma server_take (cs : list (event O)) l v : v ≤ length cs → take v (cs ++ l) = take v cs.
  Proof. intros. by rewrite take_app_le. Qed.

  Lemma WInv_step w s l w' s' : WInv w → wstep (w, s) l (w', s') → WInv w'.
  Proof.
    intros [Hg Hn Ho Hs] Hst. inversion Hst as [w0 s0 e Hgc|w0 s0 e r s1 out Hcur Hr|w0 s0 i r s1 out Hsv Hr]; subst; clear Hst.
    - split; simpl; [| done | done |].
      + intros n e' [Hl|[Hlen Hl]]%lookup_app_Some; [by apply Hg|]. apply list_lookup_singleton_Some in Hl as [Hz ->].
        destruct Hgc as (Ht & Hk & Ha). split; [done|]. split; [done|]. by replace (n + 1) with (Datatypes.S (length (w_changes w))) by lia.
      + intros v Hv. destruct (Hs v Hv) as (H1 & H2 & H3 & H4). rewrite app_length. split; [lia|]. split; [done|]. split; [|done]. by rewrite server_take.
    - destruct (Hg _ _ Hcur) as (Hty & Hk & Hacc). apply rstep_kind in Hr. inversion Hr as [| |e' n rv s2 out' Hpc Hf Ha Hap| | |i r' out' He Hout Hrep Hl Hop Hac Hwa]; subst.
      + destruct (apply_event_out _ _ _ _ Hap) as [Hom Hrep]. rewrite observe_quiet by done. pose proof (accepted_fun _ _ _ _ Ha Hacc) as ->.
        destruct (r_last (w_refl w)) as [v|] eqn:Hlast; [|exfalso; apply Hn; [done|by rewrite Hpc]].
        destruct (Hs v eq_refl) as (H1 & H2 & H3 & H4). rewrite Hpc in H4. specialize (H4 I). rewrite H4 in *.
        split; simpl; [done|done|done|]. intros v' [= <-]. pose proof (lookup_lt_Some _ _ _ Hcur). split; [lia|]. split; [lia|]. split; [|done].
        rewrite Hom, H3. replace (v + 1) with (Datatypes.S v) by lia. rewrite (take_S_r _ _ _ Hcur), drop_app_le by (rewrite take_length; lia).
        f_equal. by destruct Hty as [->|[->| ->]].
      + rewrite observe_quiet; [|intros items v ->; apply (Hrep items v true); left]. rewrite omap_quiet by done. rewrite app_nil_r.
        split; simpl; [done| |congruence|].
        * rewrite Hl. intros Hx%Hn. auto.
        * intros v. rewrite Hl. intros Hv. destruct (Hs v Hv) as (H1 & H2 & H3 & H4). split; [done|]. split; [done|]. split; [done|].
          intros Hw. by destruct (He e (w_cursor w + 1) eq_refl Hacc).
    - apply rstep_kind in Hr. inversion Hr as [items v s2 Hpc Hrp|items v s2 Hpc Hrp|e n rv s2 out' Hpc Hf Ha Hap|due s2 ok Hac Hre|Hpc|i' r' out' He Hout Hrep Hl Hop Hac Hwa]; subst.
      + simpl. split; simpl; [done|done|done|]. intros v' [= <-]. destruct Hsv as (Hle & _ & _). split; [done|]. split; [done|]. split; [|done].
        by rewrite drop_ge by (rewrite take_length; lia).
      + rewrite observe_quiet by done. simpl. rewrite app_nil_r. split; simpl; [done|tauto|done|]. intros v' Hv. destruct (Hs v' Hv) as (H1 & H2 & H3 & H4). done.
      + destruct (apply_event_out _ _ _ _ Hap) as [Hom Hrep]. rewrite observe_quiet by done. destruct Hsv as [[Hty Hacc]|Hna]; [|by destruct (Hna rv)].
        pose proof (accepted_fun _ _ _ _ Ha Hacc) as ->.
        destruct (r_last (w_refl w)) as [v|] eqn:Hlast; [|exfalso; apply Hn; [done|by rewrite Hpc]].
        destruct (Hs v eq_refl) as (H1 & H2 & H3 & H4). rewrite Hpc in H4. specialize (H4 I). simpl. rewrite H4 in *.
        assert (omap out_event out = []) as -> by (rewrite Hom; by destruct Hty as [->| ->]). rewrite app_nil_r.
        split; simpl; [done|done|done|]. intros v' [= <-]. done.
      + rewrite observe_quiet by done. simpl. rewrite app_nil_r. split; simpl; [done|done|done|]. done.
      + rewrite observe_quiet by done. simpl. rewrite app_nil_r. split; simpl; [done| |done|].
        * intros Hx%Hn. by rewrite Hpc in Hx.
        * intros v Hv. destruct (Hs v Hv) as (H1 & H2 & H3 & H4). split; [done|]. split; [done|]. split; [done|]. intros _. by rewrite Ho, Hv.
      + rewrite observe_quiet; [|intros items v ->; apply (Hrep items v true); left]. rewrite omap_quiet by done. rewrite app_nil_r.
        split; simpl; [done| |congruence|].
        * rewrite Hl. intros Hx%Hn. auto.
        * intros v. rewrite Hl. intros Hv. destruct (Hs v Hv) as (H1 & H2 & H3 & H4). split; [done|]. split; [done|]. split; [done|].
          intros Hw. assert (w_cursor w = v) by auto. destruct i; simpl; try done. by rewrite Ho, Hv.
  Qed.
  Lemma WInv_reach s0 ls w s : reach wstep (world_init, s0) ls (w, s) → WInv w.
  Proof.
    intros Hr. change w with (w, s).1. revert Hr. generalize (w, s). intros x.
    apply (reach_inv _ (λ x, WInv x.1)); [|apply WInv_init]. intros [w1 s1] l [w2 s2] HI Hst. simpl in *. by eapply WInv_step.
  Qed.
  (** C37: exactly the changes between the last list and the synced version were applied, once and in order *)
  Lemma exactly_once s0 ls w s v : reach wstep (world_init, s0) ls (w, s) → r_last (w_refl w) = Some v →
    w_base w ≤ v ≤ length (w_changes w) ∧ w_applied w = drop (w_base w) (take v (w_changes w)).
  Proof. intros [_ _ _ Hs]%WInv_reach Hv. destruct (Hs v Hv) as (H1 & H2 & H3 & _). done. Qed.
End proofs.

(** ** C39 *)
Section plain.
  Context {K O V N : Type} `{EqDecision K} `{EqDecision V} `{EqDecision N} (keyf : O → option K) (g : rcfg O nat) (fs : dict N (index_func O V)).
  Hypothesis Hfs : good_indexers fs.
  Notation store := (store K O V N).
  Notation wstep := (wstep keyf g (plain_sops (V:=V) (N:=N) keyf)).
  Notation hist := (list (sop K O V N * sres K O V N)).
  Implicit Types (w : world O) (s : store).

  Definition PInv w s : Prop := ∃ h : hist, exec (sstep keyf) (store_init fs) h s ∧
    ∀ v, r_last (w_refl w) = Some v → ∀ k, content keyf k (reverse h) = server_at keyf (w_changes w) v k.
  Lemma exec_more (h : hist) s c : exec (sstep keyf) (store_init fs) h s →
    exec (sstep keyf) (store_init fs) (h ++ [(c, (sstep keyf s c).2)]) (sstep keyf s c).1.
  Proof. intros Hex. apply exec_snoc. exists s. split; [done|]. by destruct (sstep keyf s c). Qed.
  Lemma observe_changes w cur r out : w_changes (observe w cur r out) = w_changes w ∧ w_refl (observe (O:=O) w cur r out) = r.
  Proof. unfold observe. destruct out as [|[? ? []| | | | | |] [|]]; done. Qed.
  Lemma PInv_apply (h : hist) s e cs v s' out : exec (sstep keyf) (store_init fs) h s → apply_event (RV:=nat) (plain_sops keyf) e s = (s', out) →
    (e_type e = EvAdded ∨ e_type e = EvModified ∨ e_type e = EvDeleted) → is_Some (keyf (e_obj e)) → cs !! v = Some e →
    (∀ k, content keyf k (reverse h) = server_at keyf cs v k) →
    ∃ h' : hist, exec (sstep keyf) (store_init fs) h' s' ∧ ∀ k, content keyf k (reverse h') = server_at keyf cs (v + 1) k.
  Proof.
    intros Hex Hap Hty Hk Hcs Hc.
    assert (Hsv : ∀ k, server_at keyf cs (v + 1) k = after_changes keyf k (e :: reverse (take v cs))).
    { intros k. unfold server_at. replace (v + 1) with (Datatypes.S v) by lia. by rewrite (take_S_r _ _ _ Hcs), reverse_app. }
    assert (∃ c, s' = (sstep keyf s c).1 ∧ ∀ k, content keyf k ((c, (sstep keyf s c).2) :: reverse h) = server_at keyf cs (v + 1) k) as (c & -> & Hcont).
    { unfold apply_event in Hap. destruct e as [ty o]. simpl in *. destruct Hty as [->|[->| ->]]; simpl in Hap.
      - exists (SAdd o). split; [by injection Hap as <- _|]. intros k. pose proof (store_no_error keyf fs h s (SAdd o) Hfs Hex Hk) as ->.
        cbn [content]. rewrite Hsv. simpl. case_decide; [done|]. apply Hc.
      - exists (SUpdate o). split; [by injection Hap as <- _|]. intros k. pose proof (store_no_error keyf fs h s (SUpdate o) Hfs Hex Hk) as ->.
        cbn [content]. rewrite Hsv. simpl. case_decide; [done|]. apply Hc.
      - exists (SDelete o). split; [by injection Hap as <- _|]. intros k. pose proof (store_no_error keyf fs h s (SDelete o) Hfs Hex Hk) as ->.
        cbn [content]. rewrite Hsv. simpl. case_decide; [done|]. apply Hc. }
    exists (h ++ [(c, (sstep keyf s c).2)]). split; [by apply exec_more|]. intros k. rewrite reverse_app. exact (Hcont k).
  Qed.
  Lemma PInv_step w s l w' s' : WInv keyf g w → PInv w s → wstep (w, s) l (w', s') → PInv w' s'.
  Proof.
    intros [Hg Hn Ho Hs] (h & Hex & Hc) Hst. inversion Hst as [w0 s0 e Hgc|w0 s0 e r s1 out Hcur Hr|w0 s0 i r s1 out Hsv Hr]; subst; clear Hst.
    - exists h. split; [done|]. simpl. intros v Hv k. rewrite (Hc v Hv k). unfold server_at. rewrite take_app_le; [done|]. by apply Hs.
    - destruct (observe_changes w (w_cursor w + 1) r out) as [Hoc Hor]. unfold PInv. rewrite Hoc, Hor.
      destruct (Hg _ _ Hcur) as (Hty & Hk & Hacc). apply (rstep_kind g _ w) in Hr. inversion Hr as [| |e' n rv s2 out' Hpc Hf Ha Hap| | |i r' out' He Hout Hrep Hl Hop Hac Hwa]; subst.
      + pose proof (accepted_fun _ _ _ _ Ha Hacc) as ->.
        destruct (r_last (w_refl w)) as [v|] eqn:Hlast; [|exfalso; apply Hn; [done|by rewrite Hpc]].
        destruct (Hs v eq_refl) as (H1 & H2 & H3 & H4). rewrite Hpc in H4. specialize (H4 I). rewrite H4 in *.
        destruct (PInv_apply _ _ _ _ _ _ _ Hex Hap Hty Hk Hcur (Hc v eq_refl)) as (h' & Hex' & Hc'). exists h'. split; [done|]. intros v' [= <-]. done.
      + exists h. split; [done|]. by rewrite Hl.
    - destruct (observe_changes w (cursor_after w i) r out) as [Hoc Hor]. unfold PInv. rewrite Hoc, Hor.
      apply (rstep_kind g _ w) in Hr. inversion Hr as [items v s2 Hpc Hrp|items v s2 Hpc Hrp|e n rv s2 out' Hpc Hf Ha Hap|due s2 ok Hac Hre|Hpc|i' r' out' He Hout Hrep Hl Hop Hac Hwa]; subst.
      + destruct Hsv as (Hle & Hks & Hgl). simpl in Hrp. pose proof (store_no_error keyf fs h s (SReplace items) Hfs Hex Hks) as Hok.
        exists (h ++ [(SReplace items, (sstep keyf s (SReplace items)).2)]). split.
        * assert (s' = (sstep keyf s (SReplace items)).1) as -> by (unfold returned in Hrp; by injection Hrp as <- _). by apply exec_more.
        * simpl. intros v' [= <-] k. rewrite <-Hgl, reverse_app. simpl. simpl in Hok. by rewrite Hok.
      + exfalso. destruct Hsv as (Hle & Hks & Hgl). pose proof (store_no_error keyf fs h s (SReplace items) Hfs Hex Hks) as Hok.
        change (returned (sstep keyf s (SReplace items)) = (s', false)) in Hrp. unfold returned in Hrp. rewrite Hok in Hrp. by injection Hrp.
      + destruct Hsv as [[Hty Hacc]|Hna]; [|by destruct (Hna rv)]. pose proof (accepted_fun _ _ _ _ Ha Hacc) as ->.
        destruct (r_last (w_refl w)) as [v|] eqn:Hlast; [|exfalso; apply Hn; [done|by rewrite Hpc]].
        destruct (Hs v eq_refl) as (H1 & H2 & H3 & H4). rewrite Hpc in H4. specialize (H4 I). rewrite H4 in *.
        exists h. unfold apply_event in Hap. simpl. split; [destruct Hty as [Hty|Hty]; rewrite Hty in Hap; by simplify_eq|]. intros v' [= <-]. by apply Hc.
      + simpl in Hre. unfold returned in Hre. simpl in Hre. simplify_eq. exists h. done.
      + exists h. done.
      + exists h. split; [done|]. by rewrite Hl.
  Qed.
  Lemma PInv_reach ls w s : reach wstep (world_init, store_init fs) ls (w, s) → WInv keyf g w ∧ PInv w s.
  Proof.
    intros Hr. enough (WInv keyf g (w, s).1 ∧ PInv (w, s).1 (w, s).2) by done. revert Hr. generalize (w, s). intros x.
    apply (reach_inv _ (λ x, WInv keyf g x.1 ∧ PInv x.1 x.2)).
    - intros [w1 s1] l [w2 s2] [HI HP] Hst. simpl in *. split; [by eapply WInv_step|by eapply PInv_step].
    - split; [apply WInv_init|]. exists []. split; [constructor|done].
  Qed.
  Lemma store_is_server_state ls w s v k : reach wstep (world_init, store_init fs) ls (w, s) → r_last (w_refl w) = Some v →
    (sstep keyf s (SGetByKey k)).2 = SOpt (server_at keyf (w_changes w) v k).
  Proof.
    intros Hr Hv. apply PInv_reach in Hr as [_ (h & Hex & Hc)]. destruct (store_is_map keyf fs h s Hex) as [Hget _]. by rewrite Hget, (Hc v Hv k).
  Qed.

  (** a list with an object that has no key is refused: nothing is stored, the
      version is not recorded and the next thing is another list *)
  Lemma unkeyed_list_refused (r : refl nat) (s : store) items v o : r_pc r = RIdle → o ∈ items → keyf o = None →
    rstep g (plain_sops keyf) (r, s) (IList items v) = ((Refl RIdle (r_last r) (r_opt r) ENone, s), [CReplace items v false]).
  Proof.
    intros Hpc Ho Hk. unfold rstep. rewrite Hpc. simpl. unfold returned.
    assert (∃ o', store_items keyf items [] = inr o') as [o' Hs].
    { generalize (@nil (K * O)) as d. induction items as [|o1 items IH]; [by apply elem_of_nil in Ho|]. intros d. simpl.
      destruct (keyf o1) eqn:Hk1; [|eauto]. apply elem_of_cons in Ho as [->|Ho]; [congruence|]. by apply IH. }
    simpl. by rewrite Hs.
  Qed.
End plain.

(** ** C41 in the reflector *)
Section core.
  Context {O RV S : Type} (g : rcfg O RV) (q : sops O RV S).
  Lemma core_event_broken e want a : c_gvk g = Some want → expected_type g (e_obj e) → c_api g (e_obj e) = Some a → no_slash a → broken g e.
  Proof.
    intros Hw Ht Ha Hn. right. split; [done|]. left. intros Hx. destruct (Hx want Hw) as (a' & k & got & H1 & _ & H3). rewrite Ha in H1. injection H1 as <-.
    by rewrite group_version_core in H3.
  Qed.
  Lemma core_event_ends_watch s0 h r s e want a : exec (rstep g q) (refl_init, s0) h (r, s) → watching g (reverse h) →
    c_gvk g = Some want → expected_type g (e_obj e) → c_api g (e_obj e) = Some a → no_slash a →
    (rstep g q (r, s) (IEvent e)).2 = [] ∧ (rstep g q (r, s) (IEvent e)).1.2 = s ∧ will_list g q (rstep g q (r, s) (IEvent e)).1.
  Proof.
    intros Hex Hw H1 H2 H3 H4. destruct (event_broken g q _ _ _ _ _ Hex Hw (core_event_broken e want a H1 H2 H3 H4)) as [-> ->].
    split; [done|]. split; [done|]. by apply idle_lists.
  Qed.
End core.

(** ** Concrete cases: an object is (key, version); key 99 has another type, version 0 cannot be read *)
Definition ocase_cfg : rcfg (nat * nat) nat :=
  Rcfg true (λ o, negb (o.1 =? 99)) None (λ _, None) (λ _, None) (λ _, true) (λ o, if o.2 =? 0 then None else Some o.2).
Definition ocase_key (o : nat * nat) : option nat := Some o.1.
Notation ocase_sops := (plain_sops (V:=nat) (N:=nat) ocase_key).
(** list, watch, skip an event of another type, take one, lose the stream, watch again from the version of the event *)
Definition ocase_run : list (rinput (nat * nat) nat * list (routput (nat * nat) nat)) :=
  [(IListFails, []); (IList [(1, 3)] 3, [CReplace [(1, 3)] 3 true]); (IWatch, [CWatch (Some 3)]); (IEvent (Event EvAdded (99, 7)), []);
   (IEvent (Event EvAdded (2, 4)), [CAdd (2, 4) true]); (IEvent (Event EvBookmark (0, 6)), []); (IClose true, []); (IWatch, [CWatch (Some 6)]);
   (IEvent (Event EvDeleted (1, 8)), [CDelete (1, 8) true])].
Definition ocase_store : store nat (nat * nat) nat nat := Store [(2, (2, 4))] [] [].
Definition ocase_refl : refl nat := Refl (RWatching 1) (Some 8) (Some 8) ENone.
Lemma ocase_runs : exec (rstep ocase_cfg ocase_sops) (refl_init, store_init []) ocase_run (ocase_refl, ocase_store).
Proof. apply exec_check. vm_compute. reflexivity. Qed.
Lemma ocase_accepted k ty v : k ≠ 99 → v ≠ 0 → ty ≠ EvError → accepted ocase_cfg (Event ty (k, v)) v.
Proof.
  intros Hk Hv Ht. split; [done|]. split; [|split; [done|split; [done|]]].
  - intros _. simpl. by apply Nat.eqb_neq in Hk as ->.
  - simpl. by apply Nat.eqb_neq in Hv as ->.
Qed.
Lemma ocase_watching : watching ocase_cfg (reverse ocase_run) ∧ ¬ resync_failed (reverse ocase_run) ∧ ¬ error_first (reverse ocase_run).
Proof.
  split; [|split; vm_compute; tauto]. change (watching ocase_cfg [(IWatch, [CWatch (Some 6)])] ∧ ¬ False ∧ ¬ broken ocase_cfg (Event EvDeleted (1, 8))).
  split; [done|]. split; [tauto|]. eapply accepted_not_broken, ocase_accepted; done.
Qed.
(** a resync fails while an event is on its way: the event is handled, the next one is not *)
Definition lcase_sops : sops (nat * nat) nat _ := Sops (so_replace ocase_sops) (so_add ocase_sops) (so_update ocase_sops) (so_delete ocase_sops) (λ s, (s, false)).
Definition lcase_run : list (rinput (nat * nat) nat * list (routput (nat * nat) nat)) :=
  [(IList [] 6, [CReplace [] 6 true]); (IWatch, [CWatch (Some 6)]); (IResync true, [CResync false])].
Lemma lcase_runs : exec (rstep ocase_cfg lcase_sops) (refl_init, store_init []) lcase_run (Refl (RWatching 0) (Some 6) (Some 6) EQueued, store_init []) ∧
  watching ocase_cfg (reverse lcase_run) ∧ resync_failed (reverse lcase_run) ∧ ¬ error_first (reverse lcase_run) ∧
  (rstep ocase_cfg lcase_sops (Refl (RWatching 0) (Some 6) (Some 6) EQueued, store_init []) (IEvent (Event EvAdded (1, 7)))).2 = [CAdd (1, 7) true] ∧
  error_first (reverse (lcase_run ++ [(IEvent (Event EvAdded (1, 7)), [CAdd (1, 7) true])])).
Proof. split; [repeat (eapply exec_cons; [reflexivity|]); apply exec_nil|]. split; [done|]. split; [done|]. split; [vm_compute; tauto|]. done. Qed.
(** an ERROR event, and one whose version cannot be read, end the watch *)
Lemma ocase_broken : broken ocase_cfg (Event EvError (1, 1)) ∧ broken ocase_cfg (Event EvAdded (1, 0)).
Proof. split; [by left|]. right. split; [done|]. right. done. Qed.

(** a server that makes two changes, is listed before the second, and then delivers it *)
Definition wcase_world : world (nat * nat) :=
  World [Event EvAdded (5, 1); Event EvModified (5, 2)] 2 (Refl (RWatching 1) (Some 2) (Some 2) ENone) 1 [Event EvModified (5, 2)].
Lemma wcase_runs : ∃ ls, reach (wstep ocase_key ocase_cfg ocase_sops) (world_init, store_init []) ls
  (wcase_world, Store [(5, (5, 2))] [] []).
Proof.
  eexists. do_step (apply (w_change _ _ _ _ _ (Event EvAdded (5, 1))); split; [by left|]; split; [done|]; by apply ocase_accepted).
  do_step (eapply (w_input _ _ _ _ _ (IList [(5, 1)] 1)); [|vm_compute; reflexivity]; split; [done|]; split; [done|]; intros k; done).
  do_step (apply (w_change _ _ _ _ _ (Event EvModified (5, 2))); split; [by right; left|]; split; [done|]; by apply ocase_accepted).
  do_step (eapply (w_input _ _ _ _ _ IWatch); [done|vm_compute; reflexivity]).
  do_step (eapply (w_deliver _ _ _ _ _ (Event EvModified (5, 2))); vm_compute; reflexivity).
  apply reach_nil.
Qed.

(** the stream raises: hung *)
Lemma stream_exception_refuted : ∃ x, exec (rstep ocase_cfg ocase_sops) (refl_init, store_init [])
    [(IList [] 1, [CReplace [] 1 true]); (IWatch, [CWatch (Some 1)]); (IStreamRaises, [])] x ∧
  ∀ h x' c, exec (rstep ocase_cfg ocase_sops) x h x' → (∀ i out, (i, out) ∈ h → i ≠ ICancel) → c ∈ concat h.*2 → c = CResync true ∨ ∃ v, c = CLast v.
Proof.
  eexists. split; [apply exec_check; vm_compute; reflexivity|]. intros h x' c Hex Hall Hc.
  apply elem_of_list_In, in_concat in Hc as (out & Hout & Hc). apply elem_of_list_In in Hout, Hc.
  apply elem_of_list_fmap in Hout as ([i out'] & -> & Hin). revert Hin Hc. simpl.
  assert (Hex0 : exec (rstep ocase_cfg ocase_sops) (refl_init, store_init [])
    ([(IList [] 1, [CReplace [] 1 true]); (IWatch, [CWatch (Some 1)])] ++ (IStreamRaises, []) :: h) x').
  { eapply exec_app. eexists. split; [apply exec_check; vm_compute; reflexivity|]. apply exec_cons_iff. eexists. split; [vm_compute; reflexivity|]. exact Hex. }
  apply (stream_raise_hangs _ _ _ _ _ _ Hex0).
  - done.
  - vm_compute. tauto.
  - intros i0 o0 Hin. split; [by eapply Hall|]. intros ->. apply elem_of_list_split in Hin as (h1 & h2 & ->).
    apply exec_app in Hex as ([r s] & _ & Hex). apply exec_cons_iff in Hex as (x1 & Hst & _).
    destruct i0; simpl in Hst; destruct (r_pc r); simplify_eq; repeat (case_match; simplify_eq).
    match goal with H : apply_event _ e s = _ |- _ => unfold apply_event in H; destruct (e_type e); by simplify_eq end.
Qed.
