(** Proofs about what manager.start leaves running. *)
From Verif Require Import Base ManagerStop_model ManagerStop_spec.

Implicit Types (s : tree) (ws : list leaf) (g : gath).
Definition calm ws : Prop := Forall (λ l, l ≠ LRun false) ws.
Definition fresh ws : Prop := Forall (λ l, l = LRun false) ws.

Lemma calm_cancel ws : calm (cancel_leaf <$> ws).
Proof. apply Forall_fmap, Forall_true. by intros []. Qed.
Lemma calm_insert ws i r : calm ws → calm (<[i:=LEnd r]> ws).
Proof. intros. by apply Forall_insert. Qed.
Lemma fresh_out ws g r : fresh ws → gathered (leaf_end <$> ws) g r → ws = [].
Proof.
  intros Hf [[Hr (l&Hl&Hin)%elem_of_list_fmap]|[Ha _]].
  - unfold fresh in Hf. rewrite Forall_forall in Hf. apply Hf in Hin as ->. done.
  - destruct ws as [|l ws]; [done|]. inversion Hf; subst. inversion Ha; subst. done.
Qed.
Lemma fresh_stops ws i : fresh ws → ws !! i = Some (LRun true) → False.
Proof. intros Hf Hi. eapply Forall_lookup_1 in Hf; [|done]. done. Qed.
Lemma calm_own ws i : calm ws → ws !! i = Some (LRun false) → False.
Proof. intros Hf Hi. eapply Forall_lookup_1 in Hf; [|done]. done. Qed.

(** a state in which nothing has failed *)
Definition gather_ok g ws : Prop := (fresh ws ∧ g_out g = None) ∨ calm ws.
Definition cache_ok s : Prop :=
  match t_cache s with
  | None | Some (CNew _) => t_infs s = []
  | Some (CGather g) => gather_ok g (t_infs s)
  | Some (CEnd _) => calm (t_infs s)
  end.
Definition ctl_ok (c : ctl) : Prop :=
  match k_phase c with
  | KNew _ | KStarting _ => k_workers c = [] ∧ k_shut c = false
  | KGather g => gather_ok g (k_workers c)
  | KEnd _ => calm (k_workers c)
  end.
Definition main_ok s : Prop :=
  match t_main s with
  | MLock => t_cache s = None ∧ t_ctls s = []
  | MWait => t_cache s ≠ None ∧ t_ctls s = []
  | MGather _ => t_cache s ≠ None
  | MEnd _ => True
  end.
Record quiet s : Prop := { q_cache : cache_ok s; q_ctls : Forall ctl_ok (t_ctls s); q_main : main_ok s }.

Lemma quiet_gath g ws : gather_ok g ws → gather_ok (cancel_gath (leaf_end <$> ws) g) (cancel_leaves g ws).
Proof.
  intros [[Hf Ho]|Hc].
  - right. unfold cancel_leaves, reaches. rewrite Ho. apply calm_cancel.
  - right. unfold cancel_leaves. destruct (reaches g); [apply calm_cancel|done].
Qed.
Lemma quiet_cancel_ctl c : ctl_ok c → ctl_ok (cancel_ctl c).
Proof. destruct c as [[m|m|g|r] ws b]; cbn; try done. apply quiet_gath. Qed.
Lemma quiet_cancel s : quiet s → quiet (cancel_main s).
Proof.
  destruct s as [m c infs ks]. intros [Hc Hk Hm]. unfold cancel_main; simpl in *. destruct m as [| |g|r]; simpl in *.
  - by split.
  - by split.
  - destruct (reaches g); [|by split]. destruct c as [c|]; [|done]. destruct c as [m|g0|r]; simpl in *.
    all: split; cbn; try done; try (apply Forall_fmap; eapply Forall_impl; [exact Hk|]; apply quiet_cancel_ctl).
    by apply quiet_gath.
  - by split.
Qed.
Lemma quiet_gdone g ws r : g_out g = None → gathered (leaf_end <$> ws) g r → gather_ok g ws → calm ws.
Proof. intros Ho Hg [[Hf _]|Hc]; [|done]. apply (fresh_out _ _ _ Hf) in Hg as ->. constructor. Qed.
Lemma quiet_gresume g ws r : g_out g = Some r → gather_ok g ws → calm ws.
Proof. intros Ho [[_ H]|Hc]; [congruence|done]. Qed.

Lemma quiet_with_ctl k c s : t_main s ≠ MLock → t_main s ≠ MWait → quiet s → ctl_ok c → quiet (with_ctl k c s).
Proof.
  intros H1 H2 [Hc Hk Hm] Hok. split; [done| |].
  - by apply Forall_insert.
  - unfold main_ok in *; simpl. by destruct (t_main s).
Qed.
Lemma quiet_some s k c : quiet s → t_ctls s !! k = Some c → t_main s ≠ MLock ∧ t_main s ≠ MWait ∧ ctl_ok c.
Proof.
  intros [_ Hk Hm] Hl. unfold main_ok in Hm. split_and!; [| |by eapply Forall_lookup_1].
  - intros E. rewrite E in Hm. destruct Hm as [_ Hm]. by rewrite Hm in Hl.
  - intros E. rewrite E in Hm. destruct Hm as [_ Hm]. by rewrite Hm in Hl.
Qed.
Ltac ctl_case H Hq := let H1 := fresh in let H2 := fresh in let H3 := fresh "Hok" in destruct (quiet_some _ _ _ Hq H) as (H1&H2&H3); apply quiet_with_ctl; [exact H1|exact H2|exact Hq|]; cbn in *.

Lemma main_ok_cache s c infs : main_ok s → t_cache s ≠ None → main_ok (Tree (t_main s) (Some c) infs (t_ctls s)).
Proof. unfold main_ok; simpl. destruct (t_main s); naive_solver. Qed.
Lemma quiet_step s l s' : quiet s → tstep s l s' → (∀ w r, l ≠ TOwn w r) → quiet s'.
Proof.
  intros Hq Hs Hl. destruct Hs as [Hm|m Hm|n Hc|Hc|k ws H|k ws H|k n ws H|k ws H|k ws H|w r H|w r H|g r Hm Ho Hg|g r Hm Ho|g r Hc Ho Hg|g r Hc Ho|k g ws b r H Ho Hg|k g ws b r H Ho|].
  - destruct Hq as [Hc Hk Hm']. unfold main_ok in Hm'. rewrite Hm in Hm'. destruct Hm' as [Hc' Hk']. split; cbn; [unfold cache_ok in *|by rewrite Hk'|done]. simpl. by rewrite Hc' in Hc.
  - destruct Hq as [Hc Hk Hm']. unfold main_ok in Hm'. rewrite Hm in Hm'. split; cbn; [done|by apply Forall_replicate|tauto].
  - destruct Hq as [Hc' Hk Hm]. split; [|done|apply main_ok_cache; [done|by rewrite Hc]]. left. split; [by apply Forall_replicate|done].
  - destruct Hq as [Hc' Hk Hm]. split; [|done|apply main_ok_cache; [done|by rewrite Hc]]. unfold cache_ok in *. rewrite Hc in Hc'. simpl. rewrite Hc'. constructor.
  - ctl_case H Hq. done.
  - ctl_case H Hq. destruct Hok as [-> _]. constructor.
  - ctl_case H Hq. left. split; [by apply Forall_replicate|done].
  - ctl_case H Hq. destruct Hok as [-> _]. constructor.
  - ctl_case H Hq. destruct Hok as [-> _]. constructor.
  - by destruct (Hl w r).
  - destruct w as [i|k i]; simpl in *.
    + destruct Hq as [Hc' Hk Hm]. split; [|done|done]. unfold cache_ok in *; simpl. destruct (t_cache s) as [[m|g|r']|]; try by rewrite Hc' in H.
      * destruct Hc' as [[Hf _]|Hc']; [by destruct (fresh_stops _ _ Hf H)|]. right. by apply calm_insert.
      * by apply calm_insert.
    + destruct (t_ctls s !! k) as [c|] eqn:E; [|done]. simpl in H. destruct (quiet_some _ _ _ Hq E) as (H1&H2&Hok).
      assert (alter (λ c, Ctl (k_phase c) (<[i:=LEnd r]> (k_workers c)) (k_shut c)) k (t_ctls s) = <[k:=Ctl (k_phase c) (<[i:=LEnd r]> (k_workers c)) (k_shut c)]> (t_ctls s)) as ->.
      { apply list_eq. intros j. destruct (decide (j = k)) as [->|Hj].
        - rewrite list_lookup_alter, E. simpl. symmetry. apply list_lookup_insert. by apply lookup_lt_Some in E.
        - by rewrite list_lookup_alter_ne, list_lookup_insert_ne. }
      apply (quiet_with_ctl k _ s H1 H2 Hq). unfold ctl_ok in *; simpl. destruct (k_phase c) as [m|m|g|r']; try by destruct Hok as [Hok _]; rewrite Hok in H.
      * destruct Hok as [[Hf _]|Hc']; [by destruct (fresh_stops _ _ Hf H)|]. right. by apply calm_insert.
      * by apply calm_insert.
  - destruct Hq as [Hc Hk Hm']. split; [done|done|]. unfold main_ok in *; simpl. by rewrite Hm in Hm'.
  - destruct Hq as [Hc Hk Hm']. by split.
  - destruct Hq as [Hc' Hk Hm]. split; [|done|apply main_ok_cache; [done|by rewrite Hc]]. unfold cache_ok in *. rewrite Hc in Hc'. simpl. right. by eapply quiet_gdone.
  - destruct Hq as [Hc' Hk Hm]. split; [|done|apply main_ok_cache; [done|by rewrite Hc]]. unfold cache_ok in *. rewrite Hc in Hc'. simpl. by eapply quiet_gresume.
  - ctl_case H Hq. right. by eapply quiet_gdone.
  - ctl_case H Hq. by eapply quiet_gresume.
  - by apply quiet_cancel.
Qed.
Lemma quiet_init : quiet t_init.
Proof. by split; [|constructor|]. Qed.
Lemma quiet_reach ls s : reach tstep t_init ls s → none_failed ls → quiet s.
Proof.
  induction 1 as [|ls s l s' Hr IH Hs]; [intros _; apply quiet_init|].
  intros Hn. eapply quiet_step; [apply IH|done|].
  - intros w r Hin. apply (Hn w r). apply elem_of_app. by left.
  - intros w r ->. apply (Hn w r). apply elem_of_app. right. by apply elem_of_list_singleton.
Qed.

(** asked to stop *)
Definition ctl_asked (c : ctl) : Prop :=
  calm (k_workers c) ∧ match k_phase c with KNew b | KStarting b => b = true ∧ k_shut c = false | _ => True end.
Definition main_asked s : Prop :=
  match t_main s with
  | MLock | MWait => False
  | MGather g => match g_out g with None => g_req g = true ∨ g_must g = true | Some r => r ≠ Returned ∨ g_must g = true end
  | MEnd r => r ≠ Returned
  end.
Record asked s : Prop := {
  a_infs : calm (t_infs s);
  a_cache : t_cache s ≠ None ∧ t_cache s ≠ Some (CNew false);
  a_ctls : Forall ctl_asked (t_ctls s);
  a_main : main_asked s
}.

Lemma asked_ctl c : ctl_ok c → ctl_asked (cancel_ctl c).
Proof.
  destruct c as [[m|m|g|r] ws b]; cbn; unfold ctl_asked; simpl.
  - intros [-> ->]. by split; [constructor|].
  - intros [-> ->]. by split; [constructor|].
  - intros [[Hf Ho]|Hc]; unfold cancel_leaves, reaches.
    + rewrite Ho. split; [apply calm_cancel|done].
    + destruct (g_out g); (split; [|done]); [done|apply calm_cancel].
  - done.
Qed.
Lemma cancel_asks s : quiet s → gathering s → asked (cancel_main s).
Proof.
  intros [Hc Hk Hm] (g&Eg&Ho). destruct s as [m c infs ks]; simpl in *; subst m. unfold main_ok in Hm; simpl in Hm. destruct c as [c|]; [|done].
  unfold cancel_main; simpl. unfold reaches at 1. rewrite Ho. destruct (cancel_cache c infs) as [c' infs'] eqn:E.
  assert (calm infs' ∧ c' ≠ CNew false) as [H1 H2].
  { unfold cache_ok in Hc; simpl in Hc. destruct c as [m|g0|r]; simplify_eq/=.
    - split; [constructor|done].
    - split; [|done]. destruct Hc as [[Hf Ho']|Hc]; unfold cancel_leaves, reaches.
      + rewrite Ho'. apply calm_cancel.
      + destruct (g_out g0); [done|apply calm_cancel].
    - done. }
  split; cbn; [done|naive_solver| |].
  - apply Forall_fmap. eapply Forall_impl; [exact Hk|]. apply asked_ctl.
  - unfold main_asked; simpl. unfold cancel_gath. rewrite Ho. destruct (some_live _); simpl; tauto.
Qed.
Lemma asked_with_ctl k c s : asked s → ctl_asked c → asked (with_ctl k c s).
Proof. intros [H1 H2 H3 H4] Hc. split; try done. by apply Forall_insert. Qed.
Lemma asked_lookup k c s : asked s → t_ctls s !! k = Some c → ctl_asked c.
Proof. intros [_ _ H _]. by apply Forall_lookup_1. Qed.
Lemma alter_insert k (f : ctl → ctl) (ks : list ctl) c : ks !! k = Some c → alter f k ks = <[k:=f c]> ks.
Proof.
  intros E. apply list_eq. intros j. destruct (decide (j = k)) as [->|Hj].
  - rewrite list_lookup_alter, E. simpl. symmetry. apply list_lookup_insert. by apply lookup_lt_Some in E.
  - by rewrite list_lookup_alter_ne, list_lookup_insert_ne.
Qed.
Lemma main_asked_eq s s' : t_main s = t_main s' → main_asked s → main_asked s'.
Proof. unfold main_asked. by intros ->. Qed.
Ltac ctl_asked_case H Ha := let H3 := fresh "Hok" in let H4 := fresh "Hok" in destruct (asked_lookup _ _ _ Ha H) as [H3 H4]; cbn in H3, H4; try (destruct H4; discriminate).

(** what is left to do *)
Definition g_weight g : nat := match g_out g with None => 2 | Some _ => 1 end.
Definition leaf_weight (l : leaf) : nat := match l with LRun _ => 1 | LEnd _ => 0 end.
Definition leaves_weight ws : nat := sum_list_with leaf_weight ws.
Definition ctl_weight (c : ctl) : nat := leaves_weight (k_workers c) + match k_phase c with KNew _ | KStarting _ => 1 | KGather g => g_weight g | KEnd _ => 0 end.
Definition weight s : nat :=
  leaves_weight (t_infs s) + sum_list_with ctl_weight (t_ctls s) + match t_cache s with Some (CNew _) => 1 | Some (CGather g) => g_weight g | _ => 0 end +
  match t_main s with MGather g => g_weight g | _ => 0 end.
Lemma sum_insert {A} (f : A → nat) (l : list A) i x y : l !! i = Some x → sum_list_with f (<[i:=y]> l) + f x = sum_list_with f l + f y.
Proof. revert i. induction l as [|z l IH]; intros [|i] H; simplify_eq/=; [lia|]. specialize (IH _ H). lia. Qed.
Lemma weight_with_ctl k c c' s : t_ctls s !! k = Some c → weight (with_ctl k c' s) + ctl_weight c = weight s + ctl_weight c'.
Proof. intros H. unfold weight; simpl. pose proof (sum_insert ctl_weight _ _ _ c' H). lia. Qed.

Lemma asked_step s l s' : asked s → tstep s l s' → inside l → asked s' ∧ weight s' < weight s.
Proof.
  intros Ha Hs Hl. destruct Hs as [Hm|m Hm|n Hc|Hc|k ws H|k ws H|k n ws H|k ws H|k ws H|w r H|w r H|g r Hm Ho Hg|g r Hm Ho|g r Hc Ho Hg|g r Hc Ho|k g ws b r H Ho Hg|k g ws b r H Ho|].
  - destruct Ha as [_ _ _ Ha]. unfold main_asked in Ha. by rewrite Hm in Ha.
  - destruct Ha as [_ _ _ Ha]. unfold main_asked in Ha. by rewrite Hm in Ha.
  - destruct Ha as [_ [_ Ha] _ _]. done.
  - destruct Ha as [H1 H2 H3 H4]. split; [split; try done|]. unfold weight; simpl. rewrite Hc. lia.
  - ctl_asked_case H Ha.
  - ctl_asked_case H Ha. pose proof (weight_with_ctl _ _ (Ctl (KEnd Cancelled) ws false) _ H) as Hw. unfold ctl_weight in Hw; cbn [k_workers k_phase] in Hw. split; [|lia]. apply asked_with_ctl; [done|]. by split.
  - ctl_asked_case H Ha.
  - ctl_asked_case H Ha.
  - ctl_asked_case H Ha. pose proof (weight_with_ctl _ _ (Ctl (KEnd Cancelled) ws true) _ H) as Hw. unfold ctl_weight in Hw; cbn [k_workers k_phase] in Hw. split; [|lia]. apply asked_with_ctl; [done|]. by split.
  - destruct w as [i|k i]; simpl in H.
    + destruct (calm_own _ _ (a_infs _ Ha) H).
    + destruct (t_ctls s !! k) as [c|] eqn:E; [|done]. destruct (asked_lookup _ _ _ Ha E) as [Hok _]. destruct (calm_own _ _ Hok H).
  - destruct w as [i|k i]; simpl in H |- *.
    + destruct Ha as [H1 H2 H3 H4]. split; [split; try done; by apply calm_insert|]. unfold weight; simpl. pose proof (sum_insert leaf_weight _ _ _ (LEnd r) H) as Hw. cbn [leaf_weight] in Hw. unfold leaves_weight in *. lia.
    + destruct (t_ctls s !! k) as [c|] eqn:E; [|done]. simpl in H. destruct (asked_lookup _ _ _ Ha E) as [Hok Hok']. rewrite (alter_insert _ _ _ _ E).
      change (asked (with_ctl k (Ctl (k_phase c) (<[i:=LEnd r]> (k_workers c)) (k_shut c)) s) ∧ weight (with_ctl k (Ctl (k_phase c) (<[i:=LEnd r]> (k_workers c)) (k_shut c)) s) < weight s).
      split; [apply asked_with_ctl; [done|]; split; [by apply calm_insert|done]|]. pose proof (weight_with_ctl _ _ (Ctl (k_phase c) (<[i:=LEnd r]> (k_workers c)) (k_shut c)) _ E) as Hw.
      pose proof (sum_insert leaf_weight _ _ _ (LEnd r) H) as Hw'. unfold ctl_weight, leaves_weight in Hw; cbn [k_workers k_phase] in Hw; cbn [leaf_weight] in Hw'. lia.
  - destruct Ha as [H1 H2 H3 H4]. split; [split; try done|].
    + unfold main_asked in *; simpl. rewrite Hm, Ho in H4. destruct H4 as [H4|H4]; [left|by right]. destruct Hg as [[? _]|[_ ->]]; [done|]. by rewrite H4.
    + unfold weight; simpl. rewrite Hm. unfold g_weight; simpl. rewrite Ho. lia.
  - destruct Ha as [H1 H2 H3 H4]. split; [split; try done|].
    + unfold main_asked in *; simpl. rewrite Hm, Ho in H4. unfold resumed. destruct (g_must g); naive_solver.
    + unfold weight; simpl. rewrite Hm. unfold g_weight; simpl. rewrite Ho. lia.
  - destruct Ha as [H1 H2 H3 H4]. split; [split; try done|]. unfold weight; simpl. rewrite Hc. unfold g_weight; simpl. rewrite Ho. lia.
  - destruct Ha as [H1 H2 H3 H4]. split; [split; try done|]. unfold weight; simpl. rewrite Hc. unfold g_weight; simpl. rewrite Ho. lia.
  - ctl_asked_case H Ha. pose proof (weight_with_ctl _ _ (Ctl (KGather (Gath (g_req g) (Some r) (g_must g))) ws b) _ H) as Hw. unfold ctl_weight, g_weight in Hw; cbn [k_workers k_phase g_out] in Hw. rewrite Ho in Hw. split; [|lia]. apply asked_with_ctl; [done|]. by split.
  - ctl_asked_case H Ha. pose proof (weight_with_ctl _ _ (Ctl (KEnd (resumed g r)) ws true) _ H) as Hw. unfold ctl_weight, g_weight in Hw; cbn [k_workers k_phase g_out] in Hw. rewrite Ho in Hw. split; [|lia]. apply asked_with_ctl; [done|]. by split.
  - by destruct Hl.
Qed.
Lemma asked_reach s ls s' : asked s → reach tstep s ls s' → (∀ l, l ∈ ls → inside l) → asked s' ∧ length ls + weight s' ≤ weight s.
Proof.
  intros Ha. induction 1 as [|ls s1 l s2 Hr IH Hs]; intros Hin; [split; [done|simpl; lia]|]. destruct IH as [IH1 IH2].
  - intros l' Hl'. apply Hin, elem_of_app. by left.
  - destruct (asked_step _ _ _ IH1 Hs) as [H1 H2].
    + apply Hin, elem_of_app. right. by apply elem_of_list_singleton.
    + split; [done|]. rewrite app_length. simpl. lia.
Qed.

Global Instance ending_eq : EqDecision ending.
Proof. solve_decision. Qed.
(** nothing is left once no task can go on *)
Lemma gathered_some (es : list (option ending)) g : Forall (λ e, e ≠ None) es → ∃ r, gathered es g r.
Proof.
  intros H. destruct (decide (Forall (λ e, e = Some Returned) es)) as [Ha|Hn].
  - exists (if g_req g then Cancelled else Returned). by right.
  - apply not_Forall_Exists in Hn; [|apply _]. apply Exists_exists in Hn as (e&He&Hne). rewrite Forall_forall in H. specialize (H _ He). destruct e as [r|]; [|done].
    exists r. left. split; [|done]. intros ->. by apply Hne.
Qed.
Lemma calm_settled ws : calm ws → (∀ i, ws !! i ≠ Some (LRun true)) → ∀ i l, ws !! i = Some l → ∃ r, l = LEnd r.
Proof. intros Hc Hn i [[]|r] Hi; [by destruct (Hn i)|by destruct (calm_own _ _ Hc Hi)|by exists r]. Qed.
Lemma ends_some ws : (∀ i l, ws !! i = Some l → ∃ r, l = LEnd r) → Forall (λ e, e ≠ None) (leaf_end <$> ws).
Proof. intros H. apply Forall_fmap, Forall_lookup. intros i l Hi. by destruct (H _ _ Hi) as [r ->]. Qed.
Lemma asked_settled s : asked s → settled s → (∀ a, ¬ live s a) ∧ ∃ r, over s r ∧ r ≠ Returned.
Proof.
  intros Ha Hs.
  assert (Hinf : ∀ i l, t_infs s !! i = Some l → ∃ r, l = LEnd r).
  { apply calm_settled; [apply (a_infs _ Ha)|]. intros i Hi. by apply (Hs _ _ (t_stops s (WInf i) Returned Hi)). }
  assert (Hwork : ∀ k c, t_ctls s !! k = Some c → ∀ i l, k_workers c !! i = Some l → ∃ r, l = LEnd r).
  { intros k c Hk. apply calm_settled; [by apply (asked_lookup _ _ _ Ha Hk)|]. intros i Hi. apply (Hs _ _ (t_stops s (WWorker k i) Returned ltac:(simpl; by rewrite Hk))). done. }
  assert (Hcache : ∃ r, t_cache s = Some (CEnd r)).
  { destruct (a_cache _ Ha) as [H1 H2]. destruct (t_cache s) as [[[]|g|r]|] eqn:E; try done; [| |by exists r].
    - by destruct (Hs _ _ (t_cache_dead s E)).
    - destruct (g_out g) as [r|] eqn:Ho; [by destruct (Hs _ _ (t_cache_resume s g r E Ho))|].
      destruct (gathered_some (leaf_end <$> t_infs s) g (ends_some _ Hinf)) as [r Hr]. by destruct (Hs _ _ (t_cache_done s g r E Ho Hr)). }
  assert (Hctl : ∀ k c, t_ctls s !! k = Some c → ∃ r, k_phase c = KEnd r).
  { intros k c Hk. destruct (asked_lookup _ _ _ Ha Hk) as [H1 H2]. specialize (Hwork k c Hk). destruct c as [p ws b]; simpl in *. destruct p as [m|m|g|r]; [| | |by exists r].
    - destruct H2 as [-> ->]. by destruct (Hs _ _ (t_ctl_dead s k ws Hk)).
    - destruct H2 as [-> ->]. by destruct (Hs _ _ (t_ctl_stop s k ws Hk)).
    - destruct (g_out g) as [r|] eqn:Ho; [by destruct (Hs _ _ (t_ctl_resume s k g ws b r Hk Ho))|].
      destruct (gathered_some (leaf_end <$> ws) g (ends_some _ Hwork)) as [r Hr]. by destruct (Hs _ _ (t_ctl_done s k g ws b r Hk Ho Hr)). }
  split.
  - intros [|k|[i|k i]]; simpl.
    + intros (c&Hc&Hn). destruct Hcache as [r Hr]. rewrite Hr in Hc. injection Hc as <-. by destruct (Hn r).
    + intros (c&Hc&Hn). destruct (Hctl _ _ Hc) as [r Hr]. by destruct (Hn r).
    + intros [b Hb]. by destruct (Hinf _ _ Hb) as [r ?].
    + intros [b Hb]. destruct (t_ctls s !! k) as [c|] eqn:E; [|done]. by destruct (Hwork _ _ E _ _ Hb) as [r ?].
  - pose proof (a_main _ Ha) as Hm. unfold main_asked in Hm. unfold over. destruct (t_main s) as [| |g|r] eqn:E; [done|done| |by exists r].
    destruct (g_out g) as [r|] eqn:Ho; [by destruct (Hs _ _ (t_main_resume s g r E Ho))|].
    destruct (gathered_some (main_children s) g) as [r Hr]; [|by destruct (Hs _ _ (t_main_done s g r E Ho Hr))].
    unfold main_children. destruct Hcache as [r ->]. apply Forall_app. split; [by repeat constructor|]. apply Forall_fmap, Forall_lookup. intros k c Hk. destruct (Hctl _ _ Hk) as [r' Hr']. simpl. unfold ctl_end. by rewrite Hr'.
Qed.
Lemma cancel_reaches ls s s' : reach tstep t_init ls s → none_failed ls → gathering s → tstep s TCancel s' →
  (∀ w, ¬ unasked s' w) ∧ (∃ b, ∀ ls' s2, reach tstep s' ls' s2 → (∀ l, l ∈ ls' → inside l) → length ls' ≤ b) ∧
  (∀ ls' s2, reach tstep s' ls' s2 → (∀ l, l ∈ ls' → inside l) → settled s2 → (∀ a, ¬ live s2 a) ∧ ∃ r, over s2 r ∧ r ≠ Returned).
Proof.
  intros Hr Hn Hg Hs. assert (s' = cancel_main s) as -> by by inversion Hs. assert (Ha : asked (cancel_main s)) by by apply cancel_asks; [eapply quiet_reach|]. split_and!.
  - intros [i|k i]; unfold unasked; simpl; intros H.
    + by apply (calm_own _ _ (a_infs _ Ha) H).
    + destruct (t_ctls (cancel_main s) !! k) as [c|] eqn:E; [|done]. destruct (asked_lookup _ _ _ Ha E) as [Hc _]. by apply (calm_own _ _ Hc H).
  - exists (weight (cancel_main s)). intros ls' s2 Hr2 Hin. destruct (asked_reach _ _ _ Ha Hr2 Hin) as [_ H]. lia.
  - intros ls' s2 Hr2 Hin. destruct (asked_reach _ _ _ Ha Hr2 Hin) as [H _]. by apply asked_settled.
Qed.

(** tasks are made once *)
Definition ctl_unmade (c : ctl) : Prop := match k_phase c with KNew _ | KStarting _ => k_workers c = [] ∧ k_shut c = false | KGather _ => k_shut c = false | _ => True end.
Definition cache_unmade s : Prop := match t_cache s with None | Some (CNew _) => t_infs s = [] | _ => True end.
Record unmade s : Prop := {
  u_cache : cache_unmade s;
  u_ctls : Forall ctl_unmade (t_ctls s);
  u_lock : t_main s = MLock → t_cache s = None
}.
Lemma unmade_cancel_ctl c : ctl_unmade c → ctl_unmade (cancel_ctl c).
Proof. by destruct c as [[m|m|g|r] ws b]. Qed.
Lemma unmade_step s l s' : unmade s → tstep s l s' → unmade s'.
Proof.
  intros [H1 H2 H3] Hs.
  assert (Hctl : ∀ k c, ctl_unmade c → unmade (with_ctl k c s)) by (intros k c Hc; split; try done; by apply Forall_insert).
  assert (Hat : ∀ k c, t_ctls s !! k = Some c → ctl_unmade c) by (intros k c Hk; eapply Forall_lookup_1 in H2; done).
  destruct Hs as [Hm|m Hm|n Hc|Hc|k ws H|k ws H|k n ws H|k ws H|k ws H|w r H|w r H|g r Hm Ho Hg|g r Hm Ho|g r Hc Ho Hg|g r Hc Ho|k g ws b r H Ho Hg|k g ws b r H Ho|];
    try (apply Hctl; apply Hat in H; done).
  - split; try done. unfold cache_unmade in *; simpl. by rewrite (H3 Hm) in H1.
  - split; try done. by apply Forall_replicate.
  - split; try done. simpl. intros E. apply H3 in E. congruence.
  - split; try done. simpl. intros E. apply H3 in E. congruence.
  - destruct w as [i|k i]; simpl in *.
    + split; try done. unfold cache_unmade in *; simpl. destruct (t_cache s) as [[]|]; try done; by rewrite H1 in H.
    + destruct (t_ctls s !! k) as [c|] eqn:E; [|done]. simpl in H. rewrite (alter_insert _ _ _ _ E). apply (Hctl k (Ctl _ _ _)). apply Hat in E. unfold ctl_unmade in *; simpl. destruct (k_phase c); try done; destruct E as [E ?]; by rewrite E in H.
  - destruct w as [i|k i]; simpl in *.
    + split; try done. unfold cache_unmade in *; simpl. destruct (t_cache s) as [[]|]; try done; by rewrite H1 in H.
    + destruct (t_ctls s !! k) as [c|] eqn:E; [|done]. simpl in H. rewrite (alter_insert _ _ _ _ E). apply (Hctl k (Ctl _ _ _)). apply Hat in E. unfold ctl_unmade in *; simpl. destruct (k_phase c); try done; destruct E as [E ?]; by rewrite E in H.
  - by split.
  - by split.
  - split; try done. simpl. intros E. apply H3 in E. congruence.
  - split; try done. simpl. intros E. apply H3 in E. congruence.
  - unfold cancel_main. destruct s as [m c infs ks]; simpl in *. destruct m as [| |g|r]; simpl; try by split.
    destruct (reaches g); [|by split]. destruct c as [[b|g0|r]|]; split; try done; simpl; apply Forall_fmap; eapply Forall_impl; try exact H2; apply unmade_cancel_ctl.
Qed.
Lemma unmade_reach ls s : reach tstep t_init ls s → unmade s.
Proof. apply reach_inv; [apply unmade_step|]. split; [done|constructor|done]. Qed.

Lemma left_step s l s' r w : unmade s → over s r → unasked s w → tstep s l s' → ¬ own_end l w → over s' r ∧ unasked s' w.
Proof.
  intros [H1 H2 H3] Ho Hu Hs Hl. unfold over in *.
  assert (Hat : ∀ k c, t_ctls s !! k = Some c → ctl_unmade c) by (intros k c Hk; eapply Forall_lookup_1 in H2; done).
  assert (Hctl : ∀ k c c', t_ctls s !! k = Some c → k_workers c' = k_workers c → unasked (with_ctl k c' s) w).
  { intros k c c' Hk Hw. unfold unasked in *. destruct w as [i|k' i]; [done|]. simpl in *. destruct (decide (k' = k)) as [->|Hne].
    - rewrite list_lookup_insert by by apply lookup_lt_Some in Hk. simpl. rewrite Hw. by rewrite Hk in Hu.
    - by rewrite list_lookup_insert_ne. }
  assert (Hend : ∀ w' r', w' ≠ w → unasked (end_leaf w' r' s) w).
  { intros w' r' Hne. unfold unasked in *. destruct w as [i|k i], w' as [i'|k' i']; try done; simpl in *.
    - rewrite list_lookup_insert_ne; [done|congruence].
    - destruct (decide (k = k')) as [<-|Hk]; [|by rewrite list_lookup_alter_ne]. rewrite list_lookup_alter. destruct (t_ctls s !! k) as [c|]; [|done]. simpl in *. rewrite list_lookup_insert_ne; [done|congruence]. }
  destruct Hs as [Hm|m Hm|n Hc|Hc|k ws H|k ws H|k n ws H|k ws H|k ws H|w' r' H|w' r' H|g r' Hm Ho' Hg|g r' Hm Ho'|g r' Hc Ho' Hg|g r' Hc Ho'|k g ws b r' H Ho' Hg|k g ws b r' H Ho'|]; try congruence;
    try (split; [done|]; by eapply Hctl).
  - split; [done|]. unfold cache_unmade in H1. rewrite Hc in H1. unfold unasked in *. destruct w as [i|k i]; [|done]. simpl in Hu. by rewrite H1 in Hu.
  - by split.
  - split; [done|]. unfold unasked in *. destruct w as [i|k' i]; [done|]. simpl in *. destruct (decide (k' = k)) as [->|Hne]; [|by rewrite list_lookup_insert_ne].
    rewrite H in Hu. apply Hat in H as [H _]. simpl in *. by rewrite H in Hu.
  - split; [by destruct w'|]. apply Hend. intros ->. destruct Hl. by exists r'.
  - split; [by destruct w'|]. apply Hend. intros ->. unfold unasked in Hu. congruence.
  - by split.
  - by split.
  - unfold cancel_main. rewrite Ho. by split.
Qed.
Lemma left_alone ls s r w ls' s' : reach tstep t_init ls s → over s r → unasked s w → reach tstep s ls' s' → (∀ l, l ∈ ls' → ¬ own_end l w) → unasked s' w.
Proof.
  intros Hr Ho Hu Hr'. assert (Hu' : unmade s) by by eapply unmade_reach. intros Hn. assert (over s' r ∧ unasked s' w ∧ unmade s') as (_&?&_); [|done].
  induction Hr' as [|ls' s1 l s2 Hr1 IH Hs]; [done|]. destruct IH as (I1&I2&I3); [intros l' Hl'; apply Hn, elem_of_app; by left|].
  destruct (left_step _ _ _ _ _ I3 I1 I2 Hs) as [J1 J2]; [apply Hn, elem_of_app; right; by apply elem_of_list_singleton|]. split_and!; [done|done|by eapply unmade_step].
Qed.

(** line 80: a controller that ended after it had begun has run it *)
Definition shut_ok (ls : list tlabel) (k : nat) (c : ctl) : Prop := match k_phase c with KNew _ => TCtlBegin k ∉ ls | KEnd _ => TCtlBegin k ∈ ls → k_shut c = true | _ => True end.
Lemma shut_inv ls s : reach tstep t_init ls s → (∀ k c, t_ctls s !! k = Some c → shut_ok ls k c) ∧ (∀ k, TCtlBegin k ∈ ls → is_Some (t_ctls s !! k)) ∧ (t_main s = MLock ∨ t_main s = MWait → t_ctls s = []).
Proof.
  induction 1 as [|ls s l s' Hr (IH&IB&IM) Hs]; [split_and!; [done|by intros k ?%elem_of_nil|done]|].
  assert (Hu : unmade s) by by eapply unmade_reach.
  assert (Hk0 : ∀ k c, t_ctls s !! k = Some c → t_main s ≠ MLock ∧ t_main s ≠ MWait).
  { intros k c H. split; intros E; rewrite IM in H by tauto; done. }
  assert (Hmono : ∀ k c, (l ≠ TCtlBegin k) → shut_ok ls k c → shut_ok (ls ++ [l]) k c).
  { intros k c Hl. unfold shut_ok. destruct (k_phase c); rewrite ?elem_of_app, ?elem_of_list_singleton; try done; [intros ? [?|?]; congruence|intros Hi [?|?]; [auto|congruence]]. }
  assert (Hsame : (∀ k, l ≠ TCtlBegin k) → (∀ k c', t_ctls s' !! k = Some c' → ∃ c, t_ctls s !! k = Some c ∧ k_phase c' = k_phase c ∧ k_shut c' = k_shut c) → (∀ k, is_Some (t_ctls s !! k) → is_Some (t_ctls s' !! k)) →
     (∀ k c, t_ctls s' !! k = Some c → shut_ok (ls ++ [l]) k c) ∧ (∀ k, TCtlBegin k ∈ ls ++ [l] → is_Some (t_ctls s' !! k))).
  { intros Hl Hc Hi. split.
    - intros k c' Hk. destruct (Hc _ _ Hk) as (c&Hk'&E1&E2). apply Hmono; [by apply Hl|]. unfold shut_ok. rewrite E1, E2. apply (IH _ _ Hk').
    - intros k [Hin|Hin%elem_of_list_singleton]%elem_of_app; [by apply Hi, IB|]. by destruct (Hl k). }
  assert (Hwith : ∀ k c0 c, t_ctls s !! k = Some c0 → shut_ok (ls ++ [l]) k c → (∀ k', l = TCtlBegin k' → k' = k) →
     (∀ k' c', t_ctls (with_ctl k c s) !! k' = Some c' → shut_ok (ls ++ [l]) k' c') ∧ (∀ k', TCtlBegin k' ∈ ls ++ [l] → is_Some (t_ctls (with_ctl k c s) !! k')) ∧ (t_main s = MLock ∨ t_main s = MWait → t_ctls (with_ctl k c s) = [])).
  { intros k c0 c Hk Hc Hl. split_and!.
    - intros k' c'. simpl. destruct (decide (k' = k)) as [->|Hne].
      + rewrite list_lookup_insert by by apply lookup_lt_Some in Hk. by intros [= <-].
      + rewrite list_lookup_insert_ne by done. intros Hk'. apply Hmono; [|by apply IH]. intros E. by apply Hl in E.
    - intros k' Hin. simpl. destruct (decide (k' = k)) as [->|Hne].
      + rewrite list_lookup_insert by by apply lookup_lt_Some in Hk. by eexists.
      + rewrite list_lookup_insert_ne by done. apply elem_of_app in Hin as [Hin|Hin%elem_of_list_singleton]; [by apply IB|]. symmetry in Hin. by apply Hl in Hin.
    - destruct (Hk0 _ _ Hk). tauto. }
  destruct Hs as [Hm|m Hm|n Hc|Hc|k ws H|k ws H|k n ws H|k ws H|k ws H|w' r' H|w' r' H|g r' Hm Ho' Hg|g r' Hm Ho'|g r' Hc Ho' Hg|g r' Hc Ho'|k g ws b r' H Ho' Hg|k g ws b r' H Ho'|].
  - destruct Hsame as [? ?]; [done|intros k' c' Hk'; by exists c'|done|]. split_and!; try done. intros _. apply IM. by left.
  - assert (t_ctls s = []) as E by (apply IM; by right). split_and!.
    + intros k c Hk. simpl in Hk. apply lookup_replicate in Hk as [-> _]. unfold shut_ok; simpl. intros [Hin|Hin%elem_of_list_singleton]%elem_of_app; [|done]. apply IB in Hin. rewrite E in Hin. by destruct Hin.
    + intros k [Hin|Hin%elem_of_list_singleton]%elem_of_app; [|done]. apply IB in Hin. rewrite E in Hin. by destruct Hin.
    + intros [|]; done.
  - destruct Hsame as [? ?]; [done|intros k' c' Hk'; by exists c'|done|]. split_and!; done.
  - destruct Hsame as [? ?]; [done|intros k' c' Hk'; by exists c'|done|]. split_and!; done.
  - eapply Hwith; [done|done|]. by intros k' [= <-].
  - eapply Hwith; [done| |done]. pose proof (IH _ _ H) as Hi. unfold shut_ok in *; simpl in *. intros [Hin|Hin%elem_of_list_singleton]%elem_of_app; done.
  - eapply Hwith; done.
  - eapply Hwith; done.
  - eapply Hwith; done.
  - destruct Hsame as [? ?]; [done| | |split_and!; try done]; destruct w' as [i|k i]; simpl; try done; try (intros k' c' Hk'; by exists c').
    + intros k' c'. destruct (decide (k' = k)) as [->|Hne]; [|rewrite list_lookup_alter_ne by done; intros Hk'; by exists c']. rewrite list_lookup_alter. destruct (t_ctls s !! k) as [c|]; [|done]. intros [= <-]. by exists c.
    + intros k' [c Hk']. destruct (decide (k' = k)) as [->|Hne]; [|rewrite list_lookup_alter_ne by done; by exists c]. rewrite list_lookup_alter, Hk'. by eexists.
    + simpl in H. destruct (t_ctls s !! k) eqn:E; [|done]. destruct (Hk0 _ _ E). tauto.
  - destruct Hsame as [? ?]; [done| | |split_and!; try done]; destruct w' as [i|k i]; simpl; try done; try (intros k' c' Hk'; by exists c').
    + intros k' c'. destruct (decide (k' = k)) as [->|Hne]; [|rewrite list_lookup_alter_ne by done; intros Hk'; by exists c']. rewrite list_lookup_alter. destruct (t_ctls s !! k) as [c|]; [|done]. intros [= <-]. by exists c.
    + intros k' [c Hk']. destruct (decide (k' = k)) as [->|Hne]; [|rewrite list_lookup_alter_ne by done; by exists c]. rewrite list_lookup_alter, Hk'. by eexists.
    + simpl in H. destruct (t_ctls s !! k) eqn:E; [|done]. destruct (Hk0 _ _ E). tauto.
  - destruct Hsame as [? ?]; [done|intros k' c' Hk'; by exists c'|done|]. split_and!; try done. by intros [|].
  - destruct Hsame as [? ?]; [done|intros k' c' Hk'; by exists c'|done|]. split_and!; try done. by intros [|].
  - destruct Hsame as [? ?]; [done|intros k' c' Hk'; by exists c'|done|]. split_and!; done.
  - destruct Hsame as [? ?]; [done|intros k' c' Hk'; by exists c'|done|]. split_and!; done.
  - eapply Hwith; done.
  - eapply Hwith; done.
  - assert (Hcancel : t_ctls (cancel_main s) = t_ctls s ∨ ((∃ g, t_main s = MGather g) ∧ t_ctls (cancel_main s) = cancel_ctl <$> t_ctls s)).
    { unfold cancel_main. destruct (t_main s) as [| |g|r]; [by left|by left| |by left]. destruct (reaches g); [|by left]. right. split; [by exists g|]. destruct (t_cache s) as [c|]; [|done]. by destruct (cancel_cache c (t_infs s)). }
    destruct Hcancel as [E|[[g Hg] E]].
    + destruct Hsame as [? ?]; [done|rewrite E; intros k' c' Hk'; by exists c'|by rewrite E|]. split_and!; try done. rewrite E. unfold cancel_main. destruct (t_main s) as [| |g|r] eqn:Em; simpl; try (intros _; apply IM; tauto). 
      * destruct (reaches g); [destruct (t_cache s) as [c|]; [destruct (cancel_cache c (t_infs s))|]|]; by intros [].
      * rewrite Em. by intros [].
    + split_and!.
      * rewrite E. intros k c. rewrite list_lookup_fmap. destruct (t_ctls s !! k) as [c0|] eqn:Ek; [|done]. intros [= <-]. apply Hmono; [done|]. specialize (IH _ _ Ek). destruct c0 as [[] ws b]; done.
      * intros k [Hin|Hin%elem_of_list_singleton]%elem_of_app; [|done]. rewrite E, list_lookup_fmap. destruct (IB _ Hin) as [c ->]. by eexists.
      * unfold cancel_main. rewrite Hg. destruct (reaches g); [destruct (t_cache s) as [c|]; [destruct (cancel_cache c (t_infs s))|]|]; by intros [].
Qed.
Lemma queue_shut ls s k c r : reach tstep t_init ls s → t_ctls s !! k = Some c → k_phase c = KEnd r → TCtlBegin k ∈ ls → k_shut c = true.
Proof. intros Hr Hk Hp Hin. destruct (shut_inv _ _ Hr) as (H&_&_). specialize (H _ _ Hk). unfold shut_ok in H. rewrite Hp in H. auto. Qed.

(** concrete runs *)
Lemma main_resume s g r r' : t_main s = MGather g → g_out g = Some r → resumed g r = r' → tstep s (TResume WMain r') (Tree (MEnd r') (t_cache s) (t_infs s) (t_ctls s)).
Proof. intros ?? <-. by apply t_main_resume. Qed.
Lemma cache_resume s g r r' : t_cache s = Some (CGather g) → g_out g = Some r → resumed g r = r' → tstep s (TResume WCache r') (Tree (t_main s) (Some (CEnd r')) (t_infs s) (t_ctls s)).
Proof. intros ?? <-. by apply t_cache_resume. Qed.
Ltac tside := first [reflexivity | done | left; split; [done|]; apply elem_of_list_lookup; first [by exists 0|by exists 1]].
Ltac tone := first [eapply t_begin | eapply t_launch | eapply t_cache_begin | eapply t_ctl_begin | eapply t_ctl_up | eapply t_ctl_fail | eapply t_own | eapply t_main_done | eapply main_resume | eapply t_cache_done |
  eapply cache_resume | eapply t_cancel]; tside.
Ltac tgo := cbn; eapply reach_cons; [tone|].
Definition up_ls : list tlabel := [TBegin; TCacheBegin 1; TLaunch 1; TCtlBegin 0; TCtlUp 0 2].
Definition up_st : tree := Tree (MGather g_new) (Some (CGather g_new)) [LRun false] [Ctl (KGather g_new) [LRun false; LRun false] false].
Lemma up_run : reach tstep t_init up_ls up_st.
Proof. unfold up_ls, t_init. do 5 tgo. apply reach_nil. Qed.
Lemma up_case : reach tstep t_init up_ls up_st ∧ none_failed up_ls ∧ gathering up_st ∧ live up_st ACache ∧ live up_st (ACtl 0) ∧ live up_st (ALeaf (WInf 0)) ∧ live up_st (ALeaf (WWorker 0 1)).
Proof.
  split_and!; [apply up_run| | | | | |].
  - intros w r. unfold up_ls. rewrite !elem_of_cons, elem_of_nil. naive_solver.
  - by eexists.
  - eexists. by split.
  - eexists. by split.
  - by eexists.
  - by eexists.
Qed.
Lemma waiting_refuted : ∃ ls s, reach tstep t_init (ls ++ [TCancel]) s ∧ none_failed ls ∧ over s Cancelled ∧
  ∀ ls' s', reach tstep s ls' s' → (∀ l, l ∈ ls' → ¬ own_end l (WInf 0)) → unasked s' (WInf 0).
Proof.
  exists [TBegin; TCacheBegin 1], (Tree (MEnd Cancelled) (Some (CGather g_new)) [LRun false] []).
  assert (reach tstep t_init ([TBegin; TCacheBegin 1] ++ [TCancel]) (Tree (MEnd Cancelled) (Some (CGather g_new)) [LRun false] [])) as Hr.
  { unfold t_init. simpl app. do 3 tgo. apply reach_nil. }
  split_and!; [done| |done|].
  - intros w r. rewrite !elem_of_cons, elem_of_nil. naive_solver.
  - intros ls' s'. by apply (left_alone _ _ _ _ _ _ Hr eq_refl).
Qed.
Definition fail_ls : list tlabel := [TBegin; TCacheBegin 1; TLaunch 2; TCtlBegin 0; TCtlBegin 1; TCtlUp 1 1; TCtlFail 0; TDone WMain Raised; TResume WMain Raised].
Definition fail_st : tree := Tree (MEnd Raised) (Some (CGather g_new)) [LRun false] [Ctl (KEnd Raised) [] true; Ctl (KGather g_new) [LRun false] false].
Lemma failure_refuted : ∃ ls s, reach tstep t_init ls s ∧ TCtlFail 0 ∈ ls ∧ over s Raised ∧
  ∀ w, w = WInf 0 ∨ w = WWorker 1 0 → ∀ ls' s', reach tstep s ls' s' → (∀ l, l ∈ ls' → ¬ own_end l w) → unasked s' w.
Proof.
  exists fail_ls, fail_st. assert (reach tstep t_init fail_ls fail_st) as Hr.
  { unfold t_init, fail_ls. do 9 tgo. apply reach_nil. }
  split_and!; [done| |done|].
  - unfold fail_ls. rewrite !elem_of_cons. tauto.
  - intros w Hw ls' s'. apply (left_alone _ _ _ _ _ _ Hr eq_refl). by destruct Hw as [->| ->].
Qed.
Definition late_ls : list tlabel := [TBegin; TCacheBegin 2; TLaunch 0; TOwn (WInf 0) Raised; TDone WCache Raised; TCancel; TResume WCache Cancelled; TDone WMain Cancelled; TResume WMain Cancelled].
Definition late_st : tree := Tree (MEnd Cancelled) (Some (CEnd Cancelled)) [LEnd Raised; LRun false] [].
Lemma late_refuted : ∃ ls1 s1 ls2 s2, reach tstep t_init ls1 s1 ∧ gathering s1 ∧ reach tstep s1 (TCancel :: ls2) s2 ∧ over s2 Cancelled ∧
  ∀ ls' s', reach tstep s2 ls' s' → (∀ l, l ∈ ls' → ¬ own_end l (WInf 1)) → unasked s' (WInf 1).
Proof.
  exists (take 5 late_ls), (Tree (MGather g_new) (Some (CGather (Gath false (Some Raised) false))) [LEnd Raised; LRun false] []), (drop 6 late_ls), late_st.
  assert (reach tstep t_init (take 5 late_ls) (Tree (MGather g_new) (Some (CGather (Gath false (Some Raised) false))) [LEnd Raised; LRun false] [])) as Hr1.
  { unfold t_init. simpl. do 5 tgo. apply reach_nil. }
  assert (reach tstep (Tree (MGather g_new) (Some (CGather (Gath false (Some Raised) false))) [LEnd Raised; LRun false] []) (TCancel :: drop 6 late_ls) late_st) as Hr2.
  { simpl. tgo. tgo. tgo. tgo. apply reach_nil. }
  split_and!; [done| |done|done|].
  - by eexists.
  - intros ls' s'. by apply (left_alone _ _ _ _ _ _ (reach_app _ _ _ _ _ _ Hr1 Hr2) eq_refl).
Qed.
Lemma fail_case : reach tstep t_init fail_ls fail_st ∧ t_ctls fail_st !! 0 = Some (Ctl (KEnd Raised) [] true) ∧ TCtlBegin 0 ∈ fail_ls.
Proof.
  split_and!; [|done|].
  - unfold t_init, fail_ls. do 9 tgo. apply reach_nil.
  - unfold fail_ls. rewrite !elem_of_cons. tauto.
Qed.
