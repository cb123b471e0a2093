(** Proofs about the DeltaFIFO by reference. *)
From Verif Require Import Base DeltaFifo_model DeltaFifo_spec DeltaFifo_proofs DeltaFifo_proofs2 DeltaRef_model DeltaRef_spec.

Section vmap.
  Context {K A B : Type} `{EqDecision K}.
  Definition vmap (f : A → B) (d : dict K A) : dict K B := (λ p, (p.1, f p.2)) <$> d.
  Lemma vmap_cons f k r d : vmap f ((k, r) :: d) = (k, f r) :: vmap f d.
  Proof. done. Qed.
  Lemma dget_vmap f k d : dget k (vmap f d) = f <$> dget k d.
  Proof. induction d as [|[k' r] d IH]; [done|]. rewrite vmap_cons, !dget_cons. by case_decide. Qed.
  Lemma dkeys_vmap f d : dkeys (vmap f d) = dkeys d.
  Proof. induction d as [|[k' r] d IH]; [done|]. rewrite vmap_cons. simpl. f_equal. exact IH. Qed.
  Lemma dset_vmap f k r d : vmap f (dset k r d) = dset k (f r) (vmap f d).
  Proof. induction d as [|[k' r'] d IH]; [done|]. rewrite vmap_cons. cbn [dset]. case_decide; rewrite vmap_cons; [done|]. f_equal. exact IH. Qed.
  Lemma ddel_vmap f k d : vmap f (ddel k d) = ddel k (vmap f d).
  Proof.
    unfold ddel. induction d as [|[k' r'] d IH]; [done|]. rewrite vmap_cons, !filter_cons. simpl. destruct (decide (k' ≠ k)); [|exact IH]. rewrite vmap_cons. f_equal. exact IH.
  Qed.
  Lemma vmap_ext f g d : (∀ k r, (k, r) ∈ d → f r = g r) → vmap f d = vmap g d.
  Proof.
    induction d as [|[k r] d IH]; intros H; [done|]. rewrite !vmap_cons. rewrite (H k r) by (by left). f_equal. apply IH. intros k' r' Hin. apply (H k' r'). by right.
  Qed.
  Lemma elem_dset k v (k' : K) v' (d : dict K A) : (k', v') ∈ dset k v d → (k' = k ∧ v' = v) ∨ (k', v') ∈ d.
  Proof.
    induction d as [|[k1 v1] d IH]; cbn [dset]; [intros [= -> ->]%elem_of_list_singleton; by left|].
    case_decide as Ek; [subst k1|]; intros [E|Hin]%elem_of_cons.
    - injection E as -> ->. by left.
    - right. by right.
    - right. rewrite E. left.
    - destruct (IH Hin) as [?|?]; [by left|]. right. by right.
  Qed.
  Lemma elem_ddel k k' v' (d : dict K A) : (k', v') ∈ ddel k d → (k', v') ∈ d.
  Proof. unfold ddel. by intros [_ ?]%elem_of_list_filter. Qed.
End vmap.

Section ref.
  Context {K O : Type} `{EqDecision K} (keyf : O → option K).
  Notation rst := (rst K O).
  Notation rstep := (rstep keyf).
  Notation dstep := (dstep keyf).
  Implicit Types s : rst.

  (** ** References point to lists *)
  Definition rwf s : Prop := (∀ k r, (k, r) ∈ r_items s → r < length (r_heap s)) ∧ (∀ k r, r_busy s = Some (k, r) → r < length (r_heap s)).
  Lemma values_items s : d_items (values s) = vmap (contents s) (r_items s).
  Proof. done. Qed.
  Lemma values_dget s k : dget k (d_items (values s)) = contents s <$> dget k (r_items s).
  Proof. apply dget_vmap. Qed.
  Lemma values_at s k : at_key s k = default [] (dget k (d_items (values s))).
  Proof. rewrite values_dget. unfold at_key. by destruct (dget k (r_items s)). Qed.
  Lemma values_keys s : dkeys (d_items (values s)) = dkeys (r_items s).
  Proof. apply dkeys_vmap. Qed.
  Lemma contents_app s s' x r : r_heap s' = r_heap s ++ [x] → r < length (r_heap s) → contents s' r = contents s r.
  Proof. intros E Hr. unfold contents. rewrite E. by rewrite lookup_app_l. Qed.
  Lemma contents_new s s' x : r_heap s' = r_heap s ++ [x] → contents s' (length (r_heap s)) = x.
  Proof. intros E. unfold contents. rewrite E. rewrite lookup_app_r, Nat.sub_diag by done. done. Qed.
  (** states that differ in the heap only *)
  Lemma values_ext s s' : r_items s' = r_items s → r_queue s' = r_queue s → r_populated s' = r_populated s → r_count s' = r_count s → r_closed s' = r_closed s →
    r_busy s' = r_busy s → (∀ k r, (k, r) ∈ r_items s → contents s' r = contents s r) → (∀ k r, r_busy s = Some (k, r) → contents s' r = contents s r) →
    values s' = values s.
  Proof.
    intros E1 E2 E3 E4 E5 E6 H1 H2. unfold values. rewrite E1, E2, E3, E4, E5, E6. f_equal; [by apply vmap_ext|].
    destruct (r_busy s) as [[k r]|]; [|done]. simpl. by rewrite (H2 k r).
  Qed.

  Lemma values_will k s : r_will_be_deleted k s = will_be_deleted k (values s).
  Proof. unfold r_will_be_deleted, will_be_deleted. rewrite values_at. by destruct (dget k (d_items (values s))). Qed.
  Lemma queue_action_values t k o s : rwf s → values (r_queue_action t k o s) = (queue_action t k o (values s)).1 ∧ rwf (r_queue_action t k o s).
  Proof.
    intros [Hw1 Hw2]. unfold r_queue_action, queue_action. rewrite values_will. destruct (bool_decide (t = DtSync) && _); [done|].
    rewrite values_at. destruct (dedup_deltas _) as [|d new] eqn:En.
    - split; [|split; [|done]]; simpl.
      + unfold values; simpl. f_equal. apply ddel_vmap.
      + intros k' r Hin%elem_ddel. by eapply Hw1.
    - set (s' := RS (r_heap s ++ [d :: new]) _ _ _ _ _ _). assert (Hh : r_heap s' = r_heap s ++ [d :: new]) by done. split.
      + unfold values. simpl. rewrite <-values_keys. f_equal.
        * etrans; [apply (dset_vmap (contents s'))|]. rewrite (contents_new _ _ _ Hh). f_equal. apply (vmap_ext (contents s') (contents s)). intros k' r Hin. apply (contents_app _ _ _ _ Hh). by eapply Hw1.
        * destruct (r_busy s) as [[k' r]|]; [|done]. simpl. by rewrite (contents_app _ _ _ _ Hh (Hw2 k' r eq_refl)).
      + split; simpl; rewrite app_length; simpl.
        * intros k' r [[-> ->]|Hin]%elem_dset; [lia|]. specialize (Hw1 _ _ Hin). lia.
        * intros k' r E. specialize (Hw2 _ _ E). lia.
  Qed.
  Lemma set_populated_values s : values (r_set_populated s) = set_populated (values s) ∧ (rwf s → rwf (r_set_populated s)).
  Proof. done. Qed.
  Lemma alloc_values ds s : rwf s → values (r_alloc ds s) = values s ∧ rwf (r_alloc ds s).
  Proof.
    intros [Hw1 Hw2]. split.
    - apply values_ext; try done; intros k r Hin; eapply (contents_app s _ ds); try done; eauto.
    - split; simpl; rewrite app_length; simpl; intros k r Hin; [specialize (Hw1 _ _ Hin)|specialize (Hw2 _ _ Hin)]; lia.
  Qed.
  Lemma add_values t o s : rwf s → let '(s', x) := r_add keyf t o s in df_add keyf t o (values s) = (values s', answer_value s' x, (df_add keyf t o (values s)).2) ∧ rwf s'.
  Proof.
    intros Hw. unfold r_add, df_add. destruct (key_of keyf o) as [k|]; [|done].
    destruct (queue_action_values t k o (r_set_populated s)) as [E Hw']; [done|]. rewrite E. change (values (r_set_populated s)) with (set_populated (values s)).
    by destruct (queue_action t k o (set_populated (values s))).
  Qed.
  Lemma delete_values kn o s : rwf s → let '(s', x) := r_delete keyf kn o s in df_delete keyf kn o (values s) = (values s', answer_value s' x, (df_delete keyf kn o (values s)).2) ∧ rwf s'.
  Proof.
    intros Hw. unfold r_delete, df_delete. destruct (key_of keyf o) as [k|]; [|done]. rewrite values_keys.
    destruct (match kn with None => _ | Some _ => _ end); [done|].
    destruct (queue_action_values DtDeleted k o (r_set_populated s)) as [E Hw']; [done|]. rewrite E. change (values (r_set_populated s)) with (set_populated (values s)).
    by destruct (queue_action DtDeleted k o (set_populated (values s))).
  Qed.
  Lemma sync_all_values l : ∀ s n, rwf s → let '(s', e) := r_sync_all keyf l s in sync_all keyf l (values s) n = (values s', (sync_all keyf l (values s) n).1.2, e) ∧ rwf s'.
  Proof.
    induction l as [|o l IH]; intros s n Hw; [done|]. cbn [r_sync_all sync_all]. destruct (key_of keyf o) as [k|]; [|done].
    destruct (queue_action_values DtSync k o s Hw) as [E Hw']. destruct (queue_action DtSync k o (values s)) as [v n'] eqn:Eq. simpl in E. subst v. by apply IH.
  Qed.
  Lemma delete_all_values l : ∀ s n, rwf s → values (r_delete_all l s) = (delete_all l (values s) n).1 ∧ rwf (r_delete_all l s).
  Proof.
    induction l as [|[k o] l IH]; intros s n Hw; [done|]. cbn [r_delete_all delete_all].
    destruct (queue_action_values DtDeleted k (DTomb k o) s Hw) as [E Hw']. destruct (queue_action DtDeleted k (DTomb k o) (values s)) as [v n'] eqn:Eq. simpl in E. subst v. by apply IH.
  Qed.
  Lemma deletions_values kn keys s : r_deletions kn keys s = deletions kn keys (values s).
  Proof.
    destruct kn as [kn|]; [done|]. unfold r_deletions, deletions. rewrite values_items. unfold vmap. induction (r_items s) as [|[k r] d IH]; [done|].
    simpl. rewrite !filter_cons. simpl. destruct (decide (k ∉ keys)); [|exact IH]. simpl. f_equal. exact IH.
  Qed.
  Lemma replace_values kn l s : rwf s → let '(s', x) := r_replace keyf kn l s in df_replace keyf kn l (values s) = (values s', answer_value s' x, (df_replace keyf kn l (values s)).2) ∧ rwf s'.
  Proof.
    intros Hw. unfold r_replace, df_replace. pose proof (sync_all_values l s false Hw) as H. destruct (r_sync_all keyf l s) as [s1 e]. destruct H as [H Hw1].
    destruct (sync_all keyf l (values s) false) as [[v n] e']. simpl in H. injection H as -> ->. destruct e as [o|]; [done|].
    rewrite deletions_values. set (dels := deletions kn _ _). destruct (delete_all_values dels s1 n Hw1) as [E Hw2].
    destruct (delete_all dels (values s1) n) as [v2 n2]. simpl in E. subst v2. simpl.
    unfold r_set_initial, set_initial. simpl. destruct (r_populated (r_delete_all dels s1)) eqn:Ep; done.
  Qed.
  Lemma resync_values kn ks : ∀ s n, rwf s → let '(s', x) := r_resync_keys keyf kn ks s in
    resync_keys keyf kn ks (values s) n = (values s', answer_value s' x, (resync_keys keyf kn ks (values s) n).2) ∧ rwf s'.
  Proof.
    induction ks as [|k ks IH]; intros s n Hw; [done|]. cbn [r_resync_keys resync_keys]. unfold r_sync_key, sync_key.
    destruct (kn_get kn k) as [o| |]; [|by apply IH|by apply IH]. destruct (key_of keyf o) as [id|]; [|done].
    rewrite values_at. destruct (queue_action_values DtSync id o s Hw) as [E Hw'].
    destruct (dget id (d_items (values s))) as [[|d ds]|]; simpl; [|by apply IH|];
      destruct (queue_action DtSync id o (values s)) as [v n'] eqn:Eq; simpl in E; subst v; by apply IH.
  Qed.
  Lemma skip_stale_values s q n : skip_stale (d_items (values s)) q n =
    let '(q', n', f) := r_skip_stale (r_items s) q n in (q', n', (λ p, (p.1, contents s p.2)) <$> f).
  Proof.
    revert n. induction q as [|k q IH]; intros n; [done|]. cbn [skip_stale r_skip_stale]. rewrite values_dget. destruct (dget k (r_items s)) as [r|]; [done|]. apply IH.
  Qed.
  Lemma skip_stale_in items q n q' n' k r : r_skip_stale (K:=K) items q n = (q', n', Some (k, r)) → dget k items = Some r.
  Proof.
    revert n. induction q as [|k' q IH]; intros n; [done|]. cbn [r_skip_stale]. destruct (dget k' items) as [r'|] eqn:E; [|apply IH]. by intros [= <- <- <- <-].
  Qed.
  Lemma pop_values s : rwf s → r_busy s = None → let '(s', x) := r_pop s in df_pop (values s) = (values s', answer_value s' x, false) ∧ rwf s'.
  Proof.
    intros [Hw1 Hw2] Hb. unfold r_pop, df_pop. change (d_queue (values s)) with (r_queue s). change (d_count (values s)) with (r_count s).
    rewrite skip_stale_values. destruct (r_skip_stale (r_items s) (r_queue s) (r_count s)) as [[q' n'] [[k r]|]] eqn:Es; simpl.
    - pose proof (skip_stale_in _ _ _ _ _ _ _ Es) as Hk. split.
      + f_equal. f_equal. unfold values. simpl. f_equal. symmetry. apply (ddel_vmap (contents s)).
      + split; simpl; [intros k' r' Hin%elem_ddel; by eapply Hw1|]. intros ? ? [= <- <-]. eapply Hw1. by apply dget_elem_of.
    - done.
  Qed.
  Lemma put_if_absent_values k r s : rwf s → r < length (r_heap s) → values (r_put_if_absent k r s) = (put_if_absent k (contents s r) (values s)).1 ∧ rwf (r_put_if_absent k r s).
  Proof.
    intros [Hw1 Hw2] Hr. unfold r_put_if_absent, put_if_absent. rewrite values_keys. destruct (decide (k ∈ dkeys (r_items s))); [done|]. split.
    - unfold values; simpl. f_equal. apply dset_vmap.
    - split; simpl; [|done]. intros k' r' [[-> ->]|Hin]%elem_dset; [done|by eapply Hw1].
  Qed.
  Lemma finish_values out s : rwf s → let '(s', x) := r_finish out s in df_finish out (values s) = (values s', answer_value s' x, (df_finish out (values s)).2) ∧ rwf s'.
  Proof.
    intros Hw. pose proof Hw as [Hw1 Hw2]. unfold r_finish, df_finish. change (d_busy (values s)) with ((λ p, (p.1, contents s p.2)) <$> r_busy s). destruct (r_busy s) as [[k r]|] eqn:Eb; [|done]. simpl.
    set (s0 := RS (r_heap s) (r_items s) (r_queue s) (r_populated s) (r_count s) (r_closed s) None).
    assert (Hw0 : rwf s0) by (split; [done|]; done).
    destruct out as [|cause| |]; try done.
    destruct (put_if_absent_values k r s0 Hw0) as [E Hw']; [by eapply Hw2|].
    change (DFIFO _ _ _ _ _ None) with (values s0). destruct (put_if_absent k (contents s r) (values s0)) as [v n] eqn:Ep.
    change (contents s0 r) with (contents s r) in E. rewrite Ep in E. simpl in E. subst v. split; [|done]. f_equal.
    assert (contents (r_put_if_absent k r s0) r = contents s r) as Ec by (unfold r_put_if_absent; by destruct (decide _)). destruct cause; simpl; by rewrite Ec.
  Qed.
  Lemma put_values r s : rwf s → let '(s', x) := r_put keyf r s in df_add_if_not_present keyf (contents s r) (values s) = (values s', answer_value s' x, (df_add_if_not_present keyf (contents s r) (values s)).2) ∧ rwf s'.
  Proof.
    intros Hw. unfold r_put, df_add_if_not_present. destruct (last (contents s r)) as [d|] eqn:El; [|done]. destruct (key_of keyf d.2) as [k|]; [|done].
    assert (Hr : r < length (r_heap s)).
    { unfold contents in El. destruct (r_heap s !! r) eqn:E; [by eapply lookup_lt_Some|done]. }
    destruct (put_if_absent_values k r s Hw Hr) as [E Hw']. rewrite E. by destruct (put_if_absent k (contents s r) (values s)).
  Qed.
  Lemma get_values k s : rwf s → let '(s', x) := r_get k s in values s = values s' ∧ DDeltas (dget k (d_items (values s))) = answer_value s' x ∧ rwf s'.
  Proof.
    intros Hw. unfold r_get. rewrite values_dget. destruct (dget k (r_items s)) as [r|]; [|done]. simpl.
    destruct (contents s r) as [|d ds] eqn:E; [by rewrite <-E|]. destruct (alloc_values (d :: ds) s Hw) as [E1 E2]. split; [done|]. split; [|done].
    cbn [answer_value]. f_equal. simpl. f_equal. symmetry. by apply (contents_new s _ (d :: ds)).
  Qed.
  (** no pending list is empty *)
  Definition full s : Prop := ∀ k r, dget k (r_items s) = Some r → contents s r ≠ [].
  Lemma list_values s : (∀ k r, (k, r) ∈ r_items s → contents s r ≠ []) → r_list s = (s, RRes (DObjs (omap newest_obj (dvals (d_items (values s)))))).
  Proof.
    intros Hf. unfold r_list. rewrite values_items. unfold vmap.
    assert (mapM (λ r, newest_obj (contents s r)) (dvals (r_items s)) = Some (omap newest_obj (dvals ((λ p : K * nat, (p.1, contents s p.2)) <$> r_items s)))) as ->; [|done].
    induction (r_items s) as [|[k r] d IH]; [done|]. simpl. assert (contents s r ≠ []) as Hn by (apply (Hf k); by left).
    destruct (newest_obj (contents s r)) as [o|] eqn:En.
    - simpl. erewrite IH; [done|]. intros k' r' Hin. apply (Hf k'). by right.
    - unfold newest_obj in En. destruct (last (contents s r)) eqn:El; [done|]. by apply last_None in El.
  Qed.
  (** ** A call *)
  Lemma step_values s c c' : rwf s → (∀ k r, (k, r) ∈ r_items s → contents s r ≠ []) → call_value s c = Some c' →
    let '(s', x) := rstep s c in dstep (values s) c' = (values s', answer_value s' x) ∧ rwf s'.
  Proof.
    intros Hw Hf Hc. destruct c as [c|r|ds|r ds]; simplify_eq/=.
    - assert (Hfree : (r_busy s = None ∨ needs_lock c' = false) → let '(s', x) := rcall_free keyf s c' in (dcall_free keyf (values s) c').1 = (values s', answer_value s' x) ∧ rwf s').
      { intros Hb. destruct c' as [o|o|kn o| | |o|k|kn l|kn| |out|ds| | |]; cbn [rcall_free dcall_free fst].
        - pose proof (add_values DtAdded o s Hw) as H. destruct (r_add keyf DtAdded o s). destruct H as [-> ?]. done.
        - pose proof (add_values DtUpdated o s Hw) as H. destruct (r_add keyf DtUpdated o s). destruct H as [-> ?]. done.
        - pose proof (delete_values kn o s Hw) as H. destruct (r_delete keyf kn o s). destruct H as [-> ?]. done.
        - by rewrite (list_values s Hf).
        - by rewrite values_keys.
        - destruct (key_of keyf o) as [k|]; [|done]. pose proof (get_values k s Hw) as H. destruct (r_get k s). destruct H as (-> & -> & ?). done.
        - pose proof (get_values k s Hw) as H. destruct (r_get k s). destruct H as (-> & -> & ?). done.
        - pose proof (replace_values kn l s Hw) as H. destruct (r_replace keyf kn l s). destruct H as [-> ?]. done.
        - destruct kn as [kn|]; [|done]. cbn [df_resync]. pose proof (resync_values kn (kn_keys kn) s false Hw) as H. destruct (r_resync_keys keyf kn (kn_keys kn) s). destruct H as [-> ?]. done.
        - destruct Hb as [Hb|?]; [|done]. pose proof (pop_values s Hw Hb) as H. destruct (r_pop s). destruct H as [-> ?]. done.
        - pose proof (finish_values out s Hw) as H. destruct (r_finish out s). destruct H as [-> ?]. done.
        - destruct (alloc_values ds s Hw) as [Ev Hw']. pose proof (put_values (length (r_heap s)) (r_alloc ds s) Hw') as H.
          rewrite (contents_new s (r_alloc ds s) ds eq_refl), Ev in H. destruct (r_put keyf (length (r_heap s)) (r_alloc ds s)). destruct H as [-> ?]. done.
        - done.
        - done.
        - done. }
      unfold DeltaFifo_model.dstep, dcall. change (d_busy (values s)) with ((λ p, (p.1, contents s p.2)) <$> r_busy s).
      destruct (r_busy s) as [[k r]|] eqn:Eb; simpl; [|by apply Hfree; left]. destruct (needs_lock c') eqn:En; [done|]. apply Hfree. by right.
    - unfold DeltaFifo_model.dstep, dcall. change (d_busy (values s)) with ((λ p, (p.1, contents s p.2)) <$> r_busy s).
      destruct (r_busy s) as [[k r']|] eqn:Eb; simpl; [done|]. pose proof (put_values r s Hw) as H. destruct (r_put keyf r s). destruct H as [-> ?]. done.
  Qed.
  Lemma own_values s c : rwf s → call_value s c = None → (∀ r ds, c = REdit r ds → ¬ held s r) → dwf (r_items s) →
    values (rstep s c).1 = values s ∧ rwf (rstep s c).1.
  Proof.
    intros Hw Hc He Hd. destruct c as [c|r|ds|r ds]; try done; simpl.
    - by apply alloc_values.
    - specialize (He r ds eq_refl). split.
      + apply values_ext; try done; intros k r' Hin; unfold contents; simpl; (rewrite list_lookup_insert_ne; [done|]); intros ->; apply He.
        * left. exists k. by apply dget_iff.
        * right. by exists k.
      + split; simpl; rewrite insert_length; apply Hw.
  Qed.
  Lemma read_snoc s h m c x : exec rstep s h m →
    read keyf s (h ++ [(c, x)]) = read keyf s h ++ match call_value m c with Some c' => [(c', answer_value (rstep m c).1 x)] | None => [] end.
  Proof.
    induction 1 as [s|s c0 x0 s1 h s2 Hs He IH]; simpl; [by destruct (call_value s c)|]. rewrite Hs. simpl. rewrite IH. by destruct (call_value s c0).
  Qed.
  Lemma careful_snoc h e : careful keyf (h ++ [e]) → careful keyf h.
  Proof. intros Hc h1 r ds x h2 ->. apply (Hc h1 r ds x (h2 ++ [e])). by rewrite <-app_assoc. Qed.
  (** what a queue that reads as one of values looks like *)
  Lemma values_full h s : exec dstep dfifo_init h (values s) → dwf (r_items s) ∧ ∀ k r, (k, r) ∈ r_items s → contents s r ≠ [].
  Proof.
    intros HD%DI_exec. pose proof (di_wf _ _ HD) as Hd. unfold dwf in Hd. rewrite values_keys in Hd. split; [done|]. intros k r Hin%dget_iff; [|done].
    pose proof (values_dget s k) as E. rewrite Hin in E. apply (di_items _ _ HD) in E. by eapply deltas_key_nonempty.
  Qed.
  Lemma careful_values h s : exec rstep rst_init h s → careful keyf h → exec dstep dfifo_init (read keyf rst_init h) (values s) ∧ rwf s.
  Proof.
    revert s. induction h as [|[c x] h IH] using rev_ind; intros s; [intros <-%exec_nil_iff _; split; [constructor|split; [by intros ? ? ?%elem_of_nil|done]]|].
    intros (m & Hm & Hs)%exec_snoc Hc. destruct (IH m Hm (careful_snoc _ _ Hc)) as [He Hw]. destruct (values_full _ _ He) as [Hd Hf].
    rewrite (read_snoc _ _ _ _ _ Hm). destruct (call_value m c) as [c'|] eqn:Ec.
    - pose proof (step_values m c c' Hw Hf Ec) as H. rewrite Hs in *. destruct H as [H Hw']. split; [|done]. apply exec_snoc. by exists (values m).
    - rewrite app_nil_r. destruct (own_values m c Hw Ec) as [Ev Hw']; [|done|].
      + intros r ds ->. by eapply (Hc h r ds x []).
      + rewrite Hs in *. simpl in *. by rewrite Ev.
  Qed.

  (** ** Polite programs are careful *)
  Definition evolves s s' : Prop := r_busy s' = r_busy s ∧ length (r_heap s) <= length (r_heap s') ∧
    (∀ k r, (k, r) ∈ r_items s' → r < length (r_heap s) → (k, r) ∈ r_items s) ∧
    (∀ k1 k2 r, (k1, r) ∈ r_items s' → (k2, r) ∈ r_items s' → length (r_heap s) <= r → k1 = k2).
  Lemma evolves_same s s' : rwf s → r_busy s' = r_busy s → r_items s' = r_items s → length (r_heap s) <= length (r_heap s') → evolves s s'.
  Proof.
    intros [Hw _] E1 E2 E3. split_and!; [done|done|by rewrite E2|]. rewrite E2. intros k1 k2 r H1 H2 Hl. specialize (Hw _ _ H1). lia.
  Qed.
  Lemma evolves_trans s1 s2 s3 : evolves s1 s2 → evolves s2 s3 → evolves s1 s3.
  Proof.
    intros (A1 & A2 & A3 & A4) (B1 & B2 & B3 & B4). split_and!; [congruence|lia| |].
    - intros k r Hin Hr. apply A3; [|done]. apply B3; [done|lia].
    - intros k1 k2 r H1 H2 Hl. destruct (decide (length (r_heap s2) <= r)); [by eapply B4|]. apply (A4 k1 k2 r); [apply B3; [done|lia]|apply B3; [done|lia]|done].
  Qed.
  Lemma queue_action_evolves t k o s : rwf s → evolves s (r_queue_action t k o s).
  Proof.
    intros Hw. unfold r_queue_action. destruct (_ && _); [by apply evolves_same|]. destruct Hw as [Hw1 Hw2]. destruct (dedup_deltas _) as [|d new].
    - split_and!; simpl; [done|done| |]; [by intros k' r Hin%elem_ddel|]. intros k1 k2 r Hin%elem_ddel _ Hl. specialize (Hw1 _ _ Hin). lia.
    - split_and!; simpl; [done|rewrite app_length; simpl; lia| |].
      + intros k' r [[-> ->]|Hin]%elem_dset Hl; [lia|done].
      + intros k1 k2 r [[-> ->]|H1]%elem_dset [[-> E2]|H2]%elem_dset Hl; [done|..]; try (specialize (Hw1 _ _ H1)); try (specialize (Hw1 _ _ H2)); try lia.
  Qed.
  Lemma set_populated_evolves s : rwf s → evolves s (r_set_populated s).
  Proof. intros Hw. by apply evolves_same. Qed.
  Lemma sync_all_evolves l : ∀ s, rwf s → evolves s (r_sync_all keyf l s).1 ∧ rwf (r_sync_all keyf l s).1.
  Proof.
    induction l as [|o l IH]; intros s Hw; cbn [r_sync_all]; [by split; [apply evolves_same|]|]. destruct (key_of keyf o) as [k|]; [|by split; [apply evolves_same|]].
    destruct (queue_action_values DtSync k o s Hw) as [_ Hw']. destruct (IH _ Hw') as [H1 H2]. split; [|done]. eapply evolves_trans; [by apply queue_action_evolves|done].
  Qed.
  Lemma delete_all_evolves l : ∀ s, rwf s → evolves s (r_delete_all l s) ∧ rwf (r_delete_all l s).
  Proof.
    induction l as [|[k o] l IH]; intros s Hw; cbn [r_delete_all]; [by split; [apply evolves_same|]|].
    destruct (queue_action_values DtDeleted k (DTomb k o) s Hw) as [_ Hw']. destruct (IH _ Hw') as [H1 H2]. split; [|done]. eapply evolves_trans; [by apply queue_action_evolves|done].
  Qed.
  Lemma resync_evolves kn ks : ∀ s, rwf s → evolves s (r_resync_keys keyf kn ks s).1.
  Proof.
    induction ks as [|k ks IH]; intros s Hw; cbn [r_resync_keys]; [by apply evolves_same|]. unfold r_sync_key.
    destruct (kn_get kn k) as [o| |]; [|by apply IH|by apply IH]. destruct (key_of keyf o) as [id|]; [|by apply evolves_same].
    destruct (at_key s id); [|by apply IH]. destruct (queue_action_values DtSync id o s Hw) as [_ Hw']. eapply evolves_trans; [by apply queue_action_evolves|by apply IH].
  Qed.
  Lemma put_new_evolves k ds s : rwf s → evolves s (r_put_if_absent k (length (r_heap s)) (r_alloc ds s)).
  Proof.
    intros [Hw1 Hw2]. unfold r_put_if_absent. simpl. destruct (decide _).
    - apply evolves_same; try done. simpl. rewrite app_length. lia.
    - split_and!; simpl; [done|rewrite app_length; lia| |].
      + intros k' r [[-> ->]|Hin]%elem_dset Hl; [lia|done].
      + intros k1 k2 r [[-> ->]|H1]%elem_dset [[-> E2]|H2]%elem_dset Hl; [done|..]; try (specialize (Hw1 _ _ H1)); try (specialize (Hw1 _ _ H2)); try lia.
  Qed.
  (** the calls that queue changes *)
  Definition queues (c : dop K O) : bool := match c with DAdd _ | DUpdate _ | DDelete _ _ | DReplace _ _ | DResync _ => true | _ => false end.
  Lemma queues_evolve s c : rwf s → queues c = true → evolves s (rcall_free keyf s c).1 ∧ ∃ x, (rcall_free keyf s c).2 = RRes x.
  Proof.
    intros Hw Hq. assert (Hp : rwf (r_set_populated s)) by done. pose proof (set_populated_evolves s Hw) as Hpe.
    destruct c as [o|o|kn o| | |o|k|kn l|kn| |out|ds| | |]; try done; cbn [rcall_free].
    - unfold r_add. destruct (key_of keyf o); simpl; [|by eauto]. split; [|by eauto]. eapply evolves_trans; [done|by apply queue_action_evolves].
    - unfold r_add. destruct (key_of keyf o); simpl; [|by eauto]. split; [|by eauto]. eapply evolves_trans; [done|by apply queue_action_evolves].
    - unfold r_delete. destruct (key_of keyf o); simpl; [|split; [by apply evolves_same|by eauto]]. destruct (match kn with None => _ | Some _ => _ end); simpl; [by eauto|].
      split; [|by eauto]. eapply evolves_trans; [done|by apply queue_action_evolves].
    - unfold r_replace. destruct (sync_all_evolves l s Hw) as [H1 H2]. destruct (r_sync_all keyf l s) as [s1 [o|]]; simpl in *; [by eauto|]. split; [|by eauto].
      destruct (delete_all_evolves (r_deletions kn (omap (key_of keyf) l) s1) s1 H2) as [H3 H4]. eapply evolves_trans; [done|]. eapply evolves_trans; [done|].
      unfold r_set_initial. destruct (r_populated _); by apply evolves_same.
    - destruct kn as [kn|]; simpl; [|split; [by apply evolves_same|by eauto]]. split; [by apply resync_evolves|].
      clear. generalize (kn_keys kn) as ks. intros ks. revert s. induction ks as [|k ks IH]; intros s; cbn [r_resync_keys]; [by eauto|]. destruct (r_sync_key keyf kn k s) as [s' [o|]]; [by eauto|apply IH].
  Qed.
  Notation event := (rop K O * rres K O)%type.
  Implicit Types h : list event.
  Definition gives (x : rres K O) (r : nat) : Prop := x = RMade r ∨ x = RPopped r ∨ x = RDeltas (Some r).
  Definition ends (x : rres K O) (r : nat) : Prop := x = RItem r ∨ x = RProcessError r.
  Definition hands (e : event) (r : nat) : Prop := e.1 = RPut r ∨ ∃ cause, e.1 = RCall (DFinish (DRequeue cause)) ∧ ends e.2 r.
  Lemma given_snoc h c x r : given (h ++ [(c, x)]) r ↔ given h r ∨ gives x r.
  Proof.
    split.
    - intros (c' & x' & [Hin|Hin%elem_of_list_singleton]%elem_of_app & Hx); [left; by exists c', x'|]. injection Hin as -> ->. by right.
    - intros [(c' & x' & Hin & Hx)|Hx]; [exists c', x'|exists c, x]; (split; [|done]); apply elem_of_app; [by left|right]. by apply elem_of_list_singleton.
  Qed.
  Lemma finished_snoc h c x r : finished (h ++ [(c, x)]) r ↔ finished h r ∨ ends x r.
  Proof.
    split.
    - intros (c' & x' & [Hin|Hin%elem_of_list_singleton]%elem_of_app & Hx); [left; by exists c', x'|]. injection Hin as -> ->. by right.
    - intros [(c' & x' & Hin & Hx)|Hx]; [exists c', x'|exists c, x]; (split; [|done]); apply elem_of_app; [by left|right]. by apply elem_of_list_singleton.
  Qed.
  Lemma handed_snoc h e r : handed h r ∨ hands e r → handed (h ++ [e]) r.
  Proof.
    intros [[(x & Hin)|(cause & x & Hin & Hx)]|Hh].
    - left. exists x. apply elem_of_app. by left.
    - right. exists cause, x. split; [|done]. apply elem_of_app. by left.
    - destruct e as [c x]. destruct Hh as [Hc|(cause & Hc & Hx)]; simpl in Hc; subst c; [left; exists x|right; exists cause, x; split; [|done]]; apply elem_of_app; right; by apply elem_of_list_singleton.
  Qed.
  Record J h s : Prop := {
    j_given k r : (k, r) ∈ r_items s → given h r → handed h r;
    j_bound r : given h r → r < length (r_heap s);
    j_end r : finished h r → given h r;
    j_busy k r : r_busy s = Some (k, r) → (∃ c, (c, RPopped r) ∈ h) ∧ (finished h r → handed h r);
    j_uniq k1 k2 r : (k1, r) ∈ r_items s → (k2, r) ∈ r_items s → k1 = k2 ∨ handed h r
  }.
  Lemma popped_app h c x r : (∃ c, (c, RPopped r) ∈ h) → ∃ c', (c', RPopped r) ∈ h ++ [(c, x)].
  Proof. intros [c' Hin]. exists c'. apply elem_of_app. by left. Qed.
  Lemma popped_given h r : (∃ c, (c, RPopped r) ∈ h) → given h r.
  Proof. intros [c Hin]. exists c, (RPopped r). split; [done|]. by right; left. Qed.
  Lemma J_evolves h s s' c x : J h s → evolves s s' → (∀ r, ¬ gives x r) → (∀ r, ¬ ends x r) → J (h ++ [(c, x)]) s'.
  Proof.
    intros [Ja Jb Je Ju Jn] (E1 & E2 & E3 & E4) Hg Hn. assert (Hgs : ∀ r, given (h ++ [(c, x)]) r ↔ given h r) by (intros r; rewrite given_snoc; naive_solver).
    assert (Hfs : ∀ r, finished (h ++ [(c, x)]) r ↔ finished h r) by (intros r; rewrite finished_snoc; naive_solver).
    assert (Hhs : ∀ r, handed h r → handed (h ++ [(c, x)]) r) by (intros r ?; apply handed_snoc; by left). split.
    - intros k r Hin Hr%Hgs. apply Hhs. eapply Ja; [|done]. apply E3; [done|by apply Jb].
    - intros r Hr%Hgs. specialize (Jb r Hr). lia.
    - intros r Hr%Hfs. by apply Hgs, Je.
    - intros k r Hb. rewrite E1 in Hb. destruct (Ju _ _ Hb) as [H1 H2]. split; [by apply popped_app|]. intros Hf%Hfs. by apply Hhs, H2.
    - intros k1 k2 r H1 H2. destruct (decide (r < length (r_heap s))) as [Hl|Hl].
      + destruct (Jn k1 k2 r) as [?|?]; [by apply E3|by apply E3|by left|right; by apply Hhs].
      + left. apply (E4 k1 k2 r); [done|done|lia].
  Qed.
  (** putting a list back *)
  Lemma J_put h s k r c x : J h s → r_busy s = None → hands (c, x) r → (∀ r', ¬ gives x r') → (∀ r', ends x r' → given h r') → J (h ++ [(c, x)]) (r_put_if_absent k r s).
  Proof.
    intros [Ja Jb Je Ju Jn] Hb Hh Hg Hn. assert (Hgs : ∀ r, given (h ++ [(c, x)]) r ↔ given h r) by (intros r'; rewrite given_snoc; naive_solver).
    assert (Hhs : ∀ r, handed h r → handed (h ++ [(c, x)]) r) by (intros r' ?; apply handed_snoc; by left).
    assert (Hr : handed (h ++ [(c, x)]) r) by (apply handed_snoc; by right).
    assert (Hin : ∀ k' r', (k', r') ∈ r_items (r_put_if_absent k r s) → r' = r ∨ (k', r') ∈ r_items s).
    { unfold r_put_if_absent. destruct (decide _); simpl; [by right|]. intros k' r' [[-> ->]|?]%elem_dset; [by left|by right]. }
    assert (Hl : r_heap (r_put_if_absent k r s) = r_heap s ∧ r_busy (r_put_if_absent k r s) = r_busy s) by (unfold r_put_if_absent; by destruct (decide _)). destruct Hl as [Hl1 Hl2]. split.
    - intros k' r' [->|Hi]%Hin Hg'%Hgs; [done|]. apply Hhs. by eapply Ja.
    - intros r' Hg'%Hgs. rewrite Hl1. by apply Jb.
    - intros r' [?|?]%finished_snoc; apply Hgs; [by apply Je|by apply Hn].
    - intros k' r'. by rewrite Hl2, Hb.
    - intros k1 k2 r' [->|H1]%Hin [E|H2]%Hin; [by right|by right|subst; by right|]. destruct (Jn k1 k2 r' H1 H2); [by left|right; by apply Hhs].
  Qed.
  Lemma J_alloc h s ds c r : J h s → rwf s → r = length (r_heap s) → J (h ++ [(c, RMade r)]) (r_alloc ds s) ∧ J (h ++ [(c, RDeltas (Some r))]) (r_alloc ds s).
  Proof.
    intros HJ [Hw1 Hw2] ->. assert (∀ x, (∀ r', gives x r' → r' = length (r_heap s)) → (∀ r', ¬ ends x r') → J (h ++ [(c, x)]) (r_alloc ds s)) as Hall.
    { intros x Hg Hn. destruct HJ as [Ja Jb Je Ju Jn]. assert (Hhs : ∀ r, handed h r → handed (h ++ [(c, x)]) r) by (intros r' ?; apply handed_snoc; by left). split; simpl.
      - intros k r Hin [Hr| ->%Hg]%given_snoc; [apply Hhs; by eapply Ja|]. specialize (Hw1 _ _ Hin). lia.
      - rewrite app_length. simpl. intros r [Hr%Jb| ->%Hg]%given_snoc; lia.
      - intros r [?|[]%Hn]%finished_snoc. apply given_snoc. left. by apply Je.
      - intros k r Hb. destruct (Ju _ _ Hb) as [H1 H2]. split; [by apply popped_app|]. intros [?|[]%Hn]%finished_snoc. by apply Hhs, H2.
      - intros k1 k2 r H1 H2. destruct (Jn k1 k2 r H1 H2); [by left|right; by apply Hhs]. }
    split; apply Hall; unfold gives, ends; naive_solver.
  Qed.
  Lemma J_step h s c s' x : J h s → rwf s → dwf (r_items s) → (∀ k r, (k, r) ∈ r_items s → contents s r ≠ []) → rstep s c = (s', x) → J (h ++ [(c, x)]) s'.
  Proof.
    intros HJ Hw Hd Hf Hs.
    assert (Hres : ∀ y s'', evolves s s'' → J (h ++ [(c, RRes y)]) s'') by (intros y s'' He; eapply J_evolves; [done|done|by intros ? [?|[?|?]]|by intros ? [?|?]]).
    assert (Hsame : evolves s s) by (by apply evolves_same).
    assert (Hget : ∀ k, r_get k s = (s', x) → J (h ++ [(c, x)]) s').
    { intros k E. unfold r_get in E. destruct (dget k (r_items s)) as [r|] eqn:Ek; [|simplify_eq; eapply J_evolves; [done|done|intros ? [?|[?|?]]; done|by intros ? [?|?]]].
      apply dget_elem_of in Ek. specialize (Hf _ _ Ek). destruct (contents s r) as [|d ds]; [done|]. simplify_eq. by apply J_alloc. }
    assert (Hput : ∀ h0 s0 r c0, J h0 s0 → rwf s0 → r_busy s0 = None → c0 = RPut r → r_put keyf r s0 = (s', x) → J (h0 ++ [(c0, x)]) s').
    { intros h0 s0 r c0 HJ0 Hw0 Hb0 -> E. unfold r_put in E.
      assert (Hsame0 : ∀ y, J (h0 ++ [(RPut r, RRes y)]) s0) by (intros y; eapply J_evolves; [done|by apply evolves_same|by intros ? [?|[?|?]]|by intros ? [?|?]]).
      destruct (last (contents s0 r)) as [d|]; [|by simplify_eq]. destruct (key_of keyf d.2) as [k|]; [|by simplify_eq]. simplify_eq.
      apply J_put; [done|done|by left|by intros ? [?|[?|?]]|by intros ? [?|?]]. }
    destruct c as [c|r|ds|r ds]; cbn [DeltaRef_model.rstep] in Hs.
    - assert (Hc : (s' = s ∧ x = RRes DLockWait) ∨ (rcall_free keyf s c = (s', x) ∧ (r_busy s = None ∨ needs_lock c = false))).
      { destruct (r_busy s); [destruct (needs_lock c) eqn:?; [left; by simplify_eq|right; by auto]|right; by auto]. }
      destruct Hc as [[-> ->]|[Hc Hb]]; [by apply Hres|].
      destruct (queues c) eqn:Eq.
      { destruct (queues_evolve s c Hw Eq) as [He [y Hy]]. rewrite Hc in He, Hy. simpl in *. subst x. by apply Hres. }
      destruct c as [o|o|kn o| | |o|k|kn l|kn| |out|ds| | |]; try done; cbn [rcall_free] in Hc.
      + rewrite (list_values s Hf) in Hc. simplify_eq. by apply Hres.
      + simplify_eq. by apply Hres.
      + destruct (key_of keyf o) as [k|]; [by eapply Hget|]. simplify_eq. by apply Hres.
      + by eapply Hget.
      + destruct Hb as [Hb|?]; [|done]. unfold r_pop in Hc. destruct (r_skip_stale (r_items s) (r_queue s) (r_count s)) as [[q n] [[k r]|]] eqn:Es; simplify_eq.
        * pose proof (skip_stale_in _ _ _ _ _ _ _ Es) as Hk. apply dget_elem_of in Hk. destruct HJ as [Ja Jb Je Ju Jn].
          assert (Hhs : ∀ r', handed h r' → handed (h ++ [(RCall DPop, RPopped r)]) r') by (intros r' ?; apply handed_snoc; by left). split; simpl.
          -- intros k' r' Hin. rewrite given_snoc. intros [Hg|[?|[E|?]]]; [|done| |done].
             ++ apply Hhs. eapply Ja; [|done]. by eapply elem_ddel.
             ++ injection E as <-. destruct (Jn k k' r) as [->|?]; [done|by eapply elem_ddel| |by apply Hhs].
                unfold ddel in Hin. apply elem_of_list_filter in Hin as [Hne _]. by simpl in Hne.
          -- intros r' [Hg|[?|[E|?]]]%given_snoc; [by apply Jb|done| |done]. injection E as <-. by eapply (proj1 Hw).
          -- intros r' [?|[?|?]]%finished_snoc; [|done|done]. apply given_snoc. left. by apply Je.
          -- intros k' r' [= <- <-]. split; [exists (RCall DPop); apply elem_of_app; right; by apply elem_of_list_singleton|].
             intros [Hfi|[?|?]]%finished_snoc; [|done|done]. apply Hhs. eapply Ja; [done|]. by apply Je.
          -- intros k1 k2 r' H1%elem_ddel H2%elem_ddel. destruct (Jn k1 k2 r' H1 H2); [by left|right; by apply Hhs].
        * apply Hres. by apply evolves_same.
      + unfold r_finish in Hc. destruct (r_busy s) as [[k r]|] eqn:Eb; [|simplify_eq; by apply Hres].
        destruct (j_busy _ _ HJ _ _ Eb) as [Hpop _]. pose proof (popped_given _ _ Hpop) as Hgr.
        set (s0 := RS (r_heap s) (r_items s) (r_queue s) (r_populated s) (r_count s) (r_closed s) None) in *.
        assert (HJ0 : J h s0) by (destruct HJ; split; done).
        assert (Hend : ∀ c y, ends y r → (∀ r', ¬ gives y r') → (∀ r', ends y r' → r' = r) → J (h ++ [(c, y)]) s0).
        { intros c0 y He Hg Hr. destruct HJ0 as [Ja Jb Je Ju Jn]. assert (Hgs : ∀ r, given (h ++ [(c0, y)]) r ↔ given h r) by (intros r'; rewrite given_snoc; naive_solver).
          assert (Hhs : ∀ r, handed h r → handed (h ++ [(c0, y)]) r) by (intros r' ?; apply handed_snoc; by left). split.
          - intros k' r' Hin Hg'%Hgs. apply Hhs. by eapply Ja.
          - intros r' Hg'%Hgs. by apply Jb.
          - intros r' [?| ->%Hr]%finished_snoc; apply Hgs; [by apply Je|done].
          - done.
          - intros k1 k2 r' H1 H2. destruct (Jn k1 k2 r' H1 H2); [by left|right; by apply Hhs]. }
        destruct out as [|cause| |]; simplify_eq.
        * apply Hend; [by left|by intros ? [?|[?|?]]|intros ? [?|?]; congruence].
        * apply J_put; [done|done| | |].
          -- right. exists cause. split; [done|]. destruct cause; [by right|by left].
          -- intros r' [?|[?|?]]; by destruct cause.
          -- intros r' [?|?]; destruct cause; naive_solver.
        * apply Hend; [by right|by intros ? [?|[?|?]]|intros ? [?|?]; congruence].
        * eapply J_evolves; [exact HJ0| |by intros ? [?|[?|?]]|by intros ? [?|?]]. apply evolves_same; try done. destruct Hw as [Hw1 Hw2]. by split.
      + assert (Ha : evolves s (r_alloc ds s)) by (apply evolves_same; try done; simpl; rewrite app_length; lia).
        unfold r_put in Hc. destruct (last _) as [d|]; [|simplify_eq; by apply Hres]. destruct (key_of keyf d.2) as [k|]; [|simplify_eq; by apply Hres].
        simplify_eq. apply Hres. by apply put_new_evolves.
      + simplify_eq. by apply Hres.
      + simplify_eq. apply Hres. by apply evolves_same.
      + simplify_eq. by apply Hres.
    - destruct (r_busy s) eqn:Eb; [simplify_eq; by apply Hres|]. by eapply Hput.
    - simplify_eq. by apply J_alloc.
    - simplify_eq. apply Hres. apply evolves_same; try done. simpl. by rewrite insert_length.
  Qed.
  Lemma polite_snoc h e : polite (h ++ [e]) → polite h.
  Proof. intros Hc h1 r ds x h2 ->. apply (Hc h1 r ds x (h2 ++ [e])). by rewrite <-app_assoc. Qed.
  Lemma polite_inv h s : exec rstep rst_init h s → polite h → careful keyf h ∧ J h s.
  Proof.
    revert s. induction h as [|[c x] h IH] using rev_ind; intros s.
    { intros <-%exec_nil_iff _. split; [intros h1 r ds x h2 E; by destruct h1|].
      split; simpl; try done; [by intros k r ?%elem_of_nil|by intros r (? & ? & ?%elem_of_nil & _)|by intros r (? & ? & ?%elem_of_nil & _)|by intros k1 k2 r ?%elem_of_nil]. }
    intros (m & Hm & Hs)%exec_snoc Hp. destruct (IH m Hm (polite_snoc _ _ Hp)) as [Hc HJ]. destruct (careful_values h m Hm Hc) as [He Hw]. destruct (values_full _ _ He) as [Hd Hf]. split.
    - intros h1 r ds y h2 E m1 Hm1. destruct h2 as [|e2 h2 _] using rev_ind.
      + apply app_inj_tail in E as [<- [= -> ->]]. rewrite (exec_det _ _ _ _ _ Hm1 Hm). clear Hm1. destruct (Hp h r ds y [] eq_refl) as (Hg & Hn & Hpo).
        intros [[k Hk]|[k Hk]]; [apply Hn; eapply (j_given _ _ HJ); [by apply dget_elem_of|done]|].
        destruct (j_busy _ _ HJ _ _ Hk) as [H1 H2]. by apply Hn, H2, Hpo.
      + rewrite app_comm_cons, app_assoc in E. apply app_inj_tail in E as [-> _]. by eapply (Hc h1 r ds y h2).
    - by eapply J_step.
  Qed.
  Lemma polite_careful h s : exec rstep rst_init h s → polite h → careful keyf h.
  Proof. intros He Hp. by apply (polite_inv h s). Qed.
  Lemma polite_values h s : exec rstep rst_init h s → polite h → exec dstep dfifo_init (read keyf rst_init h) (values s).
  Proof. intros He Hp. eapply careful_values; [done|]. by eapply polite_careful. Qed.

  (** ** The queue's own lists *)
  Lemma rwf_free s c : rwf s → r_busy s = None ∨ needs_lock c = false → rwf (rcall_free keyf s c).1 ∧ length (r_heap s) <= length (r_heap (rcall_free keyf s c).1) ∧
    ∀ r, gives (rcall_free keyf s c).2 r → r < length (r_heap (rcall_free keyf s c).1).
  Proof.
    intros Hw Hb. destruct (queues c) eqn:Eq.
    { destruct (queues_evolve s c Hw Eq) as [(_ & Hl & _) [y Hy]]. rewrite Hy. split; [|split; [done|by intros r [?|[?|?]]]].
      destruct c as [o|o|kn o| | |o|k|kn l|kn| |out|ds| | |]; try done; cbn [rcall_free].
      - pose proof (add_values DtAdded o s Hw) as H. destruct (r_add keyf DtAdded o s). apply H.
      - pose proof (add_values DtUpdated o s Hw) as H. destruct (r_add keyf DtUpdated o s). apply H.
      - pose proof (delete_values kn o s Hw) as H. destruct (r_delete keyf kn o s). apply H.
      - pose proof (replace_values kn l s Hw) as H. destruct (r_replace keyf kn l s). apply H.
      - destruct kn as [kn|]; [|done]. pose proof (resync_values kn (kn_keys kn) s false Hw) as H. destruct (r_resync_keys keyf kn (kn_keys kn) s). apply H. }
    assert (Hget : ∀ k, rwf (r_get k s).1 ∧ length (r_heap s) <= length (r_heap (r_get k s).1) ∧ ∀ r, gives (r_get k s).2 r → r < length (r_heap (r_get k s).1)).
    { intros k. pose proof (get_values k s Hw) as H. unfold r_get in *. destruct (dget k (r_items s)) as [r|] eqn:Ek; [|split; [done|split; [done|by intros r [?|[?|?]]]]].
      destruct (contents s r); [split; [done|split; [done|intros r' [?|[?|[= <-]]]; [done|done|]]]; eapply (proj1 Hw); by apply dget_elem_of|].
      simpl in *. split; [apply H|]. rewrite app_length; simpl. split; [lia|]. intros r' [?|[?|[= <-]]]; [done|done|lia]. }
    destruct c as [o|o|kn o| | |o|k|kn l|kn| |out|ds| | |]; try done; cbn [rcall_free].
    - unfold r_list. destruct (mapM _ _); (split; [done|split; [done|by intros r [?|[?|?]]]]).
    - split; [done|split; [done|by intros r [?|[?|?]]]].
    - destruct (key_of keyf o); [done|]. split; [done|split; [done|by intros r [?|[?|?]]]].
    - done.
    - destruct Hb as [Hb|?]; [|done]. pose proof (pop_values s Hw Hb) as H. unfold r_pop in *.
      destruct (r_skip_stale (r_items s) (r_queue s) (r_count s)) as [[q n] [[k r]|]] eqn:Es; simpl in *; (split; [apply H|split; [done|]]); intros r' [?|[E|?]]; try done.
      injection E as <-. eapply (proj1 Hw). apply dget_elem_of. by eapply skip_stale_in.
    - pose proof (finish_values out s Hw) as H. unfold r_finish in *. destruct (r_busy s) as [[k r]|]; [|split; [done|split; [done|by intros r [?|[?|?]]]]].
      destruct out as [|cause| |]; try (split; [apply H|split; [done|by intros r' [?|[?|?]]]]).
      simpl in *. split; [apply H|]. unfold r_put_if_absent. destruct (decide _); simpl; (split; [done|]); destruct cause; by intros r' [?|[?|?]].
    - destruct (alloc_values ds s Hw) as [_ Hw']. pose proof (put_values (length (r_heap s)) (r_alloc ds s) Hw') as H. unfold r_put in *.
      destruct (last _) as [d|]; [|simpl in *; split; [apply H|split; [rewrite app_length; lia|by intros r' [?|[?|?]]]]].
      destruct (key_of keyf d.2) as [k|]; [|simpl in *; split; [apply H|split; [rewrite app_length; lia|by intros r' [?|[?|?]]]]].
      simpl in *. split; [apply H|]. unfold r_put_if_absent. destruct (decide _); simpl; (split; [rewrite app_length; lia|by intros r' [?|[?|?]]]).
    - split; [done|split; [done|by intros r [?|[?|?]]]].
    - split; [done|split; [done|by intros r [?|[?|?]]]].
    - split; [done|split; [done|by intros r [?|[?|?]]]].
  Qed.
  Lemma rwf_step s c : rwf s → rwf (rstep s c).1 ∧ length (r_heap s) <= length (r_heap (rstep s c).1) ∧ ∀ r, gives (rstep s c).2 r → r < length (r_heap (rstep s c).1).
  Proof.
    intros Hw. destruct c as [c|r|ds|r ds]; cbn [DeltaRef_model.rstep].
    - destruct (r_busy s) eqn:Eb; [destruct (needs_lock c) eqn:En|]; [split; [done|split; [done|by intros r [?|[?|?]]]]|apply rwf_free; auto|apply rwf_free; auto].
    - destruct (r_busy s); [split; [done|split; [done|by intros r' [?|[?|?]]]]|]. pose proof (put_values r s Hw) as H. unfold r_put in *.
      destruct (last _) as [d|]; [|split; [done|split; [done|by intros r' [?|[?|?]]]]]. destruct (key_of keyf d.2) as [k|]; [|split; [done|split; [done|by intros r' [?|[?|?]]]]].
      simpl in *. split; [apply H|]. unfold r_put_if_absent. destruct (decide _); simpl; (split; [done|by intros r' [?|[?|?]]]).
    - simpl. split; [by apply alloc_values|]. rewrite app_length. simpl. split; [lia|]. intros r [[= <-]|[?|?]]; [lia|done|done].
    - simpl. split; [split; simpl; rewrite insert_length; apply Hw|]. rewrite insert_length. split; [done|by intros r' [?|[?|?]]].
  Qed.
  Lemma given_bound h s : exec rstep rst_init h s → rwf s ∧ ∀ r, given h r → r < length (r_heap s).
  Proof.
    revert s. induction h as [|[c x] h IH] using rev_ind; intros s.
    { intros <-%exec_nil_iff. split; [split; [by intros ? ? ?%elem_of_nil|done]|]. by intros r (? & ? & ?%elem_of_nil & _). }
    intros (m & Hm & Hs)%exec_snoc. destruct (IH m Hm) as [Hw Hb]. destruct (rwf_step m c Hw) as (H1 & H2 & H3). rewrite Hs in H1, H2, H3. simpl in *. split; [done|].
    intros r [Hr%Hb|Hr]%given_snoc; [lia|by apply H3].
  Qed.
  Lemma shows_eq s k : rwf s → shows keyf s k = DDeltas (contents s <$> dget k (r_items s)).
  Proof.
    intros Hw. unfold shows. assert (rstep s (RCall (DGetByKey k)) = r_get k s) as -> by (simpl; by destruct (r_busy s)).
    pose proof (get_values k s Hw) as H. destruct (r_get k s) as [s' x]. destruct H as (_ & <- & _). by rewrite values_dget.
  Qed.
  Lemma queue_action_new t k o s : rwf s → t ≠ DtSync → dget k (r_items (r_queue_action t k o s)) = Some (length (r_heap s)) ∨ dget k (r_items (r_queue_action t k o s)) = None.
  Proof.
    intros Hw Ht. unfold r_queue_action. rewrite bool_decide_eq_false_2 by done. simpl. destruct (dedup_deltas _); simpl; [right; by apply dget_ddel_eq|left; by apply dget_dset_eq].
  Qed.
  Lemma own_list h s c o k : exec rstep rst_init h s → c = DAdd o ∨ c = DUpdate o → key_of keyf o = Some k → (rstep s (RCall c)).2 ≠ RRes DLockWait →
    ∀ r ds, given h r → shows keyf (rstep (rstep s (RCall c)).1 (REdit r ds)).1 k = shows keyf (rstep s (RCall c)).1 k.
  Proof.
    intros He Hc Hk Hl r ds Hr. destruct (given_bound h s He) as [Hw Hb]. specialize (Hb r Hr). destruct (rwf_step s (RCall c) Hw) as [Hw1 _].
    destruct (rwf_step (rstep s (RCall c)).1 (REdit r ds) Hw1) as [Hw2 _]. rewrite (shows_eq _ k Hw1), (shows_eq _ k Hw2).
    assert (∃ t, t ≠ DtSync ∧ (rstep s (RCall c)).1 = r_queue_action t k o (r_set_populated s)) as (t & Ht & E).
    { cbn [DeltaRef_model.rstep] in *. destruct (r_busy s); [destruct Hc as [->| ->]; done|]. destruct Hc as [->| ->]; cbn [rcall_free]; unfold r_add; rewrite Hk; [by exists DtAdded|by exists DtUpdated]. }
    rewrite E. simpl. destruct (queue_action_new t k o (r_set_populated s)) as [-> | ->]; [done|done| |done].
    simpl. unfold contents. simpl. rewrite list_lookup_insert_ne; [done|]. lia.
  Qed.
End ref.

(** ** Concrete runs: objects are numbers, the key of n is n *)
Definition rkey (n : nat) : option nat := Some n.
Definition ro (n : nat) : dobj nat nat := DObj n.
(** the callback empties its list and asks for a requeue *)
Definition emptied : list (rop nat nat) := [RCall (DAdd (ro 1)); RCall DPop; REdit 0 []; RCall (DFinish (DRequeue false))].
Lemma emptied_refuted : ∃ h s, h.*1 = emptied ∧ exec (rstep rkey) rst_init h s ∧ given (take 2 h) 0 ∧
  (rstep rkey s (RCall DListKeys)).2 = RRes (DKeys [1]) ∧ (rstep rkey s (RCall DList)).2 = RRes DAttributeError ∧ shows rkey s 1 = DDeltas (Some []) ∧
  (let '(s', x) := rstep rkey s (RCall DPop) in answer_value s' x) = DPopped [].
Proof.
  eexists _, _. split; [|split; [apply (run_exec (rstep rkey) rst_init emptied)|]]; [done|]. split; [|done].
  exists (RCall DPop), (RPopped 0). split; [vm_compute; by right; left|by right; left].
Qed.
(** a list is changed after it was given to add_if_not_present *)
Definition changed : list (rop nat nat) := [RNew [(DtAdded, ro 1)]; RPut 0; REdit 0 [(DtAdded, ro 2)]].
Lemma changed_refuted : ∃ h s, h.*1 = changed ∧ exec (rstep rkey) rst_init h s ∧ given (take 1 h) 0 ∧
  (rstep rkey s (RCall DListKeys)).2 = RRes (DKeys [1]) ∧ shows rkey s 1 = DDeltas (Some [(DtAdded, ro 2)]).
Proof.
  eexists _, _. split; [|split; [apply (run_exec (rstep rkey) rst_init changed)|]]; [done|]. split; [|done].
  exists (RNew [(DtAdded, ro 1)]), (RMade 0). split; [vm_compute; by left|by left].
Qed.
(** a polite program that changes lists *)
Definition politely : list (rop nat nat) :=
  [RNew []; REdit 0 [(DtAdded, ro 1)]; RPut 0; RCall (DUpdate (ro 1)); RCall (DGetByKey 1); REdit 2 []; RCall DPop; RCall (DFinish DOk); REdit 1 []].
Lemma politely_case : ∃ h s, h.*1 = politely ∧ exec (rstep rkey) rst_init h s ∧ polite h ∧
  read rkey rst_init h = [(DAddIfNotPresent [(DtAdded, ro 1)], DNone); (DUpdate (ro 1), DNone); (DGetByKey 1, DDeltas (Some [(DtAdded, ro 1); (DtUpdated, ro 1)]));
    (DPop, DPopped [(DtAdded, ro 1); (DtUpdated, ro 1)]); (DFinish DOk, DItem [(DtAdded, ro 1); (DtUpdated, ro 1)])].
Proof.
  eexists _, _. split; [|split; [apply (run_exec (rstep rkey) rst_init politely)|]]; [done|]. split; [|done].
  assert (Hrun : (run (rstep rkey) rst_init politely).2 = [(RNew [], RMade 0); (REdit 0 [(DtAdded, ro 1)], RRes DNone); (RPut 0, RRes DNone); (RCall (DUpdate (ro 1)), RRes DNone);
    (RCall (DGetByKey 1), RDeltas (Some 2)); (REdit 2 [], RRes DNone); (RCall DPop, RPopped 1); (RCall (DFinish DOk), RItem 1); (REdit 1 [], RRes DNone)]) by (vm_compute; reflexivity).
  rewrite Hrun. intros h1 r ds x h2 E.
  Local Ltac look H := repeat (apply elem_of_cons in H as [H|H]; [by simplify_eq/=|]); by apply elem_of_nil in H.
  do 9 (try (destruct h1 as [|? h1]; simplify_eq/=)); try (by destruct h1).
  - split; [exists (RNew []), (RMade 0); split; [by left|by left]|]. split.
    + intros [[x Hx]|(cause & x & Hx & _)]; look Hx.
    + intros [c Hx]; look Hx.
  - split; [exists (RCall (DGetByKey 1)), (RDeltas (Some 2)); split; [do 4 right; by left|by right; right]|]. split.
    + intros [[x Hx]|(cause & x & Hx & _)]; look Hx.
    + intros [c Hx]; look Hx.
  - split; [exists (RCall DPop), (RPopped 1); split; [do 6 right; by left|by right; left]|]. split.
    + intros [[x Hx]|(cause & x & Hx & _)]; look Hx.
    + intros _. exists (RCall (DFinish DOk)), (RItem 1). split; [do 7 right; by left|by left].
Qed.
