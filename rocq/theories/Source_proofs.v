From Verif Require Import Base KeyFunc_model KeyFunc_spec KeyFunc_proofs DeltaFifo_model Store_model Informer_model SharedInformer_model Source_model Source_spec.
From Coq Require Import Strings.String.
From stdpp Require Import strings.
Local Open Scope nat_scope.

Lemma accessor_meta o : is_Some (accessor o) ↔ has_meta o.
Proof.
  unfold has_meta. split.
  - intros [m Hm]. destruct o as [|[]|[]| |]; simplify_eq/=; eauto.
  - intros [(m & x & ->)|(d & x & ->)]; by eexists.
Qed.
Lemma gate_accepts ps e : (∀ p, p ∈ ps → p e = PTrue) → o_asked (gate ps e) = replicate (length ps) e ∧ o_handled (gate ps e) = Some e ∧
  o_adds (gate ps e) = (enqueue e).1 ∧ o_raised (gate ps e) = (enqueue e).2.
Proof.
  induction ps as [|p ps IH]; intros Hp; simpl; [by destruct (enqueue e)|]. rewrite (Hp p) by (by left).
  destruct IH as (H1&H2&H3&H4); [intros q Hq; apply Hp; by right|]. simpl. by rewrite H1.
Qed.
Lemma gate_refuses ps1 p ps2 e : (∀ q, q ∈ ps1 → q e = PTrue) → p e ≠ PTrue →
  gate (ps1 ++ p :: ps2) e = Outcome (replicate (S (length ps1)) e) None [] (match p e with PRaise => true | _ => false end).
Proof.
  intros Hp Hn. induction ps1 as [|q ps1 IH]; simpl.
  - by destruct (p e).
  - rewrite (Hp q) by (by left). rewrite IH by (intros q' Hq'; apply Hp; by right). done.
Qed.
Lemma gate_handled ps e e' : o_handled (gate ps e) = Some e' ↔ e = e' ∧ ∀ p, p ∈ ps → p e = PTrue.
Proof.
  split.
  - induction ps as [|p ps IH]; simpl.
    + destruct (enqueue e). intros [= ->]. split; [done|]. by intros ? ?%elem_of_nil.
    + destruct (p e) eqn:Hp; simpl; try done. intros [-> H]%IH. split; [done|]. intros q [->|Hq]%elem_of_cons; [done|by apply H].
  - intros [<- H]. by apply gate_accepts.
Qed.
Lemma on_notif_event ps n : (∃ e, event_of n e ∧ on_notif ps n = gate ps e) ∨ ((∀ e, ¬ event_of n e) ∧ on_notif ps n = dropped).
Proof.
  assert (∀ k (o : option (dobj pystr pyobj)), accessor (as_object (DTomb k o)) = None) as Ht by (by intros k [|]).
  destruct n as [[o|k o] b|[o1|k1 o1] [o2|k2 o2] b|[o|k o]]; unfold on_notif, on_add, on_update, on_delete; simpl; try (rewrite (Ht k o)); try rewrite (Ht k1 o1); try rewrite (Ht k2 o2).
  - destruct (accessor o) as [m|] eqn:E; [left|right]; [eexists; split; [by constructor|done]|]. split; [|done]. intros e He. inversion He; congruence.
  - right. split; [|by destruct o]. intros e He. by inversion He.
  - destruct (accessor o1) as [m1|] eqn:E1; [destruct (accessor o2) as [m2|] eqn:E2; [left|right]|right].
    + eexists; split; [by constructor|done].
    + split; [|done]. intros e He. inversion He; congruence.
    + split; [|done]. intros e He. inversion He; congruence.
  - right. split; [intros e He; by inversion He|]. destruct (accessor o1); [by destruct o2|done].
  - right. split; [intros e He; by inversion He|]. by destruct o1.
  - right. split; [intros e He; by inversion He|]. by destruct o1.
  - destruct (accessor o) as [m|] eqn:E; [left|right]; [eexists; split; [by constructor|done]|]. split; [|done]. intros e He. inversion He; congruence.
  - right. split; [|by destruct o]. intros e He. by inversion He.
Qed.
Lemma event_of_fun n e e' : event_of n e → event_of n e' → e = e'.
Proof. intros H1 H2. inversion H1; subst; inversion H2; subst; congruence. Qed.
Lemma event_of_meta n : (∃ e, event_of n e) ↔ ∀ o, o ∈ objects n → ∃ o', o = DObj o' ∧ has_meta o'.
Proof.
  split.
  - intros [e He] o Ho. destruct He as [o1 m b Hm|o1 m1 o2 m2 b Hm1 Hm2|o1 m Hm]; simpl in Ho.
    + apply elem_of_list_singleton in Ho as ->. eexists. split; [done|]. apply accessor_meta. by eexists.
    + apply elem_of_cons in Ho as [->|Ho%elem_of_list_singleton]; [|subst]; (eexists; split; [done|]; apply accessor_meta; by eexists).
    + apply elem_of_list_singleton in Ho as ->. eexists. split; [done|]. apply accessor_meta. by eexists.
  - intros H. destruct n as [o b|o1 o2 b|o].
    + destruct (H o) as (o'&->&[m Hm]%accessor_meta); [by left|]. eexists. by constructor.
    + destruct (H o1) as (o'&->&[m Hm]%accessor_meta); [by left|]. destruct (H o2) as (o''&->&[m' Hm']%accessor_meta); [right; by left|]. eexists. by constructor.
    + destruct (H o) as (o'&->&[m Hm]%accessor_meta); [by left|]. eexists. by constructor.
Qed.

(** C66 *)
Lemma reaches_iff ps n e : o_handled (on_notif ps n) = Some e ↔ event_of n e ∧ ∀ p, p ∈ ps → p e = PTrue.
Proof.
  destruct (on_notif_event ps n) as [(e0&He&->)|[Hn ->]].
  - rewrite gate_handled. split; [intros [-> ?]; by split|]. intros [H1 H2]. by rewrite (event_of_fun _ _ _ He H1).
  - split; [done|]. by intros [?%Hn ?].
Qed.
Lemma asked_all ps n e : event_of n e → (∀ p, p ∈ ps → p e = PTrue) → o_asked (on_notif ps n) = replicate (length ps) e.
Proof.
  intros He Hp. destruct (on_notif_event ps n) as [(e0&He0&->)|[Hn _]]; [|by apply Hn in He].
  rewrite (event_of_fun _ _ _ He0 He). by apply gate_accepts.
Qed.
Lemma asked_until ps1 p ps2 n e : event_of n e → (∀ q, q ∈ ps1 → q e = PTrue) → p e ≠ PTrue →
  on_notif (ps1 ++ p :: ps2) n = Outcome (replicate (S (length ps1)) e) None [] (match p e with PRaise => true | _ => false end).
Proof.
  intros He Hp Hn. destruct (on_notif_event (ps1 ++ p :: ps2) n) as [(e0&He0&->)|[Hn' _]]; [|by apply Hn' in He].
  rewrite (event_of_fun _ _ _ He0 He). by apply gate_refuses.
Qed.
Lemma no_meta_dropped ps n : (∃ o, o ∈ objects n ∧ ∀ o', o = DObj o' → ¬ has_meta o') → on_notif ps n = Outcome [] None [] false.
Proof.
  intros (o&Ho&Hm). destruct (on_notif_event ps n) as [(e&He&_)|[_ ->]]; [|done].
  assert (∃ e, event_of n e) as Hex by eauto. rewrite event_of_meta in Hex. destruct (Hex o Ho) as (o'&->&H). by apply Hm in H.
Qed.

(** C64, C65: requests *)
Lemma named_request o ns name : named o ns name → ∃ m, accessor o = Some m ∧ request m = Some (NsName ns name).
Proof.
  intros [(x&->)|(d&x&->&H1&H2)]; eexists; (split; [done|]); [done|]. unfold request. simpl. by rewrite H2, H1.
Qed.
Lemma create_enqueues ps o ns name b : named o ns name → (∀ p e, p ∈ ps → p e = PTrue) →
  let r := on_notif ps (NAdd (DObj o) b) in o_adds r = [NsName ns name] ∧ o_raised r = false.
Proof.
  intros (m&Hm&Hr)%named_request Hp. simpl. unfold on_add. rewrite Hm.
  destruct (gate_accepts ps (CreateEvent m o)) as (_&_&->&->); [auto|]. simpl. unfold enqueue_one. by rewrite Hr.
Qed.
Lemma update_enqueues ps o1 ns1 name1 o2 ns2 name2 b : named o1 ns1 name1 → named o2 ns2 name2 → (∀ p e, p ∈ ps → p e = PTrue) →
  let r := on_notif ps (NUpdate (DObj o1) (DObj o2) b) in o_adds r = [NsName ns1 name1; NsName ns2 name2] ∧ o_raised r = false.
Proof.
  intros (m1&Hm1&Hr1)%named_request (m2&Hm2&Hr2)%named_request Hp. simpl. unfold on_update. rewrite Hm1, Hm2.
  destruct (gate_accepts ps (UpdateEvent m1 o1 m2 o2)) as (_&_&->&->); [auto|]. simpl. unfold enqueue_one. by rewrite Hr1, Hr2.
Qed.
Lemma delete_enqueues ps o ns name : named o ns name → (∀ p e, p ∈ ps → p e = PTrue) →
  let r := on_notif ps (NDelete (DObj o)) in o_adds r = [NsName ns name] ∧ o_raised r = false.
Proof.
  intros (m&Hm&Hr)%named_request Hp. simpl. unfold on_delete. rewrite Hm.
  destruct (gate_accepts ps (DeleteEvent m o)) as (_&_&->&->); [auto|]. simpl. unfold enqueue_one. by rewrite Hr.
Qed.
(** objects without a name or namespace *)
Lemma nameless_request o m : accessor o = Some m → (∀ ns name, ¬ named o ns name) → request m = None.
Proof.
  intros Ha Hn. unfold request. destruct (meta_name m) as [name|] eqn:E1; [|done]. destruct (meta_namespace m) as [ns|] eqn:E2; [|done]. destruct (Hn ns name).
  destruct o as [|[m0|] x|[d|] x| |]; simplify_eq/=; [left; exists x|right; by exists d, x]. destruct m0 as [[ns' name']|]; by simplify_eq/=.
Qed.
Lemma nameless_raises ps n e l1 o l2 rs : event_of n e → (∀ p, p ∈ ps → p e = PTrue) → objects n = l1 ++ o :: l2 → nameless o →
  Forall2 (λ o r, ∃ o', o = DObj o' ∧ named o' (nn_namespace r) (nn_name r)) l1 rs → o_adds (on_notif ps n) = rs ∧ o_raised (on_notif ps n) = true.
Proof.
  intros He Hp Ho Hn Hl. destruct (on_notif_event ps n) as [(e0&He0&->)|[Hno _]]; [|by apply Hno in He]. rewrite (event_of_fun _ _ _ He0 He). clear He0 e0.
  destruct (gate_accepts ps e Hp) as (_&_&->&->). destruct He as [o1 m b Hm|o1 m1 o2 m2 b Hm1 Hm2|o1 m Hm]; simpl in Ho |- *.
  - destruct l1 as [|? [|]]; simplify_eq/=. inversion Hl; subst. unfold enqueue_one. rewrite (nameless_request _ _ Hm); [done|]. intros ns name. by apply Hn.
  - destruct l1 as [|x1 [|x2 [|]]]; simplify_eq/=.
    + inversion Hl; subst. unfold enqueue_one. rewrite (nameless_request _ _ Hm1); [done|]. intros ns name. by apply Hn.
    + inversion Hl as [|? r ? rs' (o'&Ho'&Hr) Hnil]; subst. inversion Hnil; subst. injection Ho' as <-. apply named_request in Hr as (m'&Hm'&Hr). rewrite Hm1 in Hm'. injection Hm' as <-.
      unfold enqueue_one. rewrite Hr, (nameless_request _ _ Hm2); [by destruct r|]. intros ns name. by apply Hn.
  - destruct l1 as [|? [|]]; simplify_eq/=. inversion Hl; subst. unfold enqueue_one. rewrite (nameless_request _ _ Hm); [done|]. intros ns name. by apply Hn.
Qed.
Definition bare : pyobj := Unstructured (Some []) ""%string.
Lemma nameless_case : nameless (DObj bare) ∧ o_adds (on_notif [] (NUpdate (DObj (Typed (Some (Some (Some "ns", Some "a"))) "")) (DObj bare) false)) = [NsName (Some "ns") (Some "a")]%string ∧
  o_raised (on_notif [] (NUpdate (DObj (Typed (Some (Some (Some "ns", Some "a"))) "")) (DObj bare) false)) = true.
Proof. split; [|done]. intros o' ns name [= <-] [(x&?)|(d&x&[= <- <-]&?&?)]; done. Qed.
Lemma tomb_dropped ps k o : on_notif ps (NDelete (DTomb k o)) = Outcome [] None [] false.
Proof. by destruct o. Qed.

(** where deletions come from *)
Section deltas.
  Context {K O V N : Type} `{EqDecision K} `{EqDecision V} `{EqDecision N} (keyf : O → option K) (second dflt : Z).
  Notation delta := (delta K O).
  Notation dfifo := (dfifo K O).
  Implicit Types (G : delta → Prop) (q : dfifo).

  Definition okq G q : Prop := (∀ k ds, dget k (d_items q) = Some ds → Forall G ds) ∧ (∀ k ds, d_busy q = Some (k, ds) → Forall G ds).
  Lemma dedup_sub (ds : list delta) : ∀ d, d ∈ dedup_deltas ds → d ∈ ds.
  Proof.
    intros d. unfold dedup_deltas. destruct (reverse ds) as [|a [|b rest]] eqn:E; try done.
    assert (ds = reverse rest ++ [b; a]) as ->. { rewrite <-(reverse_involutive ds), E, !reverse_cons, <-app_assoc. done. }
    unfold is_dup. destruct (decide _); [|done]. rewrite !elem_of_app, !elem_of_cons. destruct (is_tomb b.2); naive_solver.
  Qed.
  Lemma queue_action_ok G t k o q : okq G q → G (t, o) → okq G (queue_action t k o q).1.
  Proof.
    intros [H1 H2] Hg. unfold queue_action. destruct (_ && _); [done|].
    assert (Forall G (dedup_deltas (default [] (dget k (d_items q)) ++ [(t, o)]))) as Hf.
    { apply Forall_forall. intros d Hd%dedup_sub. apply elem_of_app in Hd as [Hd|Hd%elem_of_list_singleton]; [|by subst].
      destruct (dget k (d_items q)) as [ds|] eqn:E; simpl in Hd; [|by apply elem_of_nil in Hd]. specialize (H1 _ _ E). rewrite Forall_forall in H1. by apply H1. }
    destruct (dedup_deltas _) eqn:E; split; simpl; try done.
    - intros k' ds. rewrite dget_ddel. destruct (decide _); [done|]. apply H1.
    - intros k' ds. rewrite dget_dset. destruct (decide _); [by intros [= <-]|]. apply H1.
  Qed.
  Lemma sync_all_ok G l q n : (∀ o, G (DtSync, o)) → okq G q → okq G (sync_all keyf l q n).1.1.
  Proof.
    intros Hs. revert q n. induction l as [|o l IH]; intros q n Hq; simpl; [done|]. destruct (key_of keyf o); [|done].
    destruct (queue_action _ _ _ _) as [q' n'] eqn:E. apply IH. replace q' with (queue_action DtSync k o q).1 by (by rewrite E). by apply queue_action_ok.
  Qed.
  Lemma delete_all_ok G l q n : (∀ k o, G (DtDeleted, DTomb k o)) → okq G q → okq G (delete_all l q n).1.
  Proof.
    intros Hs. revert q n. induction l as [|[k o] l IH]; intros q n Hq; simpl; [done|].
    destruct (queue_action _ _ _ _) as [q' n'] eqn:E. apply IH. replace q' with (queue_action DtDeleted k (DTomb k o) q).1 by (by rewrite E). by apply queue_action_ok.
  Qed.
  Lemma resync_ok G kn ks q n : (∀ o, G (DtSync, o)) → okq G q → okq G (resync_keys keyf kn ks q n).1.1.
  Proof.
    intros Hs. revert q n. induction ks as [|k ks IH]; intros q n Hq; simpl; [done|].
    assert (okq G (sync_key keyf kn k q).1.1) as Hk.
    { unfold sync_key. destruct (kn_get kn k); [|done..]. destruct (key_of keyf o); [|done].
      destruct (dget k0 (d_items q)) as [[|]|]; simpl; try done; destruct (queue_action _ _ _ _) as [q' n'] eqn:E; simpl;
        (replace q' with (queue_action DtSync k0 o q).1 by (by rewrite E)); by apply queue_action_ok. }
    destruct (sync_key keyf kn k q) as [[q' n'] [o|]]; simpl in *; [done|by apply IH].
  Qed.
  Definition call_ok G (c : dop K O) : Prop :=
    match c with
    | DAdd o => G (DtAdded, o) | DUpdate o => G (DtUpdated, o) | DDelete _ o => G (DtDeleted, o)
    | DAddIfNotPresent ds => Forall G ds | _ => True
    end.
  Lemma skip_stale_found (items : dict K (list delta)) queue n queue' n' k ds : skip_stale items queue n = (queue', n', Some (k, ds)) → dget k items = Some ds.
  Proof.
    revert n. induction queue as [|k' queue IH]; intros n; simpl; [done|]. destruct (dget k' items) eqn:E; [|apply IH]. by intros [= _ _ <- <-].
  Qed.
  Lemma put_ok G k ds q : Forall G ds → okq G q → okq G (put_if_absent k ds q).1.
  Proof.
    intros Hd [H1 H2]. unfold put_if_absent. destruct (decide _); [done|]. split; simpl; [|done]. intros k' ds'. rewrite dget_dset. destruct (decide _); [by intros [= <-]|apply H1].
  Qed.
  Lemma dstep_ok G q c : (∀ o, G (DtSync, o)) → (∀ k o, G (DtDeleted, DTomb k o)) → call_ok G c → okq G q →
    okq G (dstep keyf q c).1 ∧ ∀ ds, (dstep keyf q c).2 = DPopped ds → Forall G ds.
  Proof.
    intros Hs Hd Hc Hq. pose proof Hq as [H1 H2].
    assert (okq G (dcall_free keyf q c).1.1 ∧ ∀ ds, (dcall_free keyf q c).1.2 = DPopped ds → Forall G ds) as Hf.
    { destruct c as [o|o|kn o| | |o|k|kn l|kn| |out|ds| | |]; simpl in *; try done.
      - unfold df_add. destruct (key_of keyf o); [|done]. destruct (queue_action _ _ _ _) as [q' n'] eqn:E. simpl. split; [|done].
        replace q' with (queue_action DtAdded k o (set_populated q)).1 by (by rewrite E). by apply queue_action_ok.
      - unfold df_add. destruct (key_of keyf o); [|done]. destruct (queue_action _ _ _ _) as [q' n'] eqn:E. simpl. split; [|done].
        replace q' with (queue_action DtUpdated k o (set_populated q)).1 by (by rewrite E). by apply queue_action_ok.
      - unfold df_delete. destruct (key_of keyf o); [|done]. destruct (match kn with Some _ => _ | None => _ end); [done|]. destruct (queue_action _ _ _ _) as [q' n'] eqn:E. simpl. split; [|done].
        replace q' with (queue_action DtDeleted k o (set_populated q)).1 by (by rewrite E). by apply queue_action_ok.
      - by destruct (key_of keyf o).
      - unfold df_replace. pose proof (sync_all_ok G l q false Hs Hq) as Hsa. destruct (sync_all keyf l q false) as [[q1 n1] [o|]]; simpl in *; [done|].
        pose proof (delete_all_ok G (deletions kn (omap (key_of keyf) l) q1) q1 n1 Hd Hsa) as Hda. destruct (delete_all _ q1 n1) as [q2 n2]. simpl in *. split; [|done].
        unfold set_initial. by destruct (d_populated q2).
      - unfold df_resync. destruct kn as [kn|]; simpl; [|done]. split; [by apply resync_ok|].
        intros ds. generalize (kn_keys kn), q, false. clear. intros ks. induction ks as [|k ks IH]; intros q n; simpl; [done|]. destruct (sync_key keyf kn k q) as [[q' n'] [o|]]; simpl; [done|apply IH].
      - unfold df_pop. destruct (skip_stale _ _ _) as [[queue' n'] [[k ds]|]] eqn:E; simpl.
        + apply skip_stale_found in E. split; [split; simpl|].
          * intros k' ds'. rewrite dget_ddel. destruct (decide _); [done|apply H1].
          * intros k' ds' [= <- <-]. by eapply H1.
          * intros ds' [= <-]. by eapply H1.
        + split; [by split|]. by destruct (d_closed q).
      - unfold df_finish. destruct (d_busy q) as [[k ds]|] eqn:E; simpl; [|done].
        assert (okq G (DFIFO (d_items q) (d_queue q) (d_populated q) (d_count q) (d_closed q) None)) as Hq' by (by split).
        destruct out as [|cause| |]; simpl; try done. assert (Hp := put_ok G k ds _ (H2 _ _ eq_refl) Hq'). destruct (put_if_absent _ _ _) as [q' n']. simpl in *. split; [done|]. by destruct cause.
      - unfold df_add_if_not_present. destruct (last ds); [|done]. destruct (key_of keyf _); [|done]. assert (Hp := put_ok G k ds q Hc Hq). by destruct (put_if_absent _ _ _). }
    unfold dstep, dcall. destruct (d_busy q) eqn:E; [|done]. by destruct (needs_lock c).
  Qed.

  Notation hst := (hstep (V:=V) (N:=N) keyf second dflt).
  Definition just (h : list (hop K O * hres K O)) (d : delta) : Prop := d.1 = DtDeleted → ∀ o, d.2 = DObj o → ∃ r, (HInf (QDelete o), r) ∈ h.
  Record dinv (h : list (hop K O * hres K O)) (s : shared K O V N) : Prop := {
    dv_q : okq (just h) (i_q (h_inf s));
    dv_todo : Forall (just h) (i_todo (h_inf s));
    dv_log : ∀ l o, l ∈ p_ls (h_proc s) → NDelete (DObj o) ∈ l_log l → ∃ r, (HInf (QDelete o), r) ∈ h
  }.
  Lemma just_mono h e d : just h d → just (h ++ [e]) d.
  Proof. intros Hj H1 o Ho. destruct (Hj H1 o Ho) as [r Hr]. exists r. apply elem_of_app. by left. Qed.
  Lemma okq_mono h e q : okq (just h) q → okq (just (h ++ [e])) q.
  Proof. intros [H1 H2]. split; intros k ds Hk; (eapply Forall_impl; [by eauto|]); intros d; apply just_mono. Qed.
  Lemma handle_delta_delete (st st' : store K (dobj K O) V N) d o : handle_delta keyf st d = (st', Some (NDelete (DObj o))) → d = (DtDeleted, DObj o).
  Proof.
    unfold handle_delta. destruct d as [t od]. simpl. intros H. repeat (case_match; simpl in *; simplify_eq/=); done.
  Qed.
  Lemma istep_ok G (s : inf K O V N) c : (∀ o, G (DtSync, o)) → (∀ k o, G (DtDeleted, DTomb k o)) → (∀ o, G (DtAdded, o)) → (∀ o, G (DtUpdated, o)) →
    (∀ o, c = QDelete o → G (DtDeleted, DObj o)) → okq G (i_q s) → Forall G (i_todo s) →
    okq G (i_q (istep keyf s c).1) ∧ Forall G (i_todo (istep keyf s c).1) ∧ ∀ o, (istep keyf s c).2 = ICallback (NDelete (DObj o)) → G (DtDeleted, DObj o).
  Proof.
    intros Hs Ht Ha Hu Hd Hq Htodo.
    assert (Hcall : ∀ st, call_ok G st → let '(q, r) := dstep keyf (i_q s) st in okq G q ∧ ∀ ds, r = DPopped ds → Forall G ds).
    { intros st Hst. pose proof (dstep_ok G (i_q s) st Hs Ht Hst Hq) as H. by destruct (dstep keyf (i_q s) st). }
    assert (Hend : ∀ (s1 : inf K O V N) out, i_q s1 = i_q s → okq G (i_q (end_process keyf s1 out).1) ∧ Forall G (i_todo (end_process keyf s1 out).1) ∧
      ∀ o, (end_process keyf s1 out).2 = ICallback (NDelete (DObj o)) → G (DtDeleted, DObj o)).
    { intros s1 out Hs1. unfold end_process. rewrite Hs1. specialize (Hcall (DFinish out) I). revert Hcall. destruct (dstep keyf (i_q s) (DFinish out)) as [q r]. intros [? ?]. split; [done|]. split; [by constructor|done]. }
    assert (Hq' : ∀ st, call_ok G st → okq G (i_q (call_q keyf s st).1) ∧ Forall G (i_todo (call_q keyf s st).1) ∧
      ∀ o, (call_q keyf s st).2 = ICallback (NDelete (DObj o)) → G (DtDeleted, DObj o)).
    { intros st Hst. unfold call_q. specialize (Hcall st Hst). revert Hcall. destruct (dstep keyf (i_q s) st) as [q r]. by intros [? ?]. }
    destruct c as [o|o|o|l| | |k| | | |rq| | |k]; simpl; try (apply Hq'; simpl; auto).
    - specialize (Hcall DPop I). destruct (dstep keyf (i_q s) DPop) as [q r]. destruct Hcall as [H1 H2]. destruct r; simpl; try done. split; [done|]. split; [by apply H2|done].
    - destruct (d_busy (i_q s)); [|done]. destruct (i_todo s) as [|d rest] eqn:E; [rewrite <-E in Htodo; simpl; by rewrite ?E|]. inversion Htodo as [|? ? Hd1 Hd2]; subst.
      destruct (handle_delta keyf (i_st s) d) as [st [n|]] eqn:Eh; [|by apply Hend]. simpl. split; [done|]. split; [done|]. intros o [= ->]. apply handle_delta_delete in Eh as ->. done.
    - destruct (i_cb s); [by apply Hend|done].
    - destruct (d_busy (i_q s)); [|done]. destruct (i_todo s) eqn:E; [by apply Hend|simpl; by rewrite E].
    - destruct (i_cb s); [by apply Hend|done].
    - split; [done|]. split; [done|]. intros o. by destruct (dget k (s_items (i_st s))).
  Qed.
  Lemma log_of_distribute (p : proc (notif K O)) n b l m : l ∈ p_ls (distribute p n b) → m ∈ l_log l → m = n ∨ ∃ l', l' ∈ p_ls p ∧ m ∈ l_log l'.
  Proof.
    unfold distribute. simpl. intros (i&Hi)%elem_of_list_lookup Hm. rewrite list_lookup_imap in Hi. destruct (p_ls p !! i) as [l'|] eqn:E; [|done]. simpl in Hi. injection Hi as <-.
    assert (l' ∈ p_ls p) by (by eapply elem_of_list_lookup_2). destruct (_ || _); [|eauto]. simpl in Hm. apply elem_of_app in Hm as [?|?%elem_of_list_singleton]; [eauto|by left].
  Qed.
  Lemma log_of_changed check (ls : list (lst (notif K O))) l : l ∈ check_changed check ls → ∃ l', l' ∈ ls ∧ l_log l' = l_log l.
  Proof. unfold check_changed. intros (l'&->&Hl')%elem_of_list_fmap. by exists l'. Qed.
  Lemma log_of_register (p : proc (notif K O)) req now bl l : l ∈ p_ls (register second dflt p req now bl) → l_log l = bl ∨ ∃ l', l' ∈ p_ls p ∧ l_log l' = l_log l.
  Proof.
    unfold register. destruct (p_stopped p); [eauto|].
    destruct (if bool_decide _ then _ else _) as [[r check] ls] eqn:E. simpl. intros [Hl|Hl%elem_of_list_singleton]%elem_of_app; [|left; by subst]. right.
    repeat case_match; simplify_eq; eauto; by eapply log_of_changed.
  Qed.
  Lemma dinv_step h s c s' r : dinv h s → hst s c = (s', r) → dinv (h ++ [(c, r)]) s'.
  Proof.
    intros [H1 H2 H3] Hst.
    assert (Hlog : ∀ l o, l ∈ p_ls (h_proc s) → NDelete (DObj o) ∈ l_log l → ∃ r', (HInf (QDelete o), r') ∈ h ++ [(c, r)]).
    { intros l o Hl Ho. destruct (H3 l o Hl Ho) as [r' ?]. exists r'. apply elem_of_app. by left. }
    apply (okq_mono _ (c, r)) in H1. assert (Forall (just (h ++ [(c, r)])) (i_todo (h_inf s))) as H2' by (eapply Forall_impl; [done|]; intros d; apply just_mono).
    destruct c as [c|req now| | |now]; simpl in Hst.
    - destruct (negb (allowed s c)); [by injection Hst as <- <-|].
      destruct (istep_ok (just (h ++ [(HInf c, r)])) (h_inf s) c) as (I1&I2&I3); try done.
      { intros o -> _ o' [= <-]. exists r. apply elem_of_app. right. by left. }
      destruct (istep keyf (h_inf s) c) as [i ri] eqn:Ei. simpl in *.
      assert (Hr : r = HI ri ∧ h_inf s' = i ∧ (h_proc s' = h_proc s ∨ ∃ n, ri = ICallback n ∧ h_proc s' = distribute (h_proc s) n (is_sync n))).
      { destruct ri; injection Hst as <- <-; simpl; eauto 6. }
      destruct Hr as (->&Hi&Hp). split; [by rewrite Hi|by rewrite Hi|]. destruct Hp as [->|(n&->&->)]; [done|].
      intros l o Hl Ho. destruct (log_of_distribute _ _ _ _ _ Hl Ho) as [<-|(l'&Hl'&Ho')]; [|by eapply Hlog]. by apply (I3 o eq_refl).
    - destruct (_ && _); [destruct (d_busy _)|]; injection Hst as <- <-; (split; simpl; [done..|]); try done; intros l o Hl Ho;
        destruct (log_of_register _ _ _ _ _ Hl) as [Hb|(l'&Hl'&Hb)]; try (eapply Hlog; [done|by rewrite Hb]); rewrite Hb in Ho.
      + apply elem_of_list_fmap in Ho as (?&?&_). done.
      + by apply elem_of_nil in Ho.
    - injection Hst as <- <-. split; simpl; done.
    - destruct (negb _); injection Hst as <- <-; split; simpl; done.
    - unfold should_resync in Hst. injection Hst as <- <-. split; simpl; [done..|]. intros l o (l'&->&Hl')%elem_of_list_fmap Ho. eapply Hlog; [done|]. by destruct (due now l').
  Qed.
  Lemma deletions_justified fs h s l o : exec hst (shared_init dflt fs) h s → l ∈ p_ls (h_proc s) → NDelete (DObj o) ∈ l_log l → ∃ r, (HInf (QDelete o), r) ∈ h.
  Proof.
    intros Hex. assert (dinv h s) as Hd; [|by eapply (dv_log _ _ Hd)].
    apply (exec_trace_inv hst dinv (shared_init dflt fs) h s); [| |done].
    - split; [done|by constructor|]. by intros l' o' ?%elem_of_nil.
    - intros h1 s1 c _ IH. apply (dinv_step h1 s1 c); [exact IH|]. by destruct (hst s1 c).
  Qed.
End deltas.

Lemma only_watched {V N : Type} `{EqDecision V} `{EqDecision N} second dflt fs h s l d ps :
  exec (hstep (V:=V) (N:=N) queue_key second dflt) (shared_init dflt fs) h s → l ∈ p_ls (h_proc s) → NDelete d ∈ l_log l →
  o_adds (on_notif ps (NDelete d)) ≠ [] → ∃ o r, d = DObj o ∧ (HInf (QDelete o), r) ∈ h.
Proof.
  intros Hex Hl Hd Ha. destruct d as [o|k o]; [|by rewrite tomb_dropped in Ha].
  destruct (deletions_justified queue_key second dflt fs h s l o Hex Hl Hd) as [r Hr]. by exists o, r.
Qed.

(** C65 (refuted) *)
Notation sr_step := (hstep (V:=nat) (N:=nat) queue_key 1%Z 10%Z).
Definition sr_init : shared pystr pyobj nat nat := shared_init 10%Z [].
Definition pod (name : string) : pyobj := Typed (Some (Some (Some "ns"%string, Some name))) ""%string.
Definition sr_cycle : list (hop pystr pyobj) := [HInf PPop; HInf PDelta; HInf PDone].
Definition relist_ops : list (hop pystr pyobj) :=
  [HRegister (Some 0%Z) 0%Z; HRun; HInf (QReplace [pod "a"; pod "b"])] ++ sr_cycle ++ sr_cycle ++ [HInf (QReplace [pod "b"])] ++ sr_cycle ++ sr_cycle.
Definition relist_h : list (hop pystr pyobj * hres pystr pyobj) := (run sr_step sr_init relist_ops).2.
Lemma relist_deletion : ∃ s l, exec sr_step sr_init relist_h s ∧ p_ls (h_proc s) = [l] ∧
  (HInf PDelta, HI (ICallback (NAdd (DObj (pod "a")) true))) ∈ relist_h ∧
  NDelete (DTomb (Some "ns/a"%string) (Some (DObj (pod "a")))) ∈ l_log l ∧
  (istep queue_key (h_inf s) (SLook (Some "ns/a"%string))).2 = IObj None ∧
  feed [] (l_log l) = NsName (Some "ns") (Some "a") :: replicate 3 (NsName (Some "ns") (Some "b")).
Proof.
  exists (run sr_step sr_init relist_ops).1. eexists. split; [exact (run_exec sr_step sr_init relist_ops)|].
  split; [vm_compute; reflexivity|]. split; [unfold relist_h; vm_compute; repeat (first [apply elem_of_list_here|apply elem_of_list_further])|].
  split; [vm_compute; repeat (first [apply elem_of_list_here|apply elem_of_list_further])|]. by vm_compute.
Qed.

Definition no_b : epred := λ e, match e with CreateEvent (MTyped (Some (_, Some n))) _ => if decide (n = "b"%string) then PFalse else PTrue | _ => PTrue end.
Lemma gate_case : on_notif [no_b; λ _, PTrue] (NAdd (DObj (pod "b")) false) = Outcome [CreateEvent (MTyped (Some (Some "ns", Some "b"))) (pod "b")]%string None [] false ∧
  o_adds (on_notif [no_b; λ _, PTrue] (NUpdate (DObj (pod "b")) (DObj (pod "b")) true)) = replicate 2 (NsName (Some "ns") (Some "b"))%string.
Proof. by vm_compute. Qed.
