From Verif Require Import Base KeyFunc_model KeyFunc_spec DeltaFifo_model DeltaFifo_spec DeltaFifo_proofs DeltaFifo_proofs2 Store_model Store_spec Store_proofs
  Reflector_model Reflector_spec Reflector_proofs World_model World_proofs Informer_model Informer_spec Informer_proofs Informer_proofs2 Informer_proofs3 InformerWorld_model InformerWorld_proofs
  SharedInformer_model SharedInformer_spec SharedInformer_proofs SharedInformer_proofs2 Listener_model Listener_spec Listener_proofs
  Source_model Source_spec Source_proofs WorkQueue_model DelayQueue_model DelayQueue_proofs Controller_model Controller_spec Controller_proofs Controller_proofs3
  System_model System_spec.
From Coq Require Import ZArith.
Local Open Scope nat_scope.

(** ** The listener *)
Section listener.
  Context {A : Type}.
  Implicit Types (l : lis A).
  Definition lpart l : list A := inflight l ++ match l_adder l with APutting n => [n] | _ => [] end.
  Lemma lpart_step l ll l' : shape l → l_stop l = false → lstep l ll l' →
    match ll with LAdd n => lpart l' = lpart l ++ [n] | LCall n => lpart l = n :: lpart l' | LStop | LAddCancel => True | _ => lpart l' = lpart l end.
  Proof.
    intros [Hp Hr] Hs Hst. unfold lpart, inflight, run_part, cur_part, got_part. destruct Hst; simpl in *; rewrite ?app_nil_r; try done; try congruence.
    - by rewrite <-!app_assoc.
    - destruct Hp as (-> & Hc & Hn). destruct put; [|specialize (Hn eq_refl) as ->]; destruct got as [n|], cur as [c|]; simpl in *; try done; try (by rewrite <-?app_assoc); try naive_solver.
    - destruct pe as [|n [|]]; simpl in *; try done.
  Qed.
  Lemma stop_step l ll l' : ll ≠ LStop → lstep l ll l' → l_stop l' = l_stop l.
  Proof. intros Hne Hst. destruct Hst; try done. by destruct got, cur. Qed.
  Lemma handling_step l ll l' n : lstep l ll l' → l_run l = RHandling n → (ll = LReturn ∨ ll = LRaise) ∨ l_run l' = RHandling n.
  Proof. intros Hst Hr. destruct Hst; simpl in *; try (by right); try (left; tauto); try congruence; [destruct got, cur; by right|naive_solver]. Qed.
End listener.
Lemma held_lpart l n : held l n ↔ n ∈ lpart l.
Proof.
  unfold lpart, inflight, run_part, cur_part, got_part, olist. rewrite !elem_of_app. split.
  - intros [H|H|cur put H|H|got H|H|H]; try rewrite H; rewrite ?elem_of_list_singleton; try tauto; destruct put; tauto.
  - intros [[H|[H|[H|[H|[H|H]]]]]|H].
    + destruct (l_run l) eqn:E; try by apply elem_of_nil in H. apply elem_of_list_singleton in H as ->. by apply held_fetched.
    + destruct (l_nextq l) eqn:E; [|by apply elem_of_nil in H]. apply elem_of_list_singleton in H as ->. by apply held_nextq.
    + destruct (l_pump l) as [|[c|] got []| |] eqn:E; try by apply elem_of_nil in H. apply elem_of_list_singleton in H as ->. by eapply held_cur.
    + by apply held_pend.
    + destruct (l_pump l) as [|cur [c|] put| |] eqn:E; try by apply elem_of_nil in H. apply elem_of_list_singleton in H as ->. by eapply held_got.
    + destruct (l_addq l) eqn:E; [|by apply elem_of_nil in H]. apply elem_of_list_singleton in H as ->. by apply held_addq.
    + destruct (l_adder l) eqn:E; try by apply elem_of_nil in H. apply elem_of_list_singleton in H as ->. by apply held_adder.
Qed.

Section proofs.
  Context {V N : Type} `{EqDecision V} `{EqDecision N} (g : rcfg pyobj nat) (second dflt : Z) (i : nat) (ps : list epred).
  Context (fs : dict N (index_func (dobj pystr pyobj) V)) (Hfs : good_indexers fs).
  Context (k : pystr) (ns name : pystr) (Hps : ∀ p n e, p ∈ ps → about k n → event_of n e → p e = PTrue).
  Notation notif := (Informer_model.notif pystr pyobj).
  Notation shared := (shared pystr pyobj V N).
  Notation sys := (sys V N).
  Notation hstep := (hstep (V:=V) (N:=N) queue_key second dflt).
  Notation istep := (istep (V:=V) (N:=N) queue_key).
  Notation kst := (kstep (λ _ : nsname, true)).
  Notation zstep := (zstep (V:=V) (N:=N) g second dflt i ps).
  Notation base := (base queue_key fs).
  Notation INV := (INV queue_key fs).
  Notation r := (NsName ns name).
  Notation settle := Informer_spec.settle.
  Implicit Types (z : sys) (h : shared) (n : notif).

  (** ** What a step of the informer does *)
  Lemma hstep_effect (s : shared) c s' x : base s → hstep s c = (s', x) → base s' ∧
    ((∃ n k0 d, x = HI (ICallback n) ∧ h_proc s' = distribute (h_proc s) n (is_sync n) ∧ has_key queue_key k0 d.2 ∧ n = notif_of (cont k0 (h_inf s)) d ∧
        d ∈ work k0 (h_inf s) ∧ (∀ j, cont j (h_inf s') = if decide (j = k0) then settle (cont k0 (h_inf s)) [d] else cont j (h_inf s))) ∨
     (∀ n, x ≠ HI (ICallback n)) ∧ (∀ j, cont j (h_inf s') = cont j (h_inf s)) ∧
     (logs (h_proc s') = logs (h_proc s) ∨ logs (h_proc s') = logs (h_proc s) ++ [(λ o, NAdd o false) <$> dvals (s_items (i_st (h_inf s)))])).
  Proof.
    intros HB Hst. split; [by eapply (base_step queue_key second dflt fs Hfs)|]. pose proof HB as (HI & Hss & He). destruct c as [c|req now| | |t].
    - apply hinf_step in Hst as [(-> & -> & _)|(y & r1 & Hal & Hi & -> & Hx & Hp)]; [by right; split; [|split; [|left]]|].
      destruct (INV_step queue_key fs Hfs _ _ _ _ HI Hi) as [HI' Hef]. subst y. destruct Hp as [(n & -> & Hp)|[Hn Hp]].
      + left. destruct Hef as [_ _ Hno|dc res _ _ _ _ _ Hno _ _|k0 ds d rest -> Hb [= ->] Hk Hw Hw' Ho Hc|k0 ds _ _ _ _ _ Hno|k0 ds cause _ _ _ _ _ _ Hno]; try done; try (by destruct (Hno n)).
        eexists _, k0, d. split; [done|]. split; [done|]. split; [done|]. split; [done|]. split; [rewrite Hw; by left|done].
      + right. split; [intros n [= ->]; by destruct (Hn n)|]. split; [|left; by rewrite Hp].
        destruct Hef as [Hs _ _|dc res _ _ _ Hs _ _ _ _|k0 ds d rest _ _ Hr _ _ _ _ _|k0 ds _ Hs _ _ _ _|k0 ds cause _ Hs _ _ _ _ _]; intros j; unfold cont; rewrite ?Hs; try done. by destruct (Hn _ Hr).
    - right. simpl in Hst. destruct (p_started (h_proc s)) eqn:Hs; simpl in Hst.
      + destruct (p_stopped (h_proc s)) eqn:Hstop; simpl in Hst.
        { injection Hst as <- <-. unfold register. rewrite Hstop. split; [done|]. split; [done|by left]. }
        destruct (d_busy (i_q (h_inf s))); injection Hst as <- <-; [split; [done|]; split; [done|by left]|]. split; [done|]. split; [done|]. right.
        destruct (register_logs second dflt (h_proc s) req now ((λ o, NAdd o false) <$> dvals (s_items (i_st (h_inf s)))) Hstop) as (Hl & _); apply Hl.
      + injection Hst as <- <-. assert (Hstop : p_stopped (h_proc s) = false) by (destruct (p_stopped (h_proc s)); [by specialize (Hss eq_refl)|done]).
        split; [done|]. split; [done|]. right. destruct (register_logs second dflt (h_proc s) req now [] Hstop) as (Hl & _). rewrite He by done. simpl. apply Hl.
    - right. injection Hst as <- <-. split; [done|]. split; [done|by left].
    - right. simpl in Hst. destruct (p_started (h_proc s)); simpl in Hst; injection Hst as <- <-; (split; [done|]; split; [done|by left]).
    - right. simpl in Hst. injection Hst as <- <-. split; [done|]. split; [done|]. left. unfold logs. simpl. rewrite <-list_fmap_compose. apply list_fmap_ext. intros ? l _. simpl. by destruct (due t l).
  Qed.
  Lemma stopped_step (s : shared) c s' x : hstep s c = (s', x) → p_stopped (h_proc s') = false → p_stopped (h_proc s) = false.
  Proof.
    destruct c as [c|req now| | |t]; intros Hst.
    - apply hinf_step in Hst as [(-> & -> & _)|(y & r1 & Hal & Hi & -> & Hx & Hp)]; [done|]. destruct Hp as [(n & _ & ->)|[_ ->]]; done.
    - simpl in Hst. destruct (p_stopped (h_proc s)) eqn:Hs; [|done]. rewrite andb_false_r in Hst. injection Hst as <- <-. simpl. unfold register. by rewrite Hs, Hs.
    - by injection Hst as <- <-.
    - simpl in Hst. destruct (p_started (h_proc s)); by injection Hst as <- <-.
    - simpl in Hst. by injection Hst as <- <-.
  Qed.
  (** the reflector's steps are the informer's *)
  Definition op_objs (c : iop pystr pyobj) : list pyobj := match c with QAdd o | QUpdate o | QDelete o => [o] | QReplace l => l | _ => [] end.
  Lemma wstep_inf w (s : inf pystr pyobj V N) wl w' s' : World_model.wstep queue_key g (inf_sops queue_key) (w, s) wl (w', s') →
    s' = s ∨ ∃ c res, istep s c = (s', IQ res) ∧ ¬ fails c ∧ storeless wl = false ∧ c ≠ SLook k ∧
      ∀ o, o ∈ op_objs c → (∃ e, e ∈ w_changes w ∧ e_obj e = o) ∨ ∃ items v, wl = WInput (IList items v) ∧ o ∈ items.
  Proof.
    intros Hw. assert (Hin : ∀ c s1 b, ok_of (istep s c) = (s1, b) → ¬ fails c → match c with QAdd _ | QUpdate _ | QDelete _ | QReplace _ | QResync => True | _ => False end → storeless wl = false →
      (∀ o, o ∈ op_objs c → (∃ e, e ∈ w_changes w ∧ e_obj e = o) ∨ ∃ items v, wl = WInput (IList items v) ∧ o ∈ items) →
      s1 = s ∨ ∃ c res, istep s c = (s1, IQ res) ∧ ¬ fails c ∧ storeless wl = false ∧ c ≠ SLook k ∧
      ∀ o, o ∈ op_objs c → (∃ e, e ∈ w_changes w ∧ e_obj e = o) ∨ ∃ items v, wl = WInput (IList items v) ∧ o ∈ items).
    { intros c s1 b Hok Hf Hq Hsl Hobj. right. exists c. unfold ok_of in Hok. injection Hok as <- _.
      assert (∃ res, (istep s c).2 = IQ res) as [res Hres] by (destruct c; try done; unfold Informer_model.istep, call_q; destruct (dstep _ _ _); by eexists).
      exists res. rewrite <-Hres, <-surjective_pairing. split; [done|]. split; [done|]. split; [done|]. split; [by destruct c|done]. }
    inversion Hw as [w0 s0 e Hgc|w0 s0 e x s1 out Hcur Hr|w0 s0 y x s1 out Hsv Hr]; subst; [by left|..]; apply (rstep_kind g _ w) in Hr.
    - assert (He : ∀ o, o ∈ [e_obj e] → (∃ e, e ∈ w_changes w ∧ e_obj e = o) ∨ ∃ items v, WDeliver e = WInput (IList items v) ∧ o ∈ items).
      { intros o ->%elem_of_list_singleton. left. exists e. split; [by eapply elem_of_list_lookup_2|done]. }
      inversion Hr as [| |e' m rv s2 out' Hpc Hf Ha Hap| | |y r' out' He' Hout Hrep Hl Hop Hac Hwa]; subst; [|by left].
      unfold apply_event in Hap. destruct (e_type e); simpl in Hap; try (injection Hap as <- _; by left); injection Hap as <- _.
      + eapply (Hin (QAdd (e_obj e)) _ _ eq_refl); try done. tauto.
      + eapply (Hin (QUpdate (e_obj e)) _ _ eq_refl); try done. tauto.
      + eapply (Hin (QDelete (e_obj e)) _ _ eq_refl); try done. tauto.
    - inversion Hr as [items v s2 Hpc Hrp|items v s2 Hpc Hrp|e m rv s2 out' Hpc Hf Ha Hap|due s2 ok Hac Hre|Hpc|y' r' out' He Hout Hrep Hl Hop Hac Hwa]; subst.
      + eapply (Hin (QReplace items) _ _ Hrp); try done; [tauto|]. intros o Ho. right. by eexists _, _.
      + eapply (Hin (QReplace items) _ _ Hrp); try done; [tauto|]. intros o Ho. right. by eexists _, _.
      + destruct Hsv as [[Hty _]|Hna]; [|by destruct (Hna rv)]. unfold apply_event in Hap. left. destruct Hty as [Hty|Hty]; rewrite Hty in Hap; by simplify_eq.
      + eapply (Hin QResync _ _ Hre); try done; [tauto|]. intros o ?%elem_of_nil. done.
      + by left.
      + by left.
  Qed.
  Lemma world_hstep h c s' res : running h = true → ¬ fails c → istep (h_inf h) c = (s', IQ res) → hstep h (HInf c) = (Shared s' (h_proc h), HI (IQ res)).
  Proof.
    unfold running. intros Hrun Hf Hi. simpl. replace (allowed h c) with true; [|by destruct c; simpl in *; try rewrite Hrun].
    simpl. by rewrite Hi.
  Qed.

  (** ** Names *)
  Definition okd (d : delta pystr pyobj) : Prop := (∀ o, d.2 = DObj o → named o ns name) ∧ (is_deletion d = false → ∃ o, d.2 = DObj o).
  Definition oko (o : dobj pystr pyobj) : Prop := ∃ o', o = DObj o' ∧ named o' ns name.
  Definition okk (s : inf pystr pyobj V N) : Prop := (∀ d, d ∈ work k s → okd d) ∧ ∀ o, cont k s = Some o → oko o.
  Lemma names_step (s : inf pystr pyobj V N) c s' x : INV s → istep s c = (s', x) → ¬ fails c → (∀ o, o ∈ op_objs c → queue_key o = Some k → named o ns name) → okk s → okk s'.
  Proof.
    intros HI Hi Hf Hop [Hw Hc]. destruct (INV_step queue_key fs Hfs _ _ _ _ HI Hi) as [HI' Hef].
    destruct Hef as [Hs Hwk Hn|dc res Hch Hb Hb' Hs Hpe -> _ _|k0 ds d rest -> Hb -> Hk Hwk Hw' Ho Hcc|k0 ds [-> | ->] _ _ _ _ _|k0 ds cause -> _ _ _ _ _ _]; [| | |by destruct Hf..].
    - split; [intros d; rewrite Hwk; apply Hw|]. unfold cont. rewrite Hs. apply Hc.
    - split; [|unfold cont; rewrite Hs; apply Hc]. intros d. rewrite idle_work in Hw |- * by done. rewrite Hpe. intros [Hd|Hd]%absorb_all_elem; [by apply Hw|].
      destruct c as [o|o|o|l| | |j| | | |rq| | |j]; try done; simpl in Hch; injection Hch as <-; simpl in Hd.
      + case_decide as Hko; [|by apply elem_of_nil in Hd]. apply elem_of_list_singleton in Hd as ->. split; [intros o' [= <-]|by eexists]. apply Hop; [by left|done].
      + case_decide as Hko; [|by apply elem_of_nil in Hd]. apply elem_of_list_singleton in Hd as ->. split; [intros o' [= <-]|by eexists]. apply Hop; [by left|done].
      + case_decide as Hko; [|by apply elem_of_nil in Hd]. apply elem_of_list_singleton in Hd as ->. split; [intros o' [= <-]|by eexists]. apply Hop; [by left|apply Hko].
      + apply elem_of_app in Hd as [Hd|Hd].
        * apply elem_of_list_fmap in Hd as (o & -> & [Hko Ho]%elem_of_list_filter).
          assert (o ∈ DObj <$> l) as (o' & -> & Ho')%elem_of_list_fmap by (revert Ho; generalize (DObj (K:=pystr) <$> l); intros os; induction os as [|o1 os IH]; simpl; [done|]; case_match; [set_solver|by intros ?%elem_of_nil]).
          split; [intros o2 [= <-]; by apply Hop|by eexists].
        * case_decide; [|by apply elem_of_nil in Hd]. apply elem_of_list_fmap in Hd as (j & -> & _). split; done.
      + case_decide; [|by apply elem_of_nil in Hd]. rewrite (found_at queue_key fs _ _ (iv_sg _ _ _ HI)) in Hd. destruct (dget k (s_items (i_st s))) as [o|] eqn:Hg; [|by apply elem_of_nil in Hd].
        apply elem_of_list_singleton in Hd as ->. destruct (Hc _ Hg) as (o' & -> & Hn). split; [by intros ? [= <-]|by eexists].
    - split.
      + intros d'. destruct (decide (k = k0)) as [<-|Hne]; [rewrite Hw'|rewrite Ho by done; apply Hw]. intros Hin. apply Hw. rewrite Hwk. by right.
      + intros o. rewrite Hcc. case_decide as Hk0; [|apply Hc]. subst k0. unfold settle. simpl. destruct (is_deletion d) eqn:Hdel; [done|]. intros [= <-].
        destruct (Hw d) as [H1 H2]; [rewrite Hwk; by left|]. destruct (H2 Hdel) as [o' Ho']. exists o'. split; [done|]. by apply H1.
  Qed.

  Definition good n : Prop := ∀ o, o ∈ objects n → oko o.
  Lemma good_adds n : about k n → good n → r ∈ o_adds (on_notif ps n).
  Proof.
    intros Hab Hg. destruct n as [o b|o1 o2 b|o].
    - destruct (Hg o) as (o' & -> & (m & Hm & Hr)%named_request); [by left|]. simpl. unfold on_add. rewrite Hm.
      destruct (gate_accepts ps (CreateEvent m o')) as (_ & _ & -> & _); [intros p Hp; apply (Hps p _ _ Hp Hab); by constructor|]. simpl. unfold enqueue_one. rewrite Hr. by left.
    - destruct (Hg o1) as (o1' & -> & (m1 & Hm1 & Hr1)%named_request); [by left|]. destruct (Hg o2) as (o2' & -> & (m2 & Hm2 & Hr2)%named_request); [by right; left|].
      simpl. unfold on_update. rewrite Hm1, Hm2.
      destruct (gate_accepts ps (UpdateEvent m1 o1' m2 o2')) as (_ & _ & -> & _); [intros p Hp; apply (Hps p _ _ Hp Hab); by constructor|]. simpl. unfold enqueue_one. rewrite Hr1, Hr2. by left.
    - destruct (Hg o) as (o' & -> & (m & Hm & Hr)%named_request); [by left|]. simpl. unfold on_delete. rewrite Hm.
      destruct (gate_accepts ps (DeleteEvent m o')) as (_ & _ & -> & _); [intros p Hp; apply (Hps p _ _ Hp Hab); by constructor|]. simpl. unfold enqueue_one. rewrite Hr. by left.
  Qed.
  Lemma good_notif (s : inf pystr pyobj V N) d : INV s → okk s → d ∈ work k s → is_tomb d.2 = false → good (notif_of (cont k s) d).
  Proof.
    intros HI [Hw Hc] Hd Ht. destruct (Hw d Hd) as [H1 H2]. assert (oko d.2) as Hok by (destruct d as [t [o|]]; simpl in *; [exists o; split; [done|]; by apply H1|done]).
    unfold notif_of. destruct d as [[] o]; simpl in *; try (destruct (cont k s) as [o0|] eqn:E); intros o1; simpl; rewrite ?elem_of_cons, ?elem_of_nil; intros [->|[->|?]] || intros [->|?]; try done; by apply Hc.
  Qed.

  Lemma log_of_logs h : log_of i h = default [] (logs (h_proc h) !! i).
  Proof. unfold log_of, logs. rewrite list_lookup_fmap. by destruct (p_ls (h_proc h) !! i). Qed.
  Lemma registered_logs z : registered i z ↔ is_Some (logs (h_proc (z_inf z)) !! i).
  Proof. unfold registered, logs. rewrite lookup_lt_is_Some. by rewrite fmap_length. Qed.

  (** ** The invariant *)
  Definition silent (l : zlabel) : Prop := ∀ c n, l = ZShared c (HI (ICallback n)) → about k n → no_news n.
  Definition started_since (tr : list zlabel) : Prop := ∃ tr1 j t tr2, tr = tr1 ++ ZCtl (KGet j (RItem r) t) :: tr2 ∧ ∀ l, l ∈ tr2 → silent l.
  Definition pending z : list notif := lpart (z_lis z) ++ drop (z_fed z) (log_of i (z_inf z)).
  Definition dirty z : list nsname := wq_dirty (dq_base (k_q (z_ctl z))).
  Definition owed tr z : Prop :=
    (cont k (h_inf (z_inf z)) = None ∧ ∀ n, n ∈ log_of i (z_inf z) → ¬ about k n) ∨ (∃ n, n ∈ pending z ∧ about k n) ∨ r ∈ z_adds z ∨ r ∈ dirty z ∨ started_since tr.
  Record live tr z : Prop := {
    lv_shape : shape (z_lis z);
    lv_stop : l_stop (z_lis z) = false;
    lv_fed : z_fed z ≤ length (log_of i (z_inf z));
    lv_good : ∀ n, n ∈ pending z → about k n → good n;
    lv_adds : z_adds z ≠ [] → ∃ n, l_run (z_lis z) = RHandling n;
    lv_owed : registered i z → owed tr z
  }.
  Context (t0 : Z) (workers : nat).
  Record ZI tr z : Prop := {
    zi_base : base (z_inf z);
    zi_changes : ∀ e, e ∈ w_changes (z_world z) → queue_key (e_obj e) = Some k → named (e_obj e) ns name;
    zi_names : okk (h_inf (z_inf z));
    zi_ctl : ∃ ktr, reach kst (kinit t0 workers) ktr (z_ctl z);
    zi_live : stopped z = false → live tr z
  }.
  Notation init := (sys_init (V:=V) (N:=N) dflt fs t0 workers).
  Lemma ZI_init : ZI [] init.
  Proof.
    split; simpl.
    - apply base_init.
    - intros e ?%elem_of_nil. done.
    - split; [|intros o; unfold cont; simpl; by rewrite dget_nil]. intros d. unfold work, todo_of, pend. simpl. rewrite dget_nil. by intros ?%elem_of_nil.
    - exists []. constructor.
    - intros _. split; simpl; [apply shape_init|done|lia|..].
      + intros n. unfold pending, lpart, log_of. simpl. by intros ?%elem_of_nil.
      + done.
      + unfold registered. simpl. lia.
  Qed.
  Lemma since_snoc tr l : silent l → started_since tr → started_since (tr ++ [l]).
  Proof.
    intros Hn (tr1 & j & t & tr2 & -> & H2). exists tr1, j, t, (tr2 ++ [l]). split; [by rewrite <-app_assoc|].
    intros l' [?| ->%elem_of_list_singleton]%elem_of_app; [by apply H2|done].
  Qed.

  (** the informer, whoever made the step *)
  Lemma live_inf tr z lab h' w' : ZI tr z → stopped z = false →
    base h' → p_stopped (h_proc h') = false →
    ((∃ n k0 d c, lab = ZShared c (HI (ICallback n)) ∧ h_proc h' = distribute (h_proc (z_inf z)) n (is_sync n) ∧ has_key queue_key k0 d.2 ∧ n = notif_of (cont k0 (h_inf (z_inf z))) d ∧
        d ∈ work k0 (h_inf (z_inf z)) ∧ (∀ j, cont j (h_inf h') = if decide (j = k0) then settle (cont k0 (h_inf (z_inf z))) [d] else cont j (h_inf (z_inf z)))) ∨
     silent lab ∧ (∀ j, cont j (h_inf h') = cont j (h_inf (z_inf z))) ∧
     (logs (h_proc h') = logs (h_proc (z_inf z)) ∨ logs (h_proc h') = logs (h_proc (z_inf z)) ++ [(λ o, NAdd o false) <$> dvals (s_items (i_st (h_inf (z_inf z))))])) →
    announced i k z lab → live (tr ++ [lab]) (Sys w' h' (z_fed z) (z_lis z) (z_adds z) (z_raises z) (z_ctl z)).
  Proof.
    intros HZ Hns HB' Hns' Hcase Han. destruct (zi_live _ _ HZ Hns) as [Hsh Hst Hfed Hgood Hadds Howed].
    pose proof (zi_base _ _ HZ) as (HI & _). destruct z as [w h f l a b kk]. simpl in *.
    set (z := Sys w h f l a b kk) in *. set (z' := Sys w' h' f l a b kk).
    assert (Hlog : ∃ new, log_of i h' = log_of i h ++ new ∧ (∀ n, n ∈ new → about k n → good n) ∧ (registered i z' →
      (¬ registered i z ∧ (cont k (h_inf h') = None ∧ (∀ n, n ∈ new → ¬ about k n) ∨ ∃ n, n ∈ new ∧ about k n)) ∨
      registered i z ∧ ((∃ n, n ∈ new ∧ about k n) ∨ silent lab ∧ (cont k (h_inf h) = None → cont k (h_inf h') = None ∧ ∀ n, n ∈ new → ¬ about k n)))).
    { rewrite !log_of_logs. destruct Hcase as [(n & k0 & d & c & -> & Hp & Hk0 & Hn & Hd & Hc)|(Hnn & Hc & Hl)].
      - rewrite Hp, distribute_log. destruct (logs (h_proc h) !! i) as [log|] eqn:Hlg; simpl.
        2:{ exists []. split; [done|]. split; [by intros ? ?%elem_of_nil|]. intros Hreg. exfalso. apply registered_logs in Hreg as [? Hreg]. simpl in Hreg. rewrite Hp, distribute_log, Hlg in Hreg. done. }
        assert (Hr : registered i z) by (apply registered_logs; by eexists).
        assert (Hobj : notif_obj n = d.2) by (rewrite Hn; unfold notif_of; destruct d as [[] o]; simpl; try destruct (cont k0 (h_inf h)); done).
        eexists. split; [done|]. split.
        { intros n' Hn' Hab. assert (n' = n) as -> by (case_match; [by apply elem_of_list_singleton in Hn'|by apply elem_of_nil in Hn']).
          assert (k0 = k) as -> by (unfold about, has_key in *; rewrite Hobj in Hab; congruence). rewrite Hn. apply good_notif; [done|apply HZ|done|].
          destruct (Han _ _ eq_refl Hab) as [Ht _]. by rewrite Hobj in Ht. }
        intros _. right. split; [done|]. destruct (decide (k0 = k)) as [->|Hne].
        + assert (Hab : about k n) by (unfold about; by rewrite Hobj). destruct (Han _ _ eq_refl Hab) as [_ Ht].
          destruct (negb (is_sync n) || bool_decide (i ∈ p_syncing (h_proc h))) eqn:Htold; [left; exists n; split; [by left|done]|].
          right. apply orb_false_iff in Htold as [H1 H2]. apply negb_false_iff in H1. apply bool_decide_eq_false in H2. destruct (Ht H1 Hr) as [?|Hno]; [done|].
          split; [by intros c' n' [= <- <-] _|]. intros Hcn. exfalso. destruct Hno as (o & b' & ->). unfold notif_of in Hn. rewrite Hcn in Hn. destruct d as [[] o1]; done.
        + right. assert (Hnab : ¬ about k n) by (unfold about, has_key in *; rewrite Hobj; congruence). split; [by intros c' n' [= <- <-] ?|].
          intros Hcn. rewrite Hc, decide_False by done. split; [done|]. intros n' Hn'. case_match; [by apply elem_of_list_singleton in Hn' as ->|by apply elem_of_nil in Hn'].
      - destruct Hl as [Hl|Hl]; rewrite Hl.
        + exists []. split; [by rewrite app_nil_r|]. split; [by intros ? ?%elem_of_nil|]. intros Hr%registered_logs. simpl in Hr. rewrite Hl in Hr. right. split; [by apply registered_logs|].
          right. split; [done|]. intros Hcn. rewrite Hc. split; [done|]. intros n ?%elem_of_nil. done.
        + assert (Hbk : ∀ n, n ∈ ((λ o, NAdd o false) <$> dvals (s_items (i_st (h_inf h)))) → about k n → ∃ o, n = NAdd o false ∧ cont k (h_inf h) = Some o).
          { intros n (o & -> & Ho)%elem_of_list_fmap Hab. exists o. split; [done|]. unfold dvals in Ho. apply elem_of_list_fmap in Ho as ([j o'] & Heq & Ho). simpl in Heq. subst o'.
            destruct (iv_sg _ _ _ HI) as [Hwf _ _ Hkey]. assert (Hg : dget j (s_items (i_st (h_inf h))) = Some o) by (by apply elem_of_dget).
            pose proof (Hkey _ _ Hg). unfold about, has_key in Hab. simpl in Hab. assert (j = k) as -> by congruence. done. }
          destruct (decide (i < length (logs (h_proc h)))) as [Hlt|Hge].
          * rewrite lookup_app_l by done. exists []. split; [by rewrite app_nil_r|]. split; [by intros ? ?%elem_of_nil|]. intros _. right. split; [apply registered_logs; by apply lookup_lt_is_Some|].
            right. split; [done|]. intros Hcn. rewrite Hc. split; [done|]. intros n ?%elem_of_nil. done.
          * rewrite (lookup_ge_None_2 (logs (h_proc h))) by lia. simpl. rewrite lookup_app_r by lia. destruct (i - length (logs (h_proc h))) as [|m] eqn:Hm; simpl.
            2:{ exists []. split; [done|]. split; [by intros ? ?%elem_of_nil|]. intros [? Hr]%registered_logs. simpl in Hr. rewrite Hl, lookup_app_r, Hm in Hr by lia. done. }
            eexists. split; [done|]. split.
            { intros n Hn Hab. destruct (Hbk n Hn Hab) as (o & -> & Ho). intros o' ->%elem_of_list_singleton. by apply (zi_names _ _ HZ). }
            intros _. left. split; [intros [? Hr]%registered_logs; simpl in Hr; apply lookup_lt_Some in Hr; lia|]. rewrite Hc.
            destruct (cont k (h_inf h)) as [o|] eqn:Ho.
            { right. exists (NAdd o false). split; [|apply (sg_key _ _ _ (iv_sg _ _ _ HI)); done]. apply elem_of_list_fmap. exists o. split; [done|].
              unfold dvals. apply elem_of_list_fmap. exists (k, o). split; [done|]. by apply dget_elem_of. }
            left. split; [done|]. intros n Hn Hab. destruct (Hbk n Hn Hab) as (o & -> & ?). congruence. }
    destruct Hlog as (new & Hlog & Hnew & Hreg).
    assert (Hpend : pending z' = pending z ++ new) by (unfold pending; simpl; rewrite Hlog, drop_app_le by done; by rewrite app_assoc).
    split; simpl; try done.
    - rewrite Hlog, app_length. lia.
    - intros n. rewrite Hpend. intros [?|?]%elem_of_app; [by apply Hgood|by apply Hnew].
    - intros Hr. unfold owed. simpl. rewrite Hpend. destruct (Hreg Hr) as [(Hnr & [(Hcn & Hno)|(n & Hn & Hab)])|(Hr0 & [(n & Hn & Hab)|(Hnn & Hcn)])].
      + left. split; [done|]. intros n. rewrite Hlog. intros [Hn|?]%elem_of_app; [|by apply Hno].
        rewrite log_of_logs in Hn. destruct (logs (h_proc h) !! i) eqn:E; [|by apply elem_of_nil in Hn]. destruct Hnr. apply registered_logs. by eexists.
      + right; left. exists n. split; [apply elem_of_app; by right|done].
      + right; left. exists n. split; [apply elem_of_app; by right|done].
      + destruct (Howed Hr0) as [(H1 & H2)|[(n & Hn & Hab)|[?|[?|?]]]]; simpl in *; [| | | |].
        * left. destruct (Hcn H1) as [H3 H4]. split; [done|]. intros n. rewrite Hlog. intros [?|?]%elem_of_app; [by apply H2|by apply H4].
        * right; left. exists n. split; [apply elem_of_app; by left|done].
        * by right; right; left.
        * by do 3 right; left.
        * do 4 right. by apply since_snoc.
  Qed.

  Lemma live_ext tr z lab l' f' a' b' k' : live tr z →
    shape l' → l_stop l' = false → f' ≤ length (log_of i (z_inf z)) → (∀ n, n ∈ lpart l' ++ drop f' (log_of i (z_inf z)) → n ∈ pending z) →
    (a' ≠ [] → ∃ n, l_run l' = RHandling n) → silent lab →
    (∀ n, n ∈ pending z → about k n → n ∈ lpart l' ++ drop f' (log_of i (z_inf z)) ∨ r ∈ a') →
    (r ∈ z_adds z → r ∈ a' ∨ r ∈ wq_dirty (dq_base (k_q k'))) →
    (r ∈ dirty z → r ∈ wq_dirty (dq_base (k_q k')) ∨ started_since (tr ++ [lab])) →
    live (tr ++ [lab]) (Sys (z_world z) (z_inf z) f' l' a' b' k').
  Proof.
    intros [Hsh Hst Hfed Hgood Hadds Howed] H1 H2 H3 H4 H5 Hnn H6 H7 H8. split; simpl; try done.
    - intros n Hn. by apply Hgood, H4.
    - intros Hr. unfold owed, pending, dirty. simpl. destruct (Howed Hr) as [?|[(n & Hn & Hab)|[Ha|[Hd|Hs]]]].
      + by left.
      + destruct (H6 n Hn Hab) as [?|?]; [right; left; by exists n|tauto].
      + destruct (H7 Ha); tauto.
      + destruct (H8 Hd); tauto.
      + do 4 right. by apply since_snoc.
  Qed.
  Lemma ctl_dirty z x k' : ZI [] z ∨ (∃ tr, ZI tr z) → kst (z_ctl z) (KEnv (DAdd x)) k' → x ∈ wq_dirty (dq_base (k_q k')) ∧ ∀ y, y ∈ dirty z → y ∈ wq_dirty (dq_base (k_q k')).
  Proof.
    intros HZ Hk. assert (∃ ktr, reach kst (kinit t0 workers) ktr (z_ctl z)) as [ktr Hr] by (destruct HZ as [HZ|[? HZ]]; apply HZ).
    pose proof (queue_up _ _ _ _ _ Hr) as Hup. split.
    - inversion Hk as [l q' Ho Ht| | | | | |]; subst. inversion Ht; subst. simpl. apply DelayQueue_proofs.wq_add_dirty; [done|]. by left.
    - intros y Hy. destruct (step_dirty _ y _ _ _ Hk Hy) as [(? & ? & ?)|?]; done.
  Qed.
  Lemma ZI_step tr z lab z' : ZI tr z → zstep z lab z' → well_named k ns name lab → announced i k z lab → ZI (tr ++ [lab]) z'.
  Proof.
    intros HZ Hst Hwn Han. pose proof HZ as [HB Hch Hnm Hct Hlv].
    inversion Hst as [w h f l a b kk wl w' s' Hrun Hlock Hw|w h f l a b kk c h' x Hown Hh|w h f l a b kk n l' Hlog Hl|w h f l a b kk ll l' Hfree Hl|w h f l a b kk n l' Hl
      |w h f l x a b kk k' Hk|w h f l b kk l' Hl|w h f l a b kk kl k' Hk]; subst; simpl in *; clear Hst.
    - assert (Hch' : ∀ e, e ∈ w_changes w' → queue_key (e_obj e) = Some k → named (e_obj e) ns name).
      { inversion Hw as [w0 s0 e Hgc|w0 s0 e y s1 out Hcur Hr|w0 s0 y y' s1 out Hsv Hr]; subst; simpl.
        - intros e' [?| ->%elem_of_list_singleton]%elem_of_app; [by apply Hch|done].
        - destruct (observe_changes w (w_cursor w + 1) y out) as [-> _]. done.
        - destruct (observe_changes w (cursor_after w y) y' out) as [-> _]. done. }
      assert (Hnn : silent (ZWorld wl)) by (by intros ? ? [=]).
      destruct (wstep_inf _ _ _ _ _ Hw) as [->|(c & res & Hi & Hf & Hsl & _ & Hobj)].
      + destruct h as [ih ph]. simpl in *. split; simpl; try done. intros Hs. apply (live_inf tr (Sys w (Shared ih ph) f l a b kk) _ (Shared ih ph) w'); try done. right. split; [done|]. split; [done|by left].
      + assert (Hrun' : running h = true) by (destruct Hrun as [?|Hbs]; [done|by destruct wl]).
        pose proof (world_hstep _ _ _ _ Hrun' Hf Hi) as Hh. destruct (hstep_effect _ _ _ _ HB Hh) as [HB' Hcase]. split; simpl; try done.
        * eapply names_step; [apply HB|exact Hi|done| |done]. intros o Ho Hk. destruct (Hobj o Ho) as [(e & He & <-)|(items & v & -> & Ho')]; [by apply Hch|]. by apply Hwn.
        * intros Hs. apply (live_inf tr (Sys w h f l a b kk) _ (Shared s' (h_proc h)) w'); try done. right. split; [done|].
          destruct Hcase as [(n & k0 & d & [=] & _)|(_ & Hcc & Hl)]. by split.
    - destruct (hstep_effect _ _ _ _ HB Hh) as [HB' Hcase]. split; simpl; try done.
      + destruct c as [c|req now| | |t].
        * apply hinf_step in Hh as [(-> & -> & _)|(y & r1 & Hal & Hi & -> & Hx & Hp)]; [done|]. subst y. eapply names_step; [apply HB|exact Hi| | |done].
          { intros Hf. destruct c; try done; unfold allowed in Hal; done. }
          intros o Ho. simpl in Hown. destruct c; simpl in *; try done; by apply elem_of_nil in Ho.
        * simpl in Hh. destruct (p_started _ && _); [destruct (d_busy _)|]; by injection Hh as <- <-.
        * by injection Hh as <- <-.
        * simpl in Hh. destruct (p_started _); by injection Hh as <- <-.
        * simpl in Hh. by injection Hh as <- <-.
      + intros Hs. assert (Hs0 : stopped (Sys w h f l a b kk) = false) by (by eapply stopped_step).
        apply (live_inf tr (Sys w h f l a b kk) _ h' w); try done. destruct Hcase as [(n & k0 & d & -> & Hp & Hrest)|(Hno & Hrest)].
        * left. by eexists n, k0, d, _.
        * right. split; [|done]. intros c' n [= <- ->]. by destruct (Hno n).
    - split; simpl; try done. intros Hs. specialize (Hlv Hs). pose proof Hlv as [Hsh Hstop Hfed Hgood Hadds Howed]. simpl in *.
      pose proof (lpart_step _ _ _ Hsh Hstop Hl) as Hpart. simpl in Hpart.
      assert (Heq : lpart l' ++ drop (f + 1) (log_of i h) = pending (Sys w h f l a b kk)).
      { unfold pending. simpl. rewrite Hpart, <-app_assoc, (drop_S _ _ _ Hlog). by replace (f + 1) with (S f) by lia. }
      apply (live_ext tr (Sys w h f l a b kk)); simpl; try done.
      + by eapply shape_step.
      + by rewrite (stop_step _ _ _ (ltac:(done) : LAdd n ≠ LStop) Hl).
      + apply lookup_lt_Some in Hlog. lia.
      + intros n' Hn'. by rewrite <-Heq.
      + intros Ha. destruct (Hadds Ha) as [n' Hn']. destruct (handling_step _ _ _ _ Hl Hn') as [[?|?]|?]; [done|done|by eexists].
      + intros n' Hn' _. left. by rewrite Heq.
      + by left.
      + by left.
    - split; simpl; try done. intros Hs. specialize (Hlv Hs). pose proof Hlv as [Hsh Hstop Hfed Hgood Hadds Howed]. simpl in *.
      assert (Hll : ll ≠ LStop ∧ ll ≠ LAddCancel ∧ (∀ n, ll ≠ LAdd n) ∧ (∀ n, ll ≠ LCall n) ∧ ll ≠ LReturn ∧ ll ≠ LRaise).
      { unfold stopped in Hs. simpl in Hs. destruct ll; simpl in Hfree; rewrite ?Hs in Hfree; done. }
      destruct Hll as (N1 & N2 & N3 & N4 & N5 & N6).
      assert (Hpart : lpart l' = lpart l). { pose proof (lpart_step _ _ _ Hsh Hstop Hl) as Hx. destruct ll; try done. }
      apply (live_ext tr (Sys w h f l a b kk)); simpl; try done.
      + by eapply shape_step.
      + by rewrite (stop_step _ _ _ N1 Hl).
      + intros n'. by rewrite Hpart.
      + intros Ha. destruct (Hadds Ha) as [n' Hn']. destruct (handling_step _ _ _ _ Hl Hn') as [[?|?]|?]; [done|done|by eexists].
      + intros n' Hn' _. left. by rewrite Hpart.
      + by left.
      + by left.
    - split; simpl; try done. intros Hs. specialize (Hlv Hs). pose proof Hlv as [Hsh Hstop Hfed Hgood Hadds Howed]. simpl in *.
      pose proof (lpart_step _ _ _ Hsh Hstop Hl) as Hpart. simpl in Hpart.
      assert (a = []) as -> by (destruct a; [done|]; destruct Hadds as [n' Hn']; [done|]; inversion Hl; subst; done).
      assert (Hpend : pending (Sys w h f l [] b kk) = n :: lpart l' ++ drop f (log_of i h)) by (unfold pending; simpl; by rewrite Hpart).
      apply (live_ext tr (Sys w h f l [] b kk)); simpl; try done.
      + by eapply shape_step.
      + by rewrite (stop_step _ _ _ (ltac:(done) : LCall n ≠ LStop) Hl).
      + intros n' Hn'. rewrite Hpend. by right.
      + intros _. exists n. by inversion Hl.
      + intros n' Hn' Hab. rewrite Hpend in Hn'. apply elem_of_cons in Hn' as [->|?]; [|by left]. right. apply good_adds; [done|]. apply Hgood; [rewrite Hpend; by left|done].
      + by intros ?%elem_of_nil.
      + by left.
    - pose proof (ctl_dirty (Sys w h f l (x :: a) b kk) x k' (or_intror (ex_intro _ _ HZ)) Hk) as [Hx Hd].
      split; simpl; try done.
      { destruct Hct as [ktr Hr]. eexists. by eapply reach_snoc. }
      intros Hs. specialize (Hlv Hs). pose proof Hlv as [Hsh Hstop Hfed Hgood Hadds Howed]. simpl in *.
      apply (live_ext tr (Sys w h f l (x :: a) b kk)); simpl; try done.
      + intros _. by apply Hadds.
      + intros n' Hn' _. by left.
      + intros [<-|?]%elem_of_cons; [by right|by left].
      + intros ?. left. by apply Hd.
    - split; simpl; try done. intros Hs. specialize (Hlv Hs). pose proof Hlv as [Hsh Hstop Hfed Hgood Hadds Howed]. simpl in *.
      assert (Hpart : lpart l' = lpart l) by (pose proof (lpart_step _ _ _ Hsh Hstop Hl) as Hx; by destruct b).
      apply (live_ext tr (Sys w h f l [] b kk)); simpl; try done.
      + by eapply shape_step.
      + rewrite (stop_step _ _ _ (ltac:(by destruct b) : (if b then LRaise else LReturn) ≠ LStop) Hl). done.
      + intros n'. by rewrite Hpart.
      + intros n' Hn' _. left. by rewrite Hpart.
      + by left.
      + by left.
    - split; simpl; try done.
      { destruct Hct as [ktr Hr]. eexists. by eapply reach_snoc. }
      intros Hs. specialize (Hlv Hs). pose proof Hlv as [Hsh Hstop Hfed Hgood Hadds Howed]. simpl in *.
      apply (live_ext tr (Sys w h f l a b kk)); simpl; try done.
      + intros n' Hn' _. by left.
      + by left.
      + intros Hd. destruct (step_dirty _ r _ _ _ Hk Hd) as [(j & t & ->)|?]; [|by left]. right. exists tr, j, t, []. split; [done|]. by intros ? ?%elem_of_nil.
  Qed.

  (** ** C79 *)
  Lemma cached_cont z : cached k z = cont k (h_inf (z_inf z)).
  Proof. unfold cached. by rewrite look_cont. Qed.
  Lemma cached_step z lab z' : base (z_inf z) → zstep z lab z' → silent lab → cached k z' = cached k z.
  Proof.
    intros HB Hst Hn. rewrite !cached_cont.
    inversion Hst as [w h f l a b kk wl w' s' Hrun Hlock Hw|w h f l a b kk c h' x Hown Hh| | | | | |]; subst; simpl in *; try done.
    - destruct (wstep_inf _ _ _ _ _ Hw) as [->|(c & res & Hi & Hf & Hsl & _ & Hobj)]; [done|].
      assert (Hrun' : running h = true) by (destruct Hrun as [?|Hbs]; [done|by destruct wl]).
      pose proof (world_hstep _ _ _ _ Hrun' Hf Hi) as Hh. destruct (hstep_effect _ _ _ _ HB Hh) as [HB' [(n & k0 & d & [=] & _)|(_ & Hcc & _)]]. apply (Hcc k).
    - destruct (hstep_effect _ _ _ _ HB Hh) as [HB' [(n & k0 & d & -> & _ & Hk0 & Heq & _ & Hcc)|(_ & Hcc & _)]]; [|apply Hcc].
      rewrite Hcc. case_decide as Hkk; [|done]. subst k0.
      assert (Hobj : notif_obj n = d.2) by (rewrite Heq; unfold notif_of; destruct d as [[] o]; simpl; try destruct (cont k (h_inf h)); done).
      destruct (Hn c n eq_refl) as (o & b' & ->); [unfold about; by rewrite Hobj|].
      unfold notif_of, settle in *. destruct d as [[] o']; simpl in *; try done; destruct (cont k (h_inf h)); by simplify_eq.
  Qed.

  Notation cstep := (λ z l z', zstep z l z' ∧ well_named k ns name l ∧ announced i k z l).
  Lemma ZI_reach tr z : reach cstep init tr z → ZI tr z.
  Proof.
    apply (reach_trace_inv cstep ZI); [apply ZI_init|]. intros tr1 z1 l z2 _ HZ (Hst & Hwn & Han). by eapply ZI_step.
  Qed.
  Lemma silent_const z b z' : base (z_inf z) → reach cstep z b z' → (∀ l, l ∈ b → silent l) → base (z_inf z') ∧ cached k z = cached k z'.
  Proof.
    intros HB Hr. induction Hr as [|tr z1 l z2 Hr IH Hst]; intros Hs; [done|]. destruct IH as [HB1 ->]; [intros l' ?; apply Hs, elem_of_app; by left|].
    destruct Hst as (Hst & Hwn & Han). split.
    - inversion Hst as [w h f ll a b kk wl w' s' Hrun Hlock Hw|w h f ll a b kk c h' x Hown Hh| | | | | |]; subst; simpl in *; try done.
      + destruct (wstep_inf _ _ _ _ _ Hw) as [->|(c & res & Hi & Hf & Hsl & _ & Hobj)]; [by destruct h|].
        assert (Hrun' : running h = true) by (destruct Hrun as [?|Hbs]; [done|by destruct wl]).
        by destruct (hstep_effect _ _ _ _ HB1 (world_hstep _ _ _ _ Hrun' Hf Hi)).
      + by destruct (hstep_effect _ _ _ _ HB1 Hh).
    - symmetry. eapply cached_step; [done|done|]. apply Hs, elem_of_app. right. by left.
  Qed.
  Lemma since_reconciled tr z : reach cstep init tr z → started_since tr → reconciled_since cstep init k r tr z.
  Proof.
    intros Hr Hst. destruct Hst as (tr1 & j & t & tr2 & -> & Hsil). pose proof Hr as (z1 & Hr1 & Hr2)%reach_app_inv.
    apply (reach_app_inv _ _ [_]) in Hr2 as (z2 & Hst%reach_one_inv & Hr2).
    exists tr1, z1, j, t, z2, tr2. repeat (split; [done|]). intros a b z' -> Ha Hb.
    assert (HB : base (z_inf z')).
    { eapply zi_base, ZI_reach. eapply reach_app; [exact Hr1|]. eapply reach_cons; [exact Hst|exact Ha]. }
    apply (silent_const z' b z HB Hb). intros l Hl. apply Hsil, elem_of_app. by right.
  Qed.
  Lemma last_reconcile tr z : reach cstep init tr z → registered i z → stopped z = false → quiet i k r z →
    cached k z = None ∧ (∀ n, n ∈ log_of i (z_inf z) → ¬ about k n) ∨ reconciled_since cstep init k r tr z.
  Proof.
    intros Hr Hreg Hs (Hq1 & Hq2 & Hq3). pose proof (ZI_reach _ _ Hr) as HZ. destruct (lv_owed _ _ (zi_live _ _ HZ Hs) Hreg) as [?|[(n & Hn & Hab)|[?|[?|Hst]]]].
    - left. by rewrite cached_cont.
    - exfalso. apply (Hq1 n); [|done]. unfold pending in Hn. apply elem_of_app in Hn as [?|?]; [right; by apply held_lpart|by left].
    - done.
    - done.
    - right. by apply since_reconciled.
  Qed.

  (** with C42 *)
  Lemma zstep_y z lab z' : zstep z lab z' → calm_lists z lab →
    (z_world z' = z_world z ∧ h_inf (z_inf z') = h_inf (z_inf z)) ∨
    ∃ l, ystep queue_key g (z_world z, h_inf (z_inf z)) l (z_world z', h_inf (z_inf z')) ∧ careful queue_key (z_world z, h_inf (z_inf z)) l ∧ ∀ j, intact j (z_world z, h_inf (z_inf z)) l.
  Proof.
    intros Hst Hcalm. inversion Hst as [w h f ll a b kk wl w' s' Hrun Hlock Hw|w h f ll a b kk c h' x Hown Hh| | | | | |]; subst; simpl in *; try (by left).
    - right. exists (YWorld wl). split; [by constructor|]. split; [|done]. destruct wl as [| |[]]; done.
    - destruct c as [c|req now| | |t].
      + apply hinf_step in Hh as [(-> & -> & _)|(y & r1 & Hal & Hi & -> & Hx & Hp)]; [by left|]. subst y. right. exists (YInf c). split; [by econstructor|]. split; [done|].
        intros j. destruct c as [| | | | | | | | | |[]| | |]; done.
      + left. simpl in Hh. destruct (p_started _ && _); [destruct (d_busy _)|]; by injection Hh as <- <-.
      + left. by injection Hh as <- <-.
      + left. simpl in Hh. destruct (p_started _); by injection Hh as <- <-.
      + left. simpl in Hh. by injection Hh as <- <-.
  Qed.
  Lemma cached_server tr z v : reach (λ z l z', zstep z l z' ∧ calm_lists z l) init tr z → r_last (w_refl (z_world z)) = Some v → drained (h_inf (z_inf z)) →
    cached k z = DObj <$> server_at queue_key (w_changes (z_world z)) v k.
  Proof.
    intros Hr Hv Hd. assert (YI queue_key g fs k (z_world z) (h_inf (z_inf z))) as (HI & _ & Hc).
    { revert Hr. apply (reach_inv _ (λ z, YI queue_key g fs k (z_world z) (h_inf (z_inf z)))).
      - intros z1 l z2 HY (Hst & Hcalm). destruct (zstep_y _ _ _ Hst Hcalm) as [(-> & ->)|(yl & Hy & Hca & Hin)]; [done|]. eapply (YI_step queue_key g fs Hfs); try done; apply Hin.
      - split; [by apply INV_init|]. split; [apply WInv_init|done]. }
    rewrite cached_cont. rewrite (drained_eventual _ _ Hd). by apply Hc.
  Qed.
  Lemma reach_weaken {S L : Type} (P Q : S → L → S → Prop) s ls s' : (∀ a l b, P a l b → Q a l b) → reach P s ls s' → reach Q s ls s'.
  Proof. intros H Hr. induction Hr; [constructor|]. econstructor; [done|]. by apply H. Qed.
  Lemma end_to_end tr z v : reach (λ z l z', (zstep z l z' ∧ well_named k ns name l ∧ announced i k z l) ∧ calm_lists z l) init tr z →
    registered i z → stopped z = false → quiet i k r z → drained (h_inf (z_inf z)) → r_last (w_refl (z_world z)) = Some v →
    cached k z = DObj <$> server_at queue_key (w_changes (z_world z)) v k ∧
    (server_at queue_key (w_changes (z_world z)) v k = None ∧ (∀ n, n ∈ log_of i (z_inf z) → ¬ about k n) ∨ reconciled_since cstep init k r tr z).
  Proof.
    intros Hr Hreg Hs Hq Hd Hv. assert (Hc : cached k z = DObj <$> server_at queue_key (w_changes (z_world z)) v k).
    { eapply cached_server; [|done|done]. eapply reach_weaken; [|exact Hr]. intros ??? ((? & _) & ?). done. }
    split; [done|]. assert (Hr' : reach cstep init tr z) by (eapply reach_weaken; [|exact Hr]; by intros ??? (? & _)).
    destruct (last_reconcile _ _ Hr' Hreg Hs Hq) as [(Hn & Hlog)|?]; [left|by right]. split; [|done]. rewrite Hn in Hc. by destruct (server_at _ _ _ _).
  Qed.

  (** ** A single list *)
  Lemma wstep_inf2 w (s : inf pystr pyobj V N) wl w' s' : INV s → WInv queue_key g w → (d_busy (i_q s) = None ∨ storeless wl = true) →
    World_model.wstep queue_key g (inf_sops queue_key) (w, s) wl (w', s') →
    (s' = s ∧ (r_last (w_refl w') = None → r_last (w_refl w) = None)) ∨
    ∃ c res, istep s c = (s', IQ res) ∧ match c with
      | QReplace l => (∃ v, wl = WInput (IList l v)) ∧ r_last (w_refl w') ≠ None
      | QAdd _ | QUpdate _ | QDelete _ => r_last (w_refl w') ≠ None
      | QResync => r_last (w_refl w') = None → r_last (w_refl w) = None
      | _ => False end.
  Proof.
    intros HI HW Hlock Hw. pose proof HW as [Hg Hn Ho Hs].
    assert (Hin : ∀ c s1 b, ok_of (istep s c) = (s1, b) → match c with QAdd _ | QUpdate _ | QDelete _ | QReplace _ | QResync => True | _ => False end → ∃ res, istep s c = (s1, IQ res)).
    { intros c s1 b Hok Hq. unfold ok_of in Hok. injection Hok as <- _.
      assert (∃ res, (istep s c).2 = IQ res) as [res Hres] by (destruct c; try done; unfold Informer_model.istep, call_q; destruct (dstep _ _ _); by eexists).
      exists res. by rewrite <-Hres, <-surjective_pairing. }
    inversion Hw as [w0 s0 e Hgc|w0 s0 e x s1 out Hcur Hr|w0 s0 y x s1 out Hsv Hr]; subst; [by left|..]; apply (rstep_kind g _ w) in Hr.
    - destruct (observe_changes w (w_cursor w + 1) x out) as [_ Hor]. rewrite Hor.
      inversion Hr as [| |e' m rv s2 out' Hpc Hf Ha Hap| | |y r' out' He' Hout Hrep Hl Hop Hac Hwa]; subst; [|left; by rewrite Hl]. simpl.
      unfold apply_event in Hap. destruct (e_type e); simpl in Hap; try (injection Hap as <- _; by left); injection Hap as <- _; right.
      + destruct (Hin (QAdd (e_obj e)) _ _ eq_refl I) as [res Hres]. by exists (QAdd (e_obj e)), res.
      + destruct (Hin (QUpdate (e_obj e)) _ _ eq_refl I) as [res Hres]. by exists (QUpdate (e_obj e)), res.
      + destruct (Hin (QDelete (e_obj e)) _ _ eq_refl I) as [res Hres]. by exists (QDelete (e_obj e)), res.
    - destruct (observe_changes w (cursor_after w y) x out) as [_ Hor]. rewrite Hor.
      inversion Hr as [items v s2 Hpc Hrp|items v s2 Hpc Hrp|e m rv s2 out' Hpc Hf Ha Hap|due s2 ok Hac Hre|Hpc|y' r' out' He Hout Hrep Hl Hop Hac Hwa]; subst; simpl.
      + right. destruct (Hin (QReplace items) _ _ Hrp I) as [res Hres]. exists (QReplace items), res. split; [done|]. split; [by eexists|done].
      + exfalso. simpl in Hlock. destruct Hlock as [Hb|]; [|done]. destruct Hsv as (Hle & Hks & Hgl).
        change (ok_of (istep s (QReplace items)) = (s', false)) in Hrp. unfold ok_of in Hrp. injection Hrp as _ Hf.
        cbn [Informer_model.istep] in Hf. unfold call_q in Hf.
        pose proof (replace_ok queue_key (i_q s) (Some (known_of (i_st s))) (DObj <$> items) (iv_di _ _ _ HI) Hb) as Hok.
        destruct (dstep queue_key (i_q s) (DReplace (Some (known_of (i_st s))) (DObj <$> items))) as [q3 r3]. simpl in *. rewrite Hok in Hf; [done|].
        intros o (o' & -> & Ho')%elem_of_list_fmap. by apply Hks.
      + destruct Hsv as [[Hty _]|Hna]; [|by destruct (Hna rv)]. unfold apply_event in Hap. left. destruct Hty as [Hty|Hty]; rewrite Hty in Hap; by simplify_eq.
      + right. destruct (Hin QResync _ _ Hre I) as [res Hres]. by exists QResync, res.
      + by left.
      + left. by rewrite Hl.
  Qed.

  Definition fresh_empty z : Prop := r_last (w_refl (z_world z)) = None → ∀ j, work j (h_inf (z_inf z)) = [] ∧ cont j (h_inf (z_inf z)) = None.
  Record SL z : Prop := {
    sl_y : YI0 queue_key g fs (z_world z) (h_inf (z_inf z));
    sl_sync : registered i z → i ∈ p_syncing (h_proc (z_inf z));
    sl_empty : fresh_empty z;
    sl_tomb : ∀ d, d ∈ work k (h_inf (z_inf z)) → is_tomb d.2 = false;
    sl_changes : ∀ e, e ∈ w_changes (z_world z) → queue_key (e_obj e) = Some k → named (e_obj e) ns name;
    sl_names : okk (h_inf (z_inf z));
    sl_base : base (z_inf z)
  }.
  Lemma SL_init : SL init.
  Proof.
    destruct ZI_init as [H1 H2 H3 H4 H5]. split; try done.
    - split; [by apply INV_init|apply WInv_init].
    - unfold registered. simpl. lia.
    - simpl. intros d. unfold work, todo_of, pend. simpl. rewrite dget_nil. by intros ?%elem_of_nil.
  Qed.
  Lemma syncing_step (s : shared) c s' x : hstep s c = (s', x) → (∀ t, c ≠ HShouldResync t) →
    (i < length (p_ls (h_proc s)) → i ∈ p_syncing (h_proc s)) → i < length (p_ls (h_proc s')) → i ∈ p_syncing (h_proc s').
  Proof.
    intros Hst Hno Hin. destruct c as [c|req now| | |t]; [..|by destruct (Hno t)].
    - apply hinf_step in Hst as [(-> & -> & _)|(y & r1 & Hal & Hi & -> & Hx & Hp)]; [done|]. destruct Hp as [(n & _ & ->)|[_ ->]]; [|done]. simpl. by rewrite imap_length.
    - assert (Hreg : ∀ b, i < length (p_ls (register second dflt (h_proc s) req now b)) → i ∈ p_syncing (register second dflt (h_proc s) req now b)).
      { intros b. unfold register. destruct (p_stopped (h_proc s)); [done|].
        assert (Hlen : ∀ ch (ls : list (lst notif)), length (check_changed ch ls) = length ls) by (intros; unfold check_changed; apply fmap_length).
        repeat case_match; simplify_eq/=; rewrite app_length; simpl; rewrite ?Hlen, elem_of_app, elem_of_list_singleton; intros ?; (destruct (decide (i < length (p_ls (h_proc s)))); [left; by apply Hin|right; lia]). }
      simpl in Hst. destruct (p_started _ && _); [destruct (d_busy _)|]; injection Hst as <- <-; simpl; try done; apply Hreg.
    - by injection Hst as <- <-.
    - simpl in Hst. destruct (p_started _); by injection Hst as <- <-.
  Qed.
  Lemma SL_calm z lab : SL z → single_list z lab → calm_lists z lab.
  Proof.
    intros HS Hsl. destruct lab as [[| |[| items v| | | | | | | | |]]| | | |]; try done. simpl in *. intros j. destruct (sl_empty _ HS Hsl j) as [Hw Hc].
    unfold cont in Hc. assert (pend j (i_q (h_inf (z_inf z))) = []) as Hp by (unfold work in Hw; by apply app_eq_nil in Hw as [_ ->]).
    unfold pend in Hp. rewrite Hp, Hc. unfold calm. destruct (last_keyed queue_key j items); [done|by left].
  Qed.
  Lemma SL_step z lab z' : SL z → zstep z lab z' → well_named k ns name lab → single_list z lab → SL z' ∧ announced i k z lab.
  Proof.
    intros HS Hst Hwn Hsl. pose proof (SL_calm _ _ HS Hsl) as Hcalm. pose proof HS as [HY Hsy Hem Htb Hch Hnm HB].
    assert (HY' : YI0 queue_key g fs (z_world z') (h_inf (z_inf z'))).
    { destruct (zstep_y _ _ _ Hst Hcalm) as [(-> & ->)|(yl & Hy & _)]; [done|]. by eapply (YI0_step queue_key g fs Hfs). }
    destruct HY as [HI HW].
    inversion Hst as [w h f l a b kk wl w' s' Hrun Hlock Hw|w h f l a b kk c h' x Hown Hh|w h f l a b kk n l' Hlog Hl|w h f l a b kk ll l' Hfree Hl|w h f l a b kk n l' Hl
      |w h f l x a b kk k' Hk|w h f l b kk l' Hl|w h f l a b kk kl k' Hk]; subst; simpl in *; clear Hst; try (split; [by split|by intros ? ? [=]]).
    - split; [|by intros ? ? [=]].
      assert (Hch' : ∀ e, e ∈ w_changes w' → queue_key (e_obj e) = Some k → named (e_obj e) ns name).
      { inversion Hw as [w0 s0 e Hgc|w0 s0 e y s1 out Hcur Hr|w0 s0 y y' s1 out Hsv Hr]; subst; simpl.
        - intros e' [?| ->%elem_of_list_singleton]%elem_of_app; [by apply Hch|done].
        - destruct (observe_changes w (w_cursor w + 1) y out) as [-> _]. done.
        - destruct (observe_changes w (cursor_after w y) y' out) as [-> _]. done. }
      assert (okk s' ∧ base (Shared s' (h_proc h))) as [Hok' HB'].
      { destruct (wstep_inf _ _ _ _ _ Hw) as [->|(c & res & Hi & Hf & Hsl' & _ & Hobj)]; [by destruct h|].
        assert (Hrun' : running h = true) by (destruct Hrun as [?|Hbs]; [done|by destruct wl]).
        pose proof (world_hstep _ _ _ _ Hrun' Hf Hi) as Hh. destruct (hstep_effect _ _ _ _ HB Hh) as [HB' _]. split; [|done].
        eapply names_step; [apply HB|exact Hi|done| |done]. intros o Ho Hk. destruct (Hobj o Ho) as [(e & He & <-)|(items & v & -> & Ho')]; [by apply Hch|]. by apply Hwn. }
      destruct (wstep_inf2 _ _ _ _ _ HI HW Hlock Hw) as [(-> & Hl)|(c & res & Hi & Hc)].
      { split; simpl; try done. intros Hn. apply Hem. by apply Hl. }
      destruct (INV_step queue_key fs Hfs _ _ _ _ HI Hi) as [HI' Hef].
      assert (Hwork : (∀ d, d ∈ work k s' → is_tomb d.2 = false) ∧ (r_last (w_refl w') = None → ∀ j, work j s' = [] ∧ cont j s' = None)).
      { destruct Hef as [Hs Hwk Hn|dc res' Hdc Hb Hb' Hs Hpe _ _ _|k0 ds d rest -> Hb Hrr Hk Hwk Hw' Ho Hcc|k0 ds [-> | ->] _ _ _ _ _|k0 ds cause -> _ _ _ _ _ _]; [| |done..].
        - split; [intros d; rewrite Hwk; apply Htb|]. intros Hl j. rewrite Hwk. unfold cont. rewrite Hs. destruct c; try (by destruct Hc); try done. by apply Hem, Hc.
        - split.
          + intros d. rewrite idle_work in Htb |- * by done. rewrite Hpe. intros [Hd|Hd]%absorb_all_elem; [by apply Htb|].
            destruct c as [o|o|o|os| | |j| | | |rq| | |j]; try done; simpl in Hdc; injection Hdc as <-; simpl in Hd.
            1-3: case_decide; [by apply elem_of_list_singleton in Hd as ->|by apply elem_of_nil in Hd].
            * destruct Hc as [[v ->] _]. destruct (Hem Hsl k) as [Hw0 Hc0]. apply elem_of_app in Hd as [Hd|Hd].
              -- apply elem_of_list_fmap in Hd as (o & -> & [Hko Ho]%elem_of_list_filter).
                 assert (o ∈ DObj <$> os) as (o' & -> & Ho')%elem_of_list_fmap by (revert Ho; generalize (DObj (K:=pystr) <$> os); intros l0; induction l0 as [|o1 l0 IH]; simpl; [done|]; case_match; [set_solver|by intros ?%elem_of_nil]).
                 done.
              -- case_decide; [|by apply elem_of_nil in Hd]. apply elem_of_list_fmap in Hd as (j & -> & [-> Hj]%elem_of_list_filter). simpl in Hj. apply elem_of_dkeys in Hj as [o Ho]. unfold cont in Hc0. simpl in Hc0. congruence.
            * case_decide; [|by apply elem_of_nil in Hd]. rewrite (found_at queue_key fs _ _ (iv_sg _ _ _ HI)) in Hd. destruct (dget k (s_items (i_st (h_inf h)))) as [o|] eqn:Hg; [|by apply elem_of_nil in Hd].
              apply elem_of_list_singleton in Hd as ->. destruct Hnm as [_ Hnm]. by destruct (Hnm _ Hg) as (o' & -> & _).
          + intros Hl j. destruct c as [o|o|o|os| | |j'| | | |rq| | |j']; try done; [by destruct Hc|]. simpl in Hdc. injection Hdc as <-.
            destruct (Hem (Hc Hl) j) as [Hw0 Hc0]. simpl in Hw0, Hc0. rewrite idle_work in Hw0 |- * by done. rewrite Hpe, Hw0. unfold cont in *. rewrite Hs, Hc0. split; [|done]. simpl.
            try rewrite decide_True by done. by rewrite (found_at queue_key fs _ _ (iv_sg _ _ _ HI)), Hc0. }
      destruct Hwork as [Ht' He']. split; simpl; done.
    - assert (okk (h_inf h') ∧ base h' ∧ (∀ d, d ∈ work k (h_inf h') → is_tomb d.2 = false) ∧ fresh_empty (Sys w h' f l a b kk)) as (Hok' & HB' & Ht' & He').
      { assert (Hsame : h_inf h' = h_inf h → okk (h_inf h') ∧ base h' ∧ (∀ d, d ∈ work k (h_inf h') → is_tomb d.2 = false) ∧ fresh_empty (Sys w h' f l a b kk)).
        { destruct (hstep_effect _ _ _ _ HB Hh) as [HB' _]. unfold fresh_empty. simpl. by intros ->. }
        destruct c as [c|req now| | |t].
        - pose proof (hstep_effect _ _ _ _ HB Hh) as [HB' _].
          apply hinf_step in Hh as [(-> & -> & _)|(y & r1 & Hal & Hi & -> & Hx & Hp)]; [by apply Hsame|]. subst y.
          assert (Hf : ¬ fails c) by (intros Hf; destruct c; try done; unfold allowed in Hal; done).
          split; [|split; [done|]].
          { eapply names_step; [apply HB|exact Hi|done| |done]. intros o Ho. simpl in Hown. destruct c; simpl in *; try done; by apply elem_of_nil in Ho. }
          destruct (INV_step queue_key fs Hfs _ _ _ _ HI Hi) as [HI' Hef]. unfold fresh_empty. simpl.
          destruct Hef as [Hs Hwk Hn|dc res' Hdc Hb Hb' Hs Hpe _ _ _|k0 ds d rest -> Hb -> Hk Hwk Hw' Ho Hcc|k0 ds [-> | ->] _ _ _ _ _|k0 ds cause -> _ _ _ _ _ _]; [| | |by destruct Hf..].
          + split; [intros d; rewrite Hwk; apply Htb|]. intros Hl j. rewrite Hwk. unfold cont. rewrite Hs. by apply Hem.
          + by destruct c.
          + split.
            * intros d'. destruct (decide (k = k0)) as [<-|Hne]; [rewrite Hw'|rewrite Ho by done; apply Htb]. intros Hin. apply Htb. rewrite Hwk. by right.
            * intros Hl. destruct (Hem Hl k0) as [Hw0 _]. simpl in Hw0. congruence.
        - apply Hsame. simpl in Hh. destruct (p_started _ && _); [destruct (d_busy _)|]; by injection Hh as <- <-.
        - apply Hsame. by injection Hh as <- <-.
        - apply Hsame. simpl in Hh. destruct (p_started _); by injection Hh as <- <-.
        - done. }
      split.
      + split; simpl; try done. eapply syncing_step; [exact Hh| |done]. intros t ->. done.
      + intros c' n [= <- ->] Hab. simpl. destruct (hstep_effect _ _ _ _ HB Hh) as [_ [(n' & k0 & d & [= <-] & _ & Hk0 & Heq & Hd & _)|(Hno & _)]]; [|by destruct (Hno n)].
        assert (Hobj : notif_obj n = d.2) by (rewrite Heq; unfold notif_of; destruct d as [[] o]; simpl; try destruct (cont k0 (h_inf h)); done).
        split; [|intros _ Hr; left; by apply Hsy]. rewrite Hobj. apply Htb. assert (k0 = k) as <- by (unfold about, has_key in *; rewrite Hobj in Hab; congruence). done.
  Qed.
  Lemma SL_reach tr z : reach (λ z l z', zstep z l z' ∧ well_named k ns name l ∧ single_list z l) init tr z →
    SL z ∧ reach (λ z l z', (zstep z l z' ∧ well_named k ns name l ∧ announced i k z l) ∧ calm_lists z l) init tr z.
  Proof.
    intros Hr. induction Hr as [|tr z1 l z2 Hr IH (Hst & Hwn & Hsl)]; [split; [apply SL_init|constructor]|]. destruct IH as [HS IH].
    destruct (SL_step _ _ _ HS Hst Hwn Hsl) as [HS' Han]. split; [done|]. econstructor; [exact IH|]. split; [done|]. by apply SL_calm.
  Qed.
  Lemma single_list_ok tr z v : reach (λ z l z', zstep z l z' ∧ well_named k ns name l ∧ single_list z l) init tr z →
    registered i z → stopped z = false → quiet i k r z → drained (h_inf (z_inf z)) → r_last (w_refl (z_world z)) = Some v →
    cached k z = DObj <$> server_at queue_key (w_changes (z_world z)) v k ∧
    (server_at queue_key (w_changes (z_world z)) v k = None ∧ (∀ n, n ∈ log_of i (z_inf z) → ¬ about k n) ∨ reconciled_since cstep init k r tr z).
  Proof. intros [_ ?]%SL_reach. by apply end_to_end. Qed.
End proofs.
