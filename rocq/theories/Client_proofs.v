From Verif Require Import Base Client_model Client_spec.

Section proofs.
  Context {G T : Type} `{EqDecision G, EqDecision T}.
  Notation registry := (registry G T).
  Notation st := (cstep (G:=G) (T:=T)).
  Notation hist := (list (cop G T * cres G)).
  Implicit Types (s : registry) (h : hist) (g : G) (t : T) (ds : list (cdef G T)) (d : cdef G T).

  Lemma defs_app h1 h2 : defs (h1 ++ h2) = defs h1 ++ defs h2.
  Proof. apply omap_app. Qed.
  Lemma first_app g ds1 ds2 : first_def g (ds1 ++ ds2) = match first_def g ds1 with Some d => Some d | None => first_def g ds2 end.
  Proof. induction ds1 as [|d ds1 IH]; simpl; [done|]. by case_decide. Qed.
  Lemma first_in g ds d : first_def g ds = Some d → d ∈ ds ∧ d_gvk d = Some g.
  Proof. induction ds as [|d1 ds IH]; simpl; [done|]. case_decide as Hg; [intros [= ->]; split; [by left|done]|]. intros [? ?]%IH. split; [by right|done]. Qed.
  Lemma first_none g ds : first_def g ds = None ↔ ∀ d, d ∈ ds → d_gvk d ≠ Some g.
  Proof.
    induction ds as [|d1 ds IH]; simpl; [split; [intros _ d []%elem_of_nil|done]|]. case_decide as Hg.
    - split; [done|]. intros Hn. exfalso. apply (Hn d1); [by left|done].
    - rewrite IH. split; [intros Hn d [->|Hin]%elem_of_cons; [done|by apply Hn]|]. intros Hn d Hin. apply Hn. by right.
  Qed.

  (** what the registry has, in terms of the definitions *)
  Definition rok h s : Prop :=
    (∀ g, dget g (r_clients s) = d_cls <$> first_def g (defs h)) ∧
    (∀ g, dget g (r_types s) = first_def g (defs h) ≫= λ d, match d_type d with OType t | OUnhashable t => Some t | _ => None end) ∧
    (∀ g, g ∈ r_unstructured s ↔ ∃ d, first_def g (defs h) = Some d ∧ d_type d = OFalsy) ∧
    (∀ g t, dget t (r_gvks s) = Some g → gives (defs h) g t) ∧
    (∀ g t, gives (defs h) g t → is_Some (dget t (r_gvks s))).
  Lemma rok_exec h s : exec st reg_init h s → rok h s.
  Proof.
    apply (exec_trace_inv st rok).
    { split; [done|]. split; [done|]. split; [|split].
      - intros g. split; [by intros ?%elem_of_nil|by intros (?&?&?)].
      - done.
      - by intros g t (?&?&?). }
    clear h s. intros h s o Hx (H1&H2&H3&H4&H5). destruct o as [d|t|g0]; simpl.
    2,3: unfold rok; rewrite defs_app; simpl; rewrite app_nil_r; done.
    unfold rok. rewrite defs_app. unfold gives. change (defs [(CDefine d, (define d s).2)]) with [d].
    unfold define. destruct (d_gvk d) as [g1|] eqn:Hg1.
    2: { assert (∀ g, first_def g (defs h ++ [d]) = first_def g (defs h)) as Hf.
      { intros g. rewrite first_app. destruct (first_def g (defs h)); [done|]. simpl. rewrite decide_False; [done|]. unfold of_kind. by rewrite Hg1. }
      simpl. split; [intros g; by rewrite Hf|]. split; [intros g; by rewrite Hf|]. split; [intros g; by rewrite Hf|]. split; intros g t; rewrite Hf; [apply H4|apply H5]. }
    rewrite H1. destruct (first_def g1 (defs h)) as [d1|] eqn:Hd1.
    { assert (∀ g, first_def g (defs h ++ [d]) = first_def g (defs h)) as Hf.
      { intros g. rewrite first_app. destruct (first_def g (defs h)) eqn:Hd; [done|]. simpl. rewrite decide_False; [done|]. unfold of_kind. rewrite Hg1. intros [= ->]. congruence. }
      simpl. split; [intros g; by rewrite Hf|]. split; [intros g; by rewrite Hf|]. split; [intros g; by rewrite Hf|]. split; intros g t; rewrite Hf; [apply H4|apply H5]. }
    assert (∀ g, first_def g (defs h ++ [d]) = if decide (g = g1) then Some d else first_def g (defs h)) as Hf.
    { intros g. rewrite first_app. destruct (decide (g = g1)) as [->|Hne]; [rewrite Hd1; simpl; by rewrite decide_True|].
      destruct (first_def g (defs h)); [done|]. simpl. rewrite decide_False; [done|]. unfold of_kind. rewrite Hg1. by intros [= ->]. }
    simpl.
    assert (∀ g, dget g (dset g1 (d_cls d) (r_clients s)) = d_cls <$> (if decide (g = g1) then Some d else first_def g (defs h))) as HC.
    { intros g. rewrite dget_dset. repeat case_decide; try congruence; done. }
    assert (∀ g, dget g (r_types s) = match d_type d with OMissing | OFalsy => (if decide (g = g1) then Some d else first_def g (defs h)) ≫= λ d, match d_type d with OType t | OUnhashable t => Some t | _ => None end | _ => dget g (r_types s) end) as HT.
    { intros g. destruct (d_type d) eqn:Ht; try done; rewrite H2; (case_decide as Hgg; [subst g; rewrite Hd1; simpl; by rewrite Ht|done]). }
    assert (∀ g, (∃ d0, first_def g (defs h) = Some d0 ∧ d_type d0 = OFalsy) → g ≠ g1) as HN by (intros g (?&Hx1&_) ->; congruence).
    assert (∀ g t, gives (defs h) g t → g ≠ g1) as HN2 by (intros g t (?&Hx1&_) ->; congruence).
    destruct (d_type d) as [| |t1|t1] eqn:Ht; simpl.
    - split; [intros g; rewrite Hf; apply HC|]. split; [intros g; rewrite Hf; apply HT|]. split; [|split].
      + intros g. rewrite H3, Hf. split; [intros (d0&Ha&Hb); exists d0; rewrite decide_False; [done|by apply HN; eauto]|].
        intros (d0&Ha&Hb). case_decide; [simplify_eq; congruence|eauto].
      + intros g t Hg. pose proof (H4 _ _ Hg) as Hgi. destruct Hgi as (d0&Ha&Hb). exists d0. rewrite Hf, decide_False; [done|]. eapply HN2. by apply H4.
      + intros g t (d0&Ha&Hb). rewrite Hf in Ha. case_decide; [simplify_eq; congruence|]. apply (H5 g). by exists d0.
    - split; [intros g; rewrite Hf; apply HC|]. split; [intros g; rewrite Hf; apply HT|]. split; [|split].
      + intros g. rewrite elem_of_app, elem_of_list_singleton, H3, Hf. split.
        * intros [(d0&Ha&Hb)| ->]; [exists d0; rewrite decide_False; [done|by apply HN; eauto]|]. exists d. by rewrite decide_True.
        * intros (d0&Ha&Hb). case_decide; [by right|left; eauto].
      + intros g t Hg. pose proof (H4 _ _ Hg) as Hgi. destruct Hgi as (d0&Ha&Hb). exists d0. rewrite Hf, decide_False; [done|]. eapply HN2. by apply H4.
      + intros g t (d0&Ha&Hb). rewrite Hf in Ha. case_decide; [simplify_eq; congruence|]. apply (H5 g). by exists d0.
    - split; [intros g; rewrite Hf; apply HC|]. split; [intros g; rewrite Hf, dget_dset; destruct (decide (g = g1)) as [->|]; [rewrite ?decide_True by done; simpl; by rewrite Ht|rewrite ?decide_False by congruence; apply H2]|]. split; [|split].
      + intros g. rewrite H3, Hf. split; [intros (d0&Ha&Hb); exists d0; rewrite decide_False; [done|by apply HN; eauto]|].
        intros (d0&Ha&Hb). case_decide; [simplify_eq; congruence|eauto].
      + intros g t. rewrite dget_dset. destruct (decide (t = t1)) as [->|]; [rewrite ?decide_True by done; intros [= <-]; exists d; rewrite Hf; by rewrite decide_True|].
        rewrite ?decide_False by congruence. intros Hg. pose proof (H4 _ _ Hg) as (d0&Ha&Hb). exists d0. rewrite Hf, decide_False; [done|]. eapply HN2. by apply H4.
      + intros g t (d0&Ha&Hb). rewrite dget_dset. destruct (decide (t = t1)) as [->|]; [rewrite ?decide_True by done; eauto|]. rewrite ?decide_False by congruence.
        rewrite Hf in Ha. case_decide; [simplify_eq; congruence|]. apply (H5 g). by exists d0.
    - split; [intros g; rewrite Hf; apply HC|]. split; [intros g; rewrite Hf, dget_dset; destruct (decide (g = g1)) as [->|]; [rewrite ?decide_True by done; simpl; by rewrite Ht|rewrite ?decide_False by congruence; apply H2]|]. split; [|split].
      + intros g. rewrite H3, Hf. split; [intros (d0&Ha&Hb); exists d0; rewrite decide_False; [done|by apply HN; eauto]|].
        intros (d0&Ha&Hb). case_decide; [simplify_eq; congruence|eauto].
      + intros g t Hg. pose proof (H4 _ _ Hg) as Hgi. destruct Hgi as (d0&Ha&Hb). exists d0. rewrite Hf, decide_False; [done|]. eapply HN2. by apply H4.
      + intros g t (d0&Ha&Hb). rewrite Hf in Ha. case_decide; [simplify_eq; congruence|]. apply (H5 g). by exists d0.
  Qed.

  Lemma client_for h s g : exec st reg_init h s → (st s (CClientFor g)).2 = match first_def g (defs h) with Some d => CClient (d_cls d) | None => CKeyError end.
  Proof. intros (H1&_)%rok_exec. simpl. unfold rest_client_for_gvk. rewrite H1. by destruct (first_def g (defs h)). Qed.
  Lemma again h s g d d0 : exec st reg_init h s → d0 ∈ defs h → d_gvk d0 = Some g → d_gvk d = Some g → st s (CDefine d) = (s, CAssertionError).
  Proof.
    intros (H1&_)%rok_exec Hin Hg0 Hg. simpl. unfold define. rewrite Hg, H1. destruct (first_def g (defs h)) eqn:Hf; [done|].
    rewrite first_none in Hf. by destruct (Hf d0).
  Qed.
  Lemma first_ok h s g d : exec st reg_init h s → (∀ d0, d0 ∈ defs h → d_gvk d0 ≠ Some g) → d_gvk d = Some g → well_formed d → (st s (CDefine d)).2 = CDone.
  Proof.
    intros (H1&_)%rok_exec Hn%first_none Hg (_&Hm&Hu). simpl. unfold define. rewrite Hg, H1, Hn. simpl. destruct (d_type d) eqn:Ht; try done. by destruct (Hu t).
  Qed.
  Lemma gvk_sound h s t g : exec st reg_init h s → (st s (CGvkFor t)).2 = CGvk g → gives (defs h) g t.
  Proof. intros (_&_&_&H4&_)%rok_exec. simpl. unfold gvk_for_object. destruct (dget t (r_gvks s)) eqn:Hg; [|done]. intros [= <-]. by apply H4. Qed.
  Lemma gvk_known h s t g : exec st reg_init h s → gives (defs h) g t → ∃ g', (st s (CGvkFor t)).2 = CGvk g'.
  Proof. intros (_&_&_&_&H5)%rok_exec Hgi. simpl. unfold gvk_for_object. destruct (H5 _ _ Hgi) as [g' ->]. by exists g'. Qed.
  Lemma one_to_one h s t g : exec st reg_init h s → types_distinct (defs h) → (st s (CGvkFor t)).2 = CGvk g ↔ gives (defs h) g t.
  Proof.
    intros Hx Hd. split; [by apply gvk_sound|]. intros Hgi. destruct (gvk_known _ _ _ _ Hx Hgi) as [g' Hg']. rewrite Hg'.
    destruct (gvk_sound _ _ _ _ Hx Hg') as (d1&Hf1&Ht1). destruct Hgi as (d2&Hf2&Ht2).
    destruct (first_in _ _ _ Hf1) as [Hin1 Hk1], (first_in _ _ _ Hf2) as [Hin2 Hk2]. pose proof (Hd _ _ _ Hin1 Hin2 Ht1 Ht2). congruence.
  Qed.
  Lemma type_of h s g t : exec st reg_init h s → (∀ d, d ∈ defs h → well_formed d) → dget g (r_types s) = Some t ↔ gives (defs h) g t.
  Proof.
    intros (_&H2&_)%rok_exec Hw. rewrite H2. unfold gives. destruct (first_def g (defs h)) as [d|] eqn:Hf; simpl; [|split; [done|by intros (?&?&?)]].
    destruct (first_in _ _ _ Hf) as [Hin _]. destruct (Hw _ Hin) as (_&_&Hu). split.
    - destruct (d_type d) eqn:Ht; try done; [intros [= ->]; eauto|]. by destruct (Hu t0).
    - intros (d'&[= <-]&Ht). by rewrite Ht.
  Qed.
  Lemma unstructured h s g : exec st reg_init h s → g ∈ r_unstructured s ↔ ∃ d, first_def g (defs h) = Some d ∧ d_type d = OFalsy.
  Proof. intros (_&_&H3&_)%rok_exec. apply H3. Qed.
  Lemma last_wins h s d g t : exec st reg_init h s → d_gvk d = Some g → d_type d = OType t → (st s (CDefine d)).2 = CDone → (st (st s (CDefine d)).1 (CGvkFor t)).2 = CGvk g.
  Proof.
    intros _ Hg Ht. simpl. unfold define. rewrite Hg. destruct (dget g (r_clients s)); [done|]. rewrite Ht. simpl. intros _. unfold gvk_for_object. simpl. rewrite dget_dset. by rewrite decide_True.
  Qed.
End proofs.

(** cases; kinds and object types are numbers *)
Definition pod : cdef nat nat := CDef 0 (Some 1) (OType 7).
Definition node : cdef nat nat := CDef 1 (Some 2) (OType 8).
Definition loose : cdef nat nat := CDef 2 (Some 3) OFalsy.
Definition other_pod : cdef nat nat := CDef 3 (Some 1) (OType 9).
Definition same_type : cdef nat nat := CDef 4 (Some 4) (OType 7).
Definition half : cdef nat nat := CDef 5 (Some 1) OMissing.
Definition unhashed : cdef nat nat := CDef 6 (Some 1) (OUnhashable 7).
Definition case_h : list (cop nat nat * cres nat) :=
  [(CDefine pod, CDone); (CDefine node, CDone); (CDefine other_pod, CAssertionError); (CDefine loose, CDone); (CGvkFor 7, CGvk 1); (CGvkFor 8, CGvk 2); (CGvkFor 9, CKeyError);
   (CClientFor 1, CClient 0); (CClientFor 3, CClient 2); (CClientFor 4, CKeyError)].
Lemma distinct_case : ∃ s, exec cstep reg_init case_h s ∧ types_distinct (defs case_h) ∧ gives (defs case_h) 1 7 ∧ gives (defs case_h) 2 8.
Proof.
  eexists. split; [refine (exec_check _ _ _ _ _); vm_compute; reflexivity|]. split; [|split; [by exists pod|by exists node]].
  intros d1 d2 t Hin1 Hin2 H1 H2. change (defs case_h) with [pod; node; other_pod; loose] in Hin1, Hin2.
  repeat (apply elem_of_cons in Hin1 as [->|Hin1]); try (by apply elem_of_nil in Hin1); repeat (apply elem_of_cons in Hin2 as [->|Hin2]); try (by apply elem_of_nil in Hin2); simpl in *; congruence.
Qed.
Definition shared_h : list (cop nat nat * cres nat) := [(CDefine pod, CDone); (CDefine same_type, CDone); (CGvkFor 7, CGvk 4)].
Lemma shared_case : ∃ s, exec cstep reg_init shared_h s ∧ (∀ d, d ∈ defs shared_h → well_formed d) ∧ dget 1 (r_types s) = Some 7 ∧ dget 4 (r_types s) = Some 7.
Proof.
  eexists. split; [refine (exec_check _ _ _ _ _); vm_compute; reflexivity|]. split; [|by vm_compute].
  intros d Hin. change (defs shared_h) with [pod; same_type] in Hin. repeat (apply elem_of_cons in Hin as [->|Hin]; [by repeat split|]). by apply elem_of_nil in Hin.
Qed.
Definition half_h : list (cop nat nat * cres nat) := [(CDefine half, CAttributeError); (CDefine pod, CAssertionError); (CClientFor 1, CClient 5); (CGvkFor 7, CKeyError)].
Lemma half_case : ∃ s, exec cstep reg_init half_h s ∧ well_formed pod.
Proof. eexists. split; [refine (exec_check _ _ _ _ _); vm_compute; reflexivity|]. by repeat split. Qed.
Definition unhashed_h : list (cop nat nat * cres nat) := [(CDefine unhashed, CTypeError); (CDefine pod, CAssertionError); (CGvkFor 7, CKeyError)].
Lemma unhashed_case : ∃ s, exec cstep reg_init unhashed_h s ∧ dget 1 (r_types s) = Some 7.
Proof. eexists. split; [refine (exec_check _ _ _ _ _); vm_compute; reflexivity|]. by vm_compute. Qed.
