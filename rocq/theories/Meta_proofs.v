(** Proofs for C105. *)
From Verif Require Import Base KeyFunc_model Meta_model Meta_spec.
From Coq Require Import Strings.String Strings.Ascii.
From stdpp Require Import strings.
Local Open Scope string_scope.

Lemma getitem_ok h v k x : getitem h v k = MOk x ↔ entry h v k x.
Proof.
  unfold getitem, entry, at_. split.
  - destruct v as [| | |a]; try done. destruct (dget a h) as [[d|d|l]|] eqn:E; try done.
    destruct (dget k d) eqn:E'; [|done]. intros [= <-]. eauto 6.
  - by intros (a & d & -> & -> & ->).
Qed.
Lemma getattr_ok h v k x : getattr h v k = MOk x ↔ attr h v k x.
Proof.
  unfold getattr, attr, at_. split.
  - destruct v as [| | |a]; try done. destruct (dget a h) as [[d|d|l]|] eqn:E; try done.
    destruct (dget k d) eqn:E'; [|done]. intros [= <-]. eauto 6.
  - by intros (a & d & -> & -> & ->).
Qed.
Lemma is_dict_iff h v : is_dict h v = true ↔ dictionary h v.
Proof.
  unfold is_dict, dictionary, at_. split.
  - destruct v as [| | |a]; try done. destruct (dget a h) as [[d|d|l]|] eqn:E; try done. eauto.
  - by intros (a & d & -> & ->).
Qed.
Lemma entry_dict h v k x : entry h v k x → dictionary h v.
Proof. intros (a & d & H & H' & _). by exists a, d. Qed.
Lemma attr_typed h v k x : attr h v k x → typed h v.
Proof. intros (a & d & H & H' & _). by exists a, d. Qed.
Lemma typed_not_dict h v : typed h v → is_dict h v = false.
Proof. intros (a & d & -> & H). unfold is_dict, at_. by rewrite H. Qed.
Lemma getitem_err h v k e : getitem h v k = MErr e →
  dictionary h v ∧ e = KeyErr ∧ (∀ x, ¬ entry h v k x) ∨ ¬ dictionary h v ∧ e = TypeErr.
Proof.
  intros H. destruct (is_dict h v) eqn:E.
  - left. assert (D : dictionary h v) by (by apply is_dict_iff). split; [done|]. split.
    + destruct D as (a & d & -> & D). unfold getitem, at_ in H. rewrite D in H. destruct (dget k d); congruence.
    + intros x Hx. apply getitem_ok in Hx. congruence.
  - right. split; [rewrite <- is_dict_iff; congruence|].
    unfold getitem in H. unfold is_dict in E. destruct (at_ h v) as [[| |]|]; congruence.
Qed.
Lemma getattr_err h v k e : getattr h v k = MErr e → e = AttrErr ∧ ∀ x, ¬ attr h v k x.
Proof.
  intros H. split.
  - unfold getattr in H. destruct (at_ h v) as [[| |]|]; try congruence. destruct (dget k d); congruence.
  - intros x Hx. apply getattr_ok in Hx. congruence.
Qed.

Lemma wrap_ok h v a : wrap h v = MOk a ↔ entry h v "metadata" (a_meta a) ∧ a_dict a = true ∨ attr h v "metadata" (a_meta a) ∧ a_dict a = false.
Proof.
  unfold wrap. destruct a as [b m]; simpl. split.
  - destruct (is_dict h v) eqn:E.
    + destruct (getitem h v "metadata") as [x|e] eqn:G; [|done]. intros [= <- <-]. left. by apply getitem_ok in G.
    + destruct (getattr h v "metadata") as [x|e] eqn:G; [|done]. intros [= <- <-]. right. by apply getattr_ok in G.
  - intros [[H ->]|[H ->]].
    + rewrite (proj2 (is_dict_iff h v)) by eauto using entry_dict. apply getitem_ok in H. by rewrite H.
    + rewrite (typed_not_dict h v) by eauto using attr_typed. apply getattr_ok in H. by rewrite H.
Qed.
Lemma wrap_err h v e : wrap h v = MErr e → e = KeyErr ∨ e = AttrErr.
Proof.
  unfold wrap. destruct (is_dict h v) eqn:E.
  - destruct (getitem h v "metadata") as [x|e'] eqn:G; [done|]. intros [= <-].
    apply getitem_err in G as [(_ & -> & _)|[N ->]]; [by left|]. destruct N. by apply is_dict_iff.
  - destruct (getattr h v "metadata") as [x|e'] eqn:G; [done|]. intros [= <-]. right. by apply getattr_err in G as [-> _].
Qed.
Lemma or_raise_ok {X} e (r : res X) x : or_raise e r = MOk x ↔ r = MOk x.
Proof. destruct r as [y|[]]; done. Qed.
Lemma or_raise_wrap e h v : (∃ a, wrap h v = MOk a ∧ or_raise e (wrap h v) = MOk a) ∨ or_raise e (wrap h v) = MErr e ∧ ∀ m, ¬ has_meta h v m.
Proof.
  destruct (wrap h v) as [a|e'] eqn:E; [left; eauto|right]. split.
  - by destruct (wrap_err h v e' E) as [-> | ->].
  - intros m [H|H].
    + assert (wrap h v = MOk (Acc true m)) by (apply wrap_ok; auto). congruence.
    + assert (wrap h v = MOk (Acc false m)) by (apply wrap_ok; auto). congruence.
Qed.

Lemma has_meta_wrap h v m : has_meta h v m ↔ ∃ b, wrap h v = MOk (Acc b m).
Proof.
  split.
  - intros [H|H]; eexists; apply wrap_ok; eauto.
  - intros [b H]. apply wrap_ok in H as [[H _]|[H _]]; [left|right]; done.
Qed.

(** the accessor or its error *)
Lemma accessor_iff h v :
  ((∃ a, accessor h v = MOk a) ↔ ∃ m, has_meta h v m) ∧ ((∃ a, list_accessor h v = MOk a) ↔ ∃ m, has_meta h v m) ∧
  (∀ e, accessor h v = MErr e → e = NotObject) ∧ (∀ e, list_accessor h v = MErr e → e = NotList).
Proof.
  assert (G : ∀ e, ((∃ a, or_raise e (wrap h v) = MOk a) ↔ ∃ m, has_meta h v m) ∧ ∀ e', or_raise e (wrap h v) = MErr e' → e' = e).
  { intros e. split.
    - split.
      + intros [[b m] H]. rewrite or_raise_ok in H. exists m. apply has_meta_wrap. eauto.
      + intros [m H]. apply has_meta_wrap in H as [b H]. exists (Acc b m). by rewrite or_raise_ok.
    - intros e' H. destruct (or_raise_wrap e h v) as [(a & _ & H')|[H' _]]; congruence. }
  split; [apply G|]. split; [apply G|]. split; apply G.
Qed.

Lemma accessor_meta h v a : accessor h v = MOk a → has_meta h v (a_meta a) ∧ (a_dict a = true ↔ dictionary h v).
Proof.
  unfold accessor. rewrite or_raise_ok. intros H. pose proof H as H0. apply wrap_ok in H as [[H E]|[H E]]; rewrite E.
  - split; [by left|]. split; eauto using entry_dict.
  - split; [by right|]. split; [done|]. intros D. apply is_dict_iff in D. apply attr_typed, typed_not_dict in H. congruence.
Qed.

Lemma a_get_ok h a f x : a_get h a f = MOk x ↔ has_field h (a_dict a) (a_meta a) f x.
Proof. unfold a_get, has_field. destruct (a_dict a); [apply getitem_ok|apply getattr_ok]. Qed.
(** reading: now and later, from the metadata there was when the accessor was made *)
Lemma reads h v a h' f : accessor h v = MOk a →
  ∃ m, has_meta h v m ∧
    (∀ x, a_get h' a f = MOk x ↔ has_field h' (is_dict h v) m f x) ∧
    (∀ e, a_get h' a f = MErr e → e = if is_dict h v then if is_dict h' m then KeyErr else TypeErr else AttrErr).
Proof.
  intros H. destruct (accessor_meta h v a H) as [H1 H2]. exists (a_meta a). split; [done|].
  assert (E : a_dict a = is_dict h v).
  { destruct (is_dict h v) eqn:E; [apply H2; by apply is_dict_iff|]. destruct (a_dict a) eqn:E'; [|done].
    rewrite <- is_dict_iff in H2. rewrite E in H2. destruct H2 as [H2 _]. by specialize (H2 eq_refl). }
  rewrite <- E. split; [intros x; apply a_get_ok|].
  intros e G. unfold a_get in G. destruct (a_dict a).
  - apply getitem_err in G as [(D & -> & _)|[N ->]].
    + by rewrite (proj2 (is_dict_iff _ _) D).
    + rewrite <- is_dict_iff in N. by destruct (is_dict h' (a_meta a)).
  - by apply getattr_err in G as [-> _].
Qed.

Lemma entry_name_inj f g : entry_name f = entry_name g → f = g.
Proof. by destruct f, g. Qed.
Lemma attr_name_inj f g : attr_name f = attr_name g → f = g.
Proof. by destruct f, g. Qed.

Lemma set_cases h a x : 
  (∃ m d, a_meta a = VRef m ∧ dget m h = Some (HDict d) ∧ a_dict a = true ∧ a_set_version h a x = (dset m (HDict (dset "resourceVersion" x d)) h, MOk tt)) ∨
  (∃ m d, a_meta a = VRef m ∧ dget m h = Some (HObj d) ∧ a_dict a = false ∧ a_set_version h a x = (dset m (HObj (dset "resource_version" x d)) h, MOk tt)) ∨
  (a_set_version h a x = (h, MErr (if a_dict a then TypeErr else AttrErr)) ∧ ∀ f y, ¬ has_field h (a_dict a) (a_meta a) f y).
Proof.
  destruct a as [[] m]; unfold a_set_version, setitem, setattr; simpl.
  - destruct m as [| | |m]; simpl.
    1-3: right; right; (split; [done|]); intros f y (? & ? & ? & _); done.
    destruct (dget m h) as [[d|d|l]|] eqn:E.
    1: left; exists m, d; done.
    all: right; right; (split; [done|]); intros f y (? & ? & [= <-] & H & _); congruence.
  - destruct m as [| | |m]; simpl.
    1-3: right; right; (split; [done|]); intros f y (? & ? & ? & _); done.
    destruct (dget m h) as [[d|d|l]|] eqn:E.
    2: right; left; exists m, d; done.
    all: right; right; (split; [done|]); intros f y (? & ? & [= <-] & H & _); congruence.
Qed.

(** a field somewhere, once the version is set there *)
Lemma get_after_set h m c x y b v f :
  dget m h = Some c →
  (c = HDict (match c with HDict d => d | _ => [] end) ∧ y = HDict (dset "resourceVersion" x (match c with HDict d => d | _ => [] end)) ∨
   c = HObj (match c with HObj d => d | _ => [] end) ∧ y = HObj (dset "resource_version" x (match c with HObj d => d | _ => [] end))) →
  a_get (dset m y h) (Acc b v) f =
    if decide (v = VRef m ∧ b = (match c with HDict _ => true | _ => false end) ∧ f = FVersion) then MOk x else a_get h (Acc b v) f.
Proof.
  intros Hm Hy. destruct (decide (v = VRef m)) as [->|N].
  - unfold a_get, getitem, getattr, at_; simpl. rewrite dget_dset_eq, Hm.
    destruct Hy as [[Hc ->]|[Hc ->]]; rewrite Hc; destruct b; simpl; rewrite ?dget_dset.
    + destruct f; simpl; case_decide; naive_solver.
    + case_decide; naive_solver.
    + case_decide; naive_solver.
    + destruct f; simpl; case_decide; naive_solver.
  - rewrite decide_False by naive_solver. unfold a_get, getitem, getattr, at_; simpl.
    destruct v as [| | |a]; try done. rewrite dget_dset_ne by congruence. done.
Qed.

(** setting the version *)
Lemma set_get h a x h' : a_set_version h a x = (h', MOk tt) →
  ∀ b f, a_get h' b f = if decide (b = a ∧ f = FVersion) then MOk x else a_get h b f.
Proof.
  intros H [b v] f. destruct (set_cases h a x) as [(m & d & E & Hm & Ea & S)|[(m & d & E & Hm & Ea & S)|[S _]]]; rewrite S in H.
  - injection H as <-. rewrite (get_after_set h m (HDict d) x) by eauto. destruct a as [ab am]; simpl in *; subst. 
    repeat case_decide; naive_solver.
  - injection H as <-. rewrite (get_after_set h m (HObj d) x) by eauto. destruct a as [ab am]; simpl in *; subst.
    repeat case_decide; naive_solver.
  - done.
Qed.
(** setting touches only the metadata object, and in it only the version *)
Lemma set_frame h a x h' r : a_set_version h a x = (h', r) →
  (∀ p, a_meta a ≠ VRef p → dget p h' = dget p h) ∧ (∀ v, is_dict h' v = is_dict h v) ∧
  (∀ v k y, k ≠ "resourceVersion" → entry h' v k y ↔ entry h v k y) ∧ (∀ v k y, k ≠ "resource_version" → attr h' v k y ↔ attr h v k y).
Proof.
  intros H. destruct (set_cases h a x) as [(m & d & E & Hm & Ea & S)|[(m & d & E & Hm & Ea & S)|[S _]]]; rewrite S in H; injection H as <- _; [| |done].
  - repeat split.
    + intros p N. apply dget_dset_ne. congruence.
    + intros v. unfold is_dict, at_. destruct v as [| | |p]; try done. rewrite dget_dset. case_decide; [by subst; rewrite Hm|done].
    + intros (p & d' & -> & G & K). rewrite dget_dset in G. case_decide; [|by exists p, d'].
      subst. injection G as <-. rewrite dget_dset_ne in K by done. by exists m, d.
    + intros (p & d' & -> & G & K). destruct (decide (p = m)) as [->|N].
      * rewrite Hm in G. injection G as <-. exists m, (dset "resourceVersion" x d). rewrite dget_dset_eq, dget_dset_ne by done. done.
      * exists p, d'. by rewrite dget_dset_ne.
    + intros (p & d' & -> & G & K). rewrite dget_dset in G. case_decide; [done|by exists p, d'].
    + intros (p & d' & -> & G & K). exists p, d'. rewrite dget_dset_ne; [done|]. congruence.
  - repeat split.
    + intros p N. apply dget_dset_ne. congruence.
    + intros v. unfold is_dict, at_. destruct v as [| | |p]; try done. rewrite dget_dset. case_decide; [by subst; rewrite Hm|done].
    + intros (p & d' & -> & G & K). rewrite dget_dset in G. case_decide; [done|by exists p, d'].
    + intros (p & d' & -> & G & K). exists p, d'. rewrite dget_dset_ne; [done|]. congruence.
    + intros (p & d' & -> & G & K). rewrite dget_dset in G. case_decide; [|by exists p, d'].
      subst. injection G as <-. rewrite dget_dset_ne in K by done. by exists m, d.
    + intros (p & d' & -> & G & K). destruct (decide (p = m)) as [->|N].
      * rewrite Hm in G. injection G as <-. exists m, (dset "resource_version" x d). rewrite dget_dset_eq, dget_dset_ne by done. done.
      * exists p, d'. by rewrite dget_dset_ne.
Qed.
(** when it fails nothing changes *)
Lemma set_fails h a x h' e : a_set_version h a x = (h', MErr e) → h' = h ∧ ∀ f y, a_get h a f ≠ MOk y.
Proof.
  intros H. destruct (set_cases h a x) as [(m & d & E & Hm & Ea & S)|[(m & d & E & Hm & Ea & S)|[S N]]]; rewrite S in H; try done.
  injection H as <- _. split; [done|]. intros f y G. apply a_get_ok in G. by apply N in G.
Qed.
Lemma set_works h a x y f : a_get h a f = MOk y → ∃ h', a_set_version h a x = (h', MOk tt).
Proof.
  intros G. destruct (a_set_version h a x) as [h' [[]|e]] eqn:E; [eauto|].
  apply set_fails in E as [_ E]. by apply E in G.
Qed.

(** lists *)
Lemma list_set h v x h' : set_list h v x = (h', MOk tt) → extract_list h' v = MOk x ∧
  (∀ p, v ≠ VRef p → dget p h' = dget p h) ∧ (∀ m, has_meta h' v m ↔ has_meta h v m).
Proof.
  unfold set_list, extract_list. destruct (is_dict h v) eqn:D.
  - apply is_dict_iff in D as (a & d & -> & D). unfold setitem, at_. rewrite D. intros [= <-].
    unfold is_dict, getitem, at_. rewrite dget_dset_eq. rewrite dget_dset_eq. split; [done|]. split.
    + intros p N. apply dget_dset_ne. congruence.
    + intros m. unfold has_meta, entry, attr. split; (intros [(p & d' & [= <-] & G & K)|(p & d' & [= <-] & G & K)]).
      * rewrite dget_dset_eq in G. injection G as <-. rewrite dget_dset_ne in K by done. left. eauto 6.
      * rewrite dget_dset_eq in G. done.
      * rewrite D in G. injection G as <-. left. exists a, (dset "items" x d). rewrite dget_dset_eq, dget_dset_ne by done. done.
      * congruence.
  - unfold setattr. destruct v as [| | |a]; try done. simpl. destruct (dget a h) as [[d|d|l]|] eqn:E; try done.
    intros [= <-]. unfold is_dict, getattr, at_. rewrite dget_dset_eq. rewrite dget_dset_eq. split; [done|]. split.
    + intros p N. apply dget_dset_ne. congruence.
    + intros m. unfold has_meta, entry, attr. split; (intros [(p & d' & [= <-] & G & K)|(p & d' & [= <-] & G & K)]).
      * rewrite dget_dset_eq in G. done.
      * rewrite dget_dset_eq in G. injection G as <-. rewrite dget_dset_ne in K by done. right. eauto 6.
      * congruence.
      * rewrite E in G. injection G as <-. right. exists a, (dset "items" x d). rewrite dget_dset_eq, dget_dset_ne by done. done.
Qed.
Lemma list_set_works h v x : (∃ h', set_list h v x = (h', MOk tt)) ↔ dictionary h v ∨ typed h v.
Proof.
  unfold set_list, setitem, setattr, is_dict, dictionary, typed. destruct v as [| | |a]; simpl.
  1-3: split; [by intros []|intros [(?&?&?&_)|(?&?&?&_)]; done].
  destruct (dget a h) as [[d|d|l]|] eqn:E; rewrite ?E; split; intros H; eauto 6.
  all: try by destruct H.
  all: destruct H as [(?&?&[= <-]&?)|(?&?&[= <-]&?)]; congruence.
Qed.

(** free_address addresses *)
Lemma free_none h : dget (free_address h) h = None.
Proof.
  destruct (dget (free_address h) h) eqn:E; [|done]. exfalso. apply dget_elem_of in E.
  assert (∀ (l : list nat) n, n ∈ l → n ≤ foldr Nat.max 0 l).
  { induction l; simpl; intros n H; [by apply elem_of_nil in H|]. apply elem_of_cons in H as [->|H]; [lia|]. specialize (IHl n H). lia. }
  assert (free_address h ∈ dkeys h) by (apply (elem_of_list_fmap_1 fst) in E; done).
  unfold free_address in *. specialize (H _ _ H0). lia.
Qed.
(** the list of the fake source, as the reflector reads it *)
Lemma fake_list_reads h items version h' l : fake_list h items version = (h', l) →
  read_list h' l = MOk (version, items) ∧ ∀ p c, dget p h = Some c → dget p h' = Some c.
Proof.
  unfold fake_list, alloc. intros H.
  set (m := free_address h) in *. set (h1 := dset m (HObj []) h) in *. set (q := free_address h1) in *.
  assert (Nm : dget m h = None) by apply free_none. assert (Nq : dget q h1 = None) by apply free_none.
  assert (N : q ≠ m). { intros E. rewrite E in Nq. unfold h1 in Nq. by rewrite dget_dset_eq in Nq. }
  unfold set_list, is_dict, setattr, at_ in H. rewrite dget_dset_eq in H. simpl in H.
  unfold list_accessor, wrap, is_dict, getattr, at_ in H. rewrite dget_dset_eq in H. simpl in H.
  unfold a_set_version, setattr, at_ in H. simpl in H.
  change (dget "metadata" (dset "items" items [("metadata", VRef m)])) with (Some (VRef m)) in H. simpl in H.
  rewrite !(dget_dset_ne q m) in H by done. unfold h1 in H at 1. rewrite dget_dset_eq in H. simpl in H. injection H as <- <-.
  split.
  - unfold read_list, list_accessor, wrap, is_dict, getattr, at_. rewrite dget_dset_ne, dget_dset_eq by done. simpl.
    change (dget "metadata" (dset "items" items [("metadata", VRef m)])) with (Some (VRef m)). simpl.
    unfold a_get, getattr, at_. simpl. rewrite dget_dset_eq. simpl.
    unfold extract_list, is_dict, getattr, at_. rewrite dget_dset_ne, dget_dset_eq by done. simpl. done.
  - intros p c Hp. assert (p ≠ m) by congruence. assert (p ≠ q).
    { intros ->. unfold h1 in Nq. rewrite dget_dset_ne in Nq by done. congruence. }
    rewrite !dget_dset_ne by done. unfold h1. by rewrite dget_dset_ne.
Qed.

(** both spellings *)
Lemma alike_accessors h v w : alike h v w → ∃ a b, accessor h v = MOk a ∧ accessor h w = MOk b ∧
  ∀ f x, a_get h a f = MOk x ↔ a_get h b f = MOk x.
Proof.
  intros (mv & mw & Hv & Hw & Dv & Dw & E). exists (Acc true mv), (Acc false mw). split; [|split].
  - unfold accessor. rewrite or_raise_ok. apply wrap_ok. eauto.
  - unfold accessor. rewrite or_raise_ok. apply wrap_ok. eauto.
  - intros f x. rewrite !a_get_ok. apply E.
Qed.

Section key.
  Context (repr : heap → nat → string).
  Lemma alike_keys h v w k : alike h v w → key_func repr h v = MOk k ↔ key_func repr h w = MOk k.
  Proof.
    intros A. destruct (alike_accessors h v w A) as (a & b & Ha & Hb & E).
    destruct A as (mv & mw & Hv & Hw & _). destruct Hv as (pv' & dv & -> & _). destruct Hw as (pw & dw & -> & _).
    unfold key_func. rewrite Ha, Hb. simpl.
    assert (G : ∀ f, (∃ x, a_get h a f = MOk x ∧ a_get h b f = MOk x) ∨ (∃ e e', a_get h a f = MErr e ∧ a_get h b f = MErr e')).
    { intros f. destruct (a_get h a f) as [x|e] eqn:G.
      - left. exists x. split; [done|]. by apply E.
      - right. destruct (a_get h b f) as [y|e'] eqn:G'; [|eauto]. apply E in G'. congruence. }
    destruct (G FNamespace) as [(ns & -> & ->)|(e & e' & -> & ->)]; simpl; [|done].
    destruct (G FName) as [(n & -> & ->)|(e & e' & -> & ->)]; simpl; [done|]. by destruct (truth h ns).
  Qed.

  Lemma truth_of_str h (x : pystr) : truth h (of_str x) = truthy x.
  Proof. by destruct x as [[|]|]. Qed.
  Lemma show_of_str h (x : pystr) : show repr h (of_str x) = fmt x.
  Proof. by destruct x. Qed.
  Lemma join_of_str h (ns n : pystr) :
    (if truth h (of_str ns) then MOk (VStr (show repr h (of_str ns) ++ "/" ++ show repr h (of_str n))) else MOk (of_str n)) = MOk (of_str (join_key ns n)).
  Proof. rewrite truth_of_str, !show_of_str. unfold join_key. by destruct (truthy ns). Qed.

  (** keys are those of KeyFunc_model *)
  Lemma key_refines h v o : looks h v o → same_key (key_func repr h v) (meta_namespace_key_func o).
  Proof.
    intros L. destruct L as [s|s| |a d x H1 H2|a d x H1 H2|a d m dm ns n x H1 H2 H3 H4 H5|a d x H1 H2|a d m dm dm' x H1 H2 H3 H4 H5]; simpl; try done.
    - unfold key_func, accessor, wrap, is_dict, getattr, at_. by rewrite H1, H2.
    - unfold key_func, accessor, wrap, is_dict, getattr, at_. by rewrite H1, H2.
    - unfold key_func, accessor, wrap, is_dict, getattr, at_. rewrite H1, H2. simpl.
      unfold a_get, getattr, at_. simpl. rewrite H3, H4, H5. simpl. apply join_of_str.
    - unfold key_func, accessor, wrap, is_dict, getitem, at_. by rewrite H1, H2.
    - unfold key_func, accessor, wrap, is_dict, getitem, at_. rewrite H1, H2. simpl.
      unfold a_get, getitem, at_. simpl. rewrite H3, H4, H5. destruct (dget "namespace" dm') as [ns|]; simpl; [|done].
      destruct (dget "name" dm') as [n|]; simpl; [apply join_of_str|]. by destruct (truth h (of_str ns)).
  Qed.

  (** what the key function raises, on any value at all *)
  Lemma key_errors h v e : key_func repr h v = MErr e →
    (e = NotObject ↔ ∀ m, ¬ has_meta h v m) ∧ e ∈ [NotObject; KeyErr; AttrErr; TypeErr].
  Proof.
    intros H. assert (H' : rbind (λ a, rbind (λ ns,
             if truth h ns then rbind (λ n, MOk (VStr (show repr h ns ++ "/" ++ show repr h n))) (a_get h a FName)
             else a_get h a FName) (a_get h a FNamespace)) (accessor h v) = MErr e) by (by destruct v). clear H.
    destruct (accessor_iff h v) as [[A1 A2] [_ [A3 _]]].
    destruct (accessor h v) as [a|e'] eqn:A; simpl in H'.
    - assert (G : ∀ f e', a_get h a f = MErr e' → e' ∈ [KeyErr; AttrErr; TypeErr]).
      { intros f e' G. unfold a_get in G. destruct (a_dict a).
        - apply getitem_err in G as [(_ & -> & _)|[_ ->]]; set_solver.
        - apply getattr_err in G as [-> _]; set_solver. }
      assert (I : e ∈ [KeyErr; AttrErr; TypeErr]).
      { destruct (a_get h a FNamespace) as [ns|e'] eqn:G1; simpl in H'; [|injection H' as <-; eauto].
        destruct (a_get h a FName) as [n|e'] eqn:G2; simpl in H'; destruct (truth h ns); simplify_eq; eauto. }
      split; [|set_solver]. split.
      + intros ->. set_solver.
      + intros N. destruct A1 as [m Hm]; [eauto|]. by apply N in Hm.
    - injection H' as <-. rewrite (A3 e' eq_refl). split; [|set_solver]. split; [|done]. intros _ m Hm.
      destruct A2 as [a Ha]; [eauto|done].
  Qed.
End key.

(** group, version and kind *)
Lemma gvk_ok h v g ver k : gvk h v = MOk (g, ver, k) ↔
  ∃ s, (entry h v "apiVersion" (VStr s) ∨ entry h v "apiVersion" (VKey s) ∨ attr h v "api_version" (VStr s) ∨ attr h v "api_version" (VKey s)) ∧
    group_version s = Some (g, ver) ∧ (entry h v "kind" k ∨ attr h v "kind" k).
Proof.
  assert (T : ∀ e a x, type_field h v e a = MOk x ↔ entry h v e x ∨ attr h v a x).
  { intros e a x. unfold type_field. destruct (is_dict h v) eqn:D.
    - rewrite getitem_ok. split; [by left|]. intros [|H]; [done|]. apply attr_typed, typed_not_dict in H. congruence.
    - rewrite getattr_ok. split; [by right|]. intros [H|]; [|done]. apply entry_dict, is_dict_iff in H. congruence. }
  unfold gvk. split.
  - destruct (type_field h v "apiVersion" "api_version") as [x|] eqn:E; [|done]. simpl. apply T in E.
    destruct x as [|s|s|]; try done.
    all: destruct (group_version s) as [[g' ver']|] eqn:G; [|done].
    all: destruct (type_field h v "kind" "kind") as [k'|] eqn:K; [|done]; simpl; intros [= <- <- <-]; apply T in K; exists s; naive_solver.
  - intros (s & H & G & K). apply T in K. 
    assert (H' : type_field h v "apiVersion" "api_version" = MOk (VStr s) ∨ type_field h v "apiVersion" "api_version" = MOk (VKey s)) by (rewrite !T; tauto).
    destruct H' as [-> | ->]; simpl; by rewrite G, K.
Qed.

(** the fake source's change *)
Lemma change_outcome h ch ver v h' ch' r : change_start h ch ver v = (h', ch', r) →
  ch' = ch ∧ h' = h ∧ (∃ e, r = MErr e) ∧ ¬ (∃ a f y, accessor h v = MOk a ∧ a_get h a f = MOk y) ∨
  ch' = (ch ++ [v])%list ∧ ∃ a, accessor h v = MOk a ∧ a_get h' a FVersion = MOk ver ∧ (∀ f, f ≠ FVersion → a_get h' a f = a_get h a f) ∧
    ∀ ns n u, r = MOk (ns, n, u) ↔ a_get h a FNamespace = MOk ns ∧ a_get h a FName = MOk n ∧ a_get h a FUid = MOk u.
Proof.
  unfold change_start. destruct (accessor h v) as [a|e] eqn:A.
  2: { intros [= <- <- <-]. left. split_and!; try done; [eauto|]. by intros (a & ? & ? & ? & _). }
  destruct (a_set_version h a ver) as [h1 [[]|e]] eqn:S; intros [= <- <- <-].
  2: { apply set_fails in S as [-> N]. left. split_and!; try done; [eauto|]. intros (b & f & y & [= <-] & G). by apply N in G. }
  right. split; [done|]. exists a. split; [done|]. pose proof (set_get h a ver h1 S) as G.
  assert (G' : ∀ f, f ≠ FVersion → a_get h1 a f = a_get h a f).
  { intros f N. rewrite G. rewrite decide_False; [done|]. naive_solver. }
  split; [|split; [done|]].
  - rewrite G. by rewrite decide_True.
  - intros ns n u. rewrite !G' by done. split.
    + destruct (a_get h a FNamespace); [|done]. simpl. destruct (a_get h a FName); [|done]. simpl. destruct (a_get h a FUid); [|done]. simpl. intros [= <- <- <-]. done.
    + intros (-> & -> & ->). done.
Qed.

(** the namespace index *)
Lemma index_ok h v l : namespace_index h v = MOk l ↔ ∃ m ns, has_meta h v m ∧ has_field h (is_dict h v) m FNamespace ns ∧ l = [ns].
Proof.
  unfold namespace_index. split.
  - destruct (accessor h v) as [a|] eqn:A; [|done]. simpl. destruct (a_get h a FNamespace) as [ns|] eqn:G; [|done]. intros [= <-].
    destruct (reads h v a h FNamespace A) as (m & Hm & R & _). exists m, ns. split; [done|]. split; [by apply R|done].
  - intros (m & ns & Hm & Hf & ->). apply has_meta_wrap in Hm as [b Hm].
    assert (A : accessor h v = MOk (Acc b m)) by (unfold accessor; by rewrite or_raise_ok). rewrite A. simpl.
    assert (E : b = is_dict h v).
    { apply wrap_ok in Hm as [[H E]|[H E]]; simpl in *; subst; symmetry; [apply is_dict_iff; eauto using entry_dict|eauto using typed_not_dict, attr_typed]. }
    assert (G : a_get h (Acc b m) FNamespace = MOk ns) by (apply a_get_ok; by rewrite E). by rewrite G.
Qed.
(** the list that the reflector reads *)
Lemma read_list_ok h v rv l : read_list h v = MOk (rv, l) ↔
  ∃ m, has_meta h v m ∧ has_field h (is_dict h v) m FVersion rv ∧ (entry h v "items" l ∨ attr h v "items" l).
Proof.
  assert (X : ∀ x, extract_list h v = MOk x ↔ entry h v "items" x ∨ attr h v "items" x).
  { intros x. unfold extract_list. destruct (is_dict h v) eqn:D.
    - rewrite getitem_ok. split; [by left|]. intros [|H]; [done|]. apply attr_typed, typed_not_dict in H. congruence.
    - rewrite getattr_ok. split; [by right|]. intros [H|]; [|done]. apply entry_dict, is_dict_iff in H. congruence. }
  assert (A : ∀ b m, wrap h v = MOk (Acc b m) → b = is_dict h v).
  { intros b m Hm. apply wrap_ok in Hm as [[H E]|[H E]]; simpl in *; subst; symmetry; [apply is_dict_iff; eauto using entry_dict|eauto using typed_not_dict, attr_typed]. }
  unfold read_list, list_accessor. split.
  - destruct (or_raise NotList (wrap h v)) as [[b m]|] eqn:W; [|done]. simpl. rewrite or_raise_ok in W.
    destruct (a_get h (Acc b m) FVersion) as [y|] eqn:G; [|done]. simpl. destruct (extract_list h v) as [z|] eqn:Z; [|done]. simpl. intros [= <- <-].
    exists m. split; [apply has_meta_wrap; eauto|]. apply a_get_ok in G. simpl in G. rewrite (A b m W) in G. split; [done|]. by apply X.
  - intros (m & Hm & Hf & Hl). apply has_meta_wrap in Hm as [b W].
    assert (W' : or_raise NotList (wrap h v) = MOk (Acc b m)) by (by apply or_raise_ok). rewrite W'. simpl.
    assert (G : a_get h (Acc b m) FVersion = MOk rv) by (apply a_get_ok; simpl; by rewrite (A b m W)). rewrite G. simpl.
    apply X in Hl. by rewrite Hl.
Qed.

(** cases *)
Definition pod (rv : pv) : heap := [(0, HDict [("metadata", VRef 1)]); (1, HDict [("name", VStr "p"); ("namespace", VStr "d"); ("resourceVersion", rv)])].
Lemma stale_accessor : ∃ h h' v a, accessor h v = MOk a ∧ accessor h' v ≠ MOk a ∧ h' = dset 0 (HDict [("metadata", VRef 2)]) h ∧
  a_get h' a FVersion = MOk (VStr "1") ∧ ∃ b, accessor h' v = MOk b ∧ a_get h' b FVersion = MOk (VStr "2").
Proof.
  exists (dset 2 (HDict [("resourceVersion", VStr "2")]) (pod (VStr "1"))), (dset 0 (HDict [("metadata", VRef 2)]) (dset 2 (HDict [("resourceVersion", VStr "2")]) (pod (VStr "1")))), (VRef 0), (Acc true (VRef 1)).
  split; [done|]. split; [done|]. split; [done|]. split; [done|]. by exists (Acc true (VRef 2)).
Qed.
Lemma shared_metadata : ∃ h v w a b h', v ≠ w ∧ accessor h v = MOk a ∧ accessor h w = MOk b ∧
  a_get h b FVersion = MOk (VStr "1") ∧ a_set_version h a (VStr "2") = (h', MOk tt) ∧ a_get h' b FVersion = MOk (VStr "2").
Proof.
  exists (dset 2 (HDict [("metadata", VRef 1)]) (pod (VStr "1"))), (VRef 0), (VRef 2), (Acc true (VRef 1)), (Acc true (VRef 1)). eexists.
  by split_and!.
Qed.
Lemma mixed_spelling : ∃ h v a, accessor h v = MOk a ∧ (∀ f, a_get h a f = MErr TypeErr) ∧ a_set_version h a (VStr "2") = (h, MErr TypeErr) ∧
  ∀ repr, key_func repr h v = MErr TypeErr.
Proof.
  exists [(0, HDict [("metadata", VRef 1)]); (1, HObj [("name", VStr "p"); ("namespace", VStr "d")])], (VRef 0), (Acc true (VRef 1)).
  by split_and!.
Qed.
(** a pod without uid: change raises but the change is on record, with the new version in the object *)
Lemma failed_change_stays : ∃ h v h' e a, change_start h [] (VStr "1") v = (h', [v], MErr e) ∧ accessor h v = MOk a ∧ a_get h' a FVersion = MOk (VStr "1").
Proof. exists (pod (VStr "0")), (VRef 0). eexists. exists KeyErr, (Acc true (VRef 1)). by split_and!. Qed.
Lemma meta_case : ∃ h v w a h', alike h v w ∧ accessor h v = MOk a ∧ a_get h a FNamespace = MOk (VStr "d") ∧
  (∀ repr, key_func repr h v = MOk (VStr "d/p") ∧ key_func repr h w = MOk (VStr "d/p")) ∧
  a_set_version h a (VStr "7") = (h', MOk tt) ∧ a_get h' a FVersion = MOk (VStr "7") ∧
  gvk h v = MOk ("apps", "v1", VStr "Deployment") ∧ gvk h w = MErr ValueErr.
Proof.
  set (d0 := [("metadata", VRef 1); ("apiVersion", VStr "apps/v1"); ("kind", VStr "Deployment")]).
  set (d1 := [("name", VStr "p"); ("namespace", VStr "d"); ("resourceVersion", VStr "6")]).
  set (d2 := [("metadata", VRef 3); ("api_version", VStr "v1"); ("kind", VStr "Pod")]).
  set (d3 := [("name", VStr "p"); ("namespace", VStr "d"); ("resource_version", VStr "6")]).
  exists [(0, HDict d0); (1, HDict d1); (2, HObj d2); (3, HObj d3)], (VRef 0), (VRef 2), (Acc true (VRef 1)). eexists. split; [|by split_and!].
  exists (VRef 1), (VRef 3). split; [by exists 0, d0|]. split; [by exists 2, d2|]. split; [by exists 1, d1|]. split; [by exists 3, d3|].
  intros f x. split.
  - intros (p & d & [= <-] & [= <-] & K). exists 3, d3. split; [done|]. split; [done|]. by destruct f.
  - intros (p & d & [= <-] & [= <-] & K). exists 1, d1. split; [done|]. split; [done|]. by destruct f.
Qed.
