From Verif Require Import Base KeyFunc_model KeyFunc_spec Store_model Store_spec Store_proofs.
From Coq Require Import Strings.String Strings.Ascii.
From stdpp Require Import strings.
Local Open Scope string_scope.

Lemma split_nonempty s : split_slash s ≠ [].
Proof. destruct s as [|c s]; [done|]. simpl. destruct (Ascii.eqb c "/"); [done|]. by destruct (split_slash s). Qed.
Lemma app_slash a b : no_slash b → split_slash (a ++ "/" ++ b) = (split_slash a ++ [b])%list.
Proof.
  intros Hb. assert (Hs : split_slash b = [b]).
  { clear a. induction b as [|c b IH]; [done|]. simpl. destruct (Ascii.eqb_spec c "/") as [->|Hne]; [by destruct Hb; left|].
    rewrite IH; [done|]. intros Ho. apply Hb. by right. }
  change ("/" ++ b) with (String "/" b) in *.
  induction a as [|c a IH]; [simpl; by rewrite Hs|]. change (String c a ++ String "/" b) with (String c (a ++ String "/" b)).
  cbn [split_slash]. destruct (Ascii.eqb_spec c "/"); [by rewrite IH|].
  rewrite IH. destruct (split_slash a) eqn:Ha; [by apply split_nonempty in Ha|done].
Qed.
Lemma split_no_slash b : no_slash b → split_slash b = [b].
Proof.
  induction b as [|c b IH]; intros Hb; [done|]. simpl. destruct (Ascii.eqb_spec c "/") as [->|Hne]; [by destruct Hb; left|].
  rewrite IH; [done|]. intros Ho. apply Hb. by right.
Qed.
Fixpoint join_slash (l : list string) : string :=
  match l with [] => "" | [x] => x | x :: l => x ++ "/" ++ join_slash l end.
Lemma join_split s : join_slash (split_slash s) = s.
Proof.
  induction s as [|c s IH]; [done|]. simpl. destruct (Ascii.eqb_spec c "/") as [->|Hne].
  - destruct (split_slash s) as [|x l] eqn:Hs; [by apply split_nonempty in Hs|]. change (join_slash ("" :: x :: l)) with ("" ++ "/" ++ join_slash (x :: l)).
    rewrite IH. done.
  - destruct (split_slash s) as [|x [|y l]]; simpl in *; by subst.
Qed.
Lemma split_parts s x : x ∈ split_slash s → no_slash x.
Proof.
  revert x. induction s as [|c s IH]; intros x; simpl.
  - intros ->%elem_of_list_singleton. by intros ?.
  - destruct (Ascii.eqb_spec c "/") as [->|Hne].
    + intros [->|Hx]%elem_of_cons; [by intros ?|by apply IH].
    + destruct (split_slash s) as [|y l] eqn:Hs; [by apply split_nonempty in Hs|].
      intros [->|Hx]%elem_of_cons; [|apply IH; by right]. intros [?|Ho]; [by subst|]. apply (IH y); [left|done].
Qed.
Lemma split_inj a b : split_slash a = split_slash b → a = b.
Proof. intros Heq. by rewrite <-(join_split a), Heq, join_split. Qed.

Lemma truthy_spec ns : truthy ns = false ↔ default "" ns = "".
Proof. destruct ns as [[|c s]|]; simpl; naive_solver. Qed.
Lemma truthy_fmt ns : truthy ns = true → ns = Some (fmt ns) ∧ default "" ns = fmt ns ∧ fmt ns ≠ "".
Proof. by destruct ns as [[|c s]|]. Qed.

Lemma join_key_inj ns1 n1 ns2 n2 : no_slash n1 → no_slash n2 →
  join_key ns1 (Some n1) = join_key ns2 (Some n2) ↔ same_namespace ns1 ns2 ∧ n1 = n2.
Proof.
  intros H1 H2. unfold join_key, same_namespace. destruct (truthy ns1) eqn:Ht1, (truthy ns2) eqn:Ht2.
  - apply truthy_fmt in Ht1 as (_ & -> & _), Ht2 as (_ & -> & _). cbn [fmt]. split.
    + intros [= Heq]. apply (f_equal split_slash) in Heq. rewrite !app_slash in Heq by done.
      apply app_inj_tail in Heq as [Heq ->]. by apply split_inj in Heq as ->.
    + by intros [-> ->].
  - apply truthy_fmt in Ht1 as (_ & -> & Hne). apply truthy_spec in Ht2. rewrite Ht2. split; [|by intros [? _]].
    intros [= Heq]. apply (f_equal split_slash) in Heq. cbn [fmt] in Heq. rewrite app_slash, (split_no_slash n2) in Heq by done.
    pose proof (split_nonempty (fmt ns1)). destruct (split_slash (fmt ns1)) as [|? [|? ?]]; done.
  - apply truthy_fmt in Ht2 as (_ & -> & Hne). apply truthy_spec in Ht1. rewrite Ht1. split; [|intros [? _]; by subst].
    intros [= Heq]. apply (f_equal split_slash) in Heq. cbn [fmt] in Heq. rewrite app_slash, (split_no_slash n1) in Heq by done.
    pose proof (split_nonempty (fmt ns2)). destruct (split_slash (fmt ns2)) as [|? [|? ?]]; done.
  - apply truthy_spec in Ht1 as ->, Ht2 as ->. naive_solver.
Qed.
Lemma named_key o ns name : named o ns name → meta_namespace_key_func o = Key (join_key ns name).
Proof. intros [(x & ->)|(d & x & -> & H1 & H2)]; simpl; [done|]. by rewrite H1, H2. Qed.
Lemma named_keys_injective o1 o2 ns1 ns2 n1 n2 : named o1 ns1 (Some n1) → named o2 ns2 (Some n2) → no_slash n1 → no_slash n2 →
  meta_namespace_key_func o1 = meta_namespace_key_func o2 ↔ same_namespace ns1 ns2 ∧ n1 = n2.
Proof.
  intros ->%named_key ->%named_key H1 H2. rewrite <-(join_key_inj ns1 n1 ns2 n2) by done. split; [by intros [= ?]|by intros ->].
Qed.
Lemma reader_key o ns name : named o ns name →
  meta_namespace_key_func o = Key (object_key_to_store_key (NsName ns name)) ∧
  deletion_handling_key o = Key (object_key_to_store_key (NsName ns name)).
Proof.
  intros Hn. pose proof (named_key _ _ _ Hn) as Hk.
  assert (deletion_handling_key o = meta_namespace_key_func o) as -> by (by destruct Hn as [(x & ->)|(d & x & -> & _)]).
  rewrite Hk. done.
Qed.
Lemma reader_finds {V N : Type} `{EqDecision V} `{EqDecision N} fs (h : list (sop pystr pyobj V N * sres pystr pyobj V N)) s o ns name :
  exec (sstep store_key) (store_init fs) h s → named o ns name →
  ∃ k, store_key o = Some k ∧
    (sstep store_key s (SGetByKey (object_key_to_store_key (NsName ns name)))).2 = SOpt (content store_key k (reverse h)).
Proof.
  intros Hex Hn. destruct (reader_key _ _ _ Hn) as [_ Hk]. exists (object_key_to_store_key (NsName ns name)).
  split; [unfold store_key; by rewrite Hk|]. by apply (store_is_map store_key fs h s).
Qed.
Lemma tombstone_key k o : deletion_handling_key (Tombstone k o) = Key k.
Proof. done. Qed.
Lemma unkeyed_dict o : meta_namespace_key_func o = KeyError ↔
  ∃ d x, o = Unstructured (Some d) x ∧ (dget "namespace" d = None ∨ dget "name" d = None).
Proof.
  split.
  - destruct o as [|[[[]|]|] ?|[d|] ?| |]; simpl; try done. destruct (dget "namespace" d) eqn:H1; [destruct (dget "name" d) eqn:H2|]; eauto 10.
    done.
  - intros (d & x & -> & Hd). simpl. destruct (dget "namespace" d); [|done]. by destruct Hd as [?| ->].
Qed.
Lemma slash_in_name_refuted : ∃ o1 o2, named o1 (Some "a") (Some "b") ∧ named o2 None (Some "a/b") ∧
  meta_namespace_key_func o1 = meta_namespace_key_func o2.
Proof.
  exists (Typed (Some (Some (Some "a", Some "b"))) ""), (Typed (Some (Some (None, Some "a/b"))) "").
  split; [left; by eexists|]. split; [left; by eexists|]. done.
Qed.
Lemma no_namespace_entry_refuted : ∃ d, dget "name" d = Some (Some "node") ∧ meta_namespace_key_func (Unstructured (Some d) "") = KeyError ∧
  store_key (Unstructured (Some d) "") = None.
Proof. exists [("name", Some "node")]. vm_compute. done. Qed.

(** ** C41 *)
Lemma group_version_exact s g v : group_version s = Some (g, v) ↔ s = g ++ "/" ++ v ∧ no_slash g ∧ no_slash v.
Proof.
  unfold group_version. split.
  - destruct (split_slash s) as [|g' [|v' [|? ?]]] eqn:Hs; try done. intros [= -> ->]. split; [|split].
    + by rewrite <-(join_split s), Hs.
    + apply (split_parts s). rewrite Hs. left.
    + apply (split_parts s). rewrite Hs. right. left.
  - intros (-> & Hg & Hv). by rewrite app_slash, split_no_slash.
Qed.
Lemma group_version_core s : no_slash s → ∀ kind, group_version_kind s kind = None.
Proof. intros Hs kind. unfold group_version_kind, group_version. by rewrite split_no_slash. Qed.
Lemma core_refuted : group_version_kind "v1" "Pod" = None.
Proof. done. Qed.
