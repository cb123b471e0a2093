(** Properties C36 and C41 of the key functions. *)
From Verif Require Import Base KeyFunc_model KeyFunc_spec KeyFunc_proofs Store_model Store_spec.
From Coq Require Import Strings.String Strings.Ascii.
From stdpp Require Import strings.
Local Open Scope string_scope.

(** C36: objects whose names contain no '/' share a key iff they agree on
    namespace and name (no and an empty namespace are the same) *)
Theorem C36_keys_injective o1 o2 ns1 ns2 n1 n2 : named o1 ns1 (Some n1) → named o2 ns2 (Some n2) → no_slash n1 → no_slash n2 →
  meta_namespace_key_func o1 = meta_namespace_key_func o2 ↔ same_namespace ns1 ns2 ∧ n1 = n2.
Proof. exact (named_keys_injective o1 o2 ns1 ns2 n1 n2). Qed.
(** the cache reader computes the key the object is stored under *)
Theorem C36_reader_agrees o ns name : named o ns name →
  meta_namespace_key_func o = Key (object_key_to_store_key (NsName ns name)) ∧
  deletion_handling_key o = Key (object_key_to_store_key (NsName ns name)).
Proof. exact (reader_key o ns name). Qed.
(** so that reading by name finds what the store's history put under the object's key *)
Theorem C36_reader_finds {V N : Type} `{EqDecision V} `{EqDecision N} fs (h : list (sop pystr pyobj V N * sres pystr pyobj V N)) s o ns name :
  exec (sstep store_key) (store_init fs) h s → named o ns name →
  ∃ k, store_key o = Some k ∧
    (sstep store_key s (SGetByKey (object_key_to_store_key (NsName ns name)))).2 = SOpt (content store_key k (reverse h)).
Proof. exact (reader_finds fs h s o ns name). Qed.
Theorem C36_tombstones k o : deletion_handling_key (Tombstone k o) = Key k.
Proof. exact (tombstone_key k o). Qed.
(** exactly the dictionaries without a namespace or name entry raise KeyError *)
Theorem C36_unkeyed_dicts o : meta_namespace_key_func o = KeyError ↔
  ∃ d x, o = Unstructured (Some d) x ∧ (dget "namespace" d = None ∨ dget "name" d = None).
Proof. exact (unkeyed_dict o). Qed.
Theorem C36_slash_in_name_refuted : ∃ o1 o2, named o1 (Some "a") (Some "b") ∧ named o2 None (Some "a/b") ∧
  meta_namespace_key_func o1 = meta_namespace_key_func o2.
Proof. exact slash_in_name_refuted. Qed.
(** a cluster-scoped dictionary object cannot be stored *)
Theorem C36_cluster_scoped_dict_refuted : ∃ d, dget "name" d = Some (Some "node") ∧
  meta_namespace_key_func (Unstructured (Some d) "") = KeyError ∧ store_key (Unstructured (Some d) "") = None.
Proof. exact no_namespace_entry_refuted. Qed.

(** C41: parsing apiVersion succeeds exactly on the rendering of a group and a version *)
Theorem C41_parse_inverts_render s g v : group_version s = Some (g, v) ↔ s = g ++ "/" ++ v ∧ no_slash g ∧ no_slash v.
Proof. exact (group_version_exact s g v). Qed.
(** and fails on every core group version *)
Theorem C41_core_group_fails s : no_slash s → ∀ kind, group_version_kind s kind = None.
Proof. exact (group_version_core s). Qed.
Theorem C41_core_group_refuted : group_version_kind "v1" "Pod" = None.
Proof. exact core_refuted. Qed.

(** cases *)
Example C36_case : named (Typed (Some (Some (Some "ns", Some "pod"))) "data") (Some "ns") (Some "pod") ∧ no_slash "pod" ∧
  meta_namespace_key_func (Typed (Some (Some (Some "ns", Some "pod"))) "data") = Key (Some "ns/pod").
Proof. split; [left; by eexists|]. split; [|done]. cbv. intuition discriminate. Qed.
Example C41_case : group_version "apps/v1" = Some ("apps", "v1").
Proof. reflexivity. Qed.

Print Assumptions C36_keys_injective.
Print Assumptions C36_reader_agrees.
Print Assumptions C36_reader_finds.
Print Assumptions C36_tombstones.
Print Assumptions C36_unkeyed_dicts.
Print Assumptions C36_slash_in_name_refuted.
Print Assumptions C36_cluster_scoped_dict_refuted.
Print Assumptions C41_parse_inverts_render.
Print Assumptions C41_core_group_fails.
Print Assumptions C41_core_group_refuted.
