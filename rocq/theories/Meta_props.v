(** C105: the accessors of api/meta.py, on the objects they read and write. *)
From Verif Require Import Base KeyFunc_model Meta_model Meta_spec Meta_proofs.
From Coq Require Import Strings.String Strings.Ascii.
From stdpp Require Import strings.
Local Open Scope string_scope.

(** there is an accessor exactly for what has metadata, and the only error of making one is its own *)
Theorem C105_accessor h v :
  ((∃ a, accessor h v = MOk a) ↔ ∃ m, has_meta h v m) ∧ ((∃ a, list_accessor h v = MOk a) ↔ ∃ m, has_meta h v m) ∧
  (∀ e, accessor h v = MErr e → e = NotObject) ∧ (∀ e, list_accessor h v = MErr e → e = NotList).
Proof. exact (accessor_iff h v). Qed.
Print Assumptions C105_accessor.

(** it reads what the metadata holds at the time of reading; what is missing raises KeyError, AttributeError or TypeError then *)
Theorem C105_reads h v a h' f : accessor h v = MOk a →
  ∃ m, has_meta h v m ∧
    (∀ x, a_get h' a f = MOk x ↔ has_field h' (is_dict h v) m f x) ∧
    (∀ e, a_get h' a f = MErr e → e = if is_dict h v then if is_dict h' m then KeyErr else TypeErr else AttrErr).
Proof. exact (reads h v a h' f). Qed.
Print Assumptions C105_reads.

(** the version that is set is read back, by every accessor of the same metadata and no other, and no other field changes *)
Theorem C105_set_get h a x h' : a_set_version h a x = (h', MOk tt) →
  ∀ b f, a_get h' b f = if decide (b = a ∧ f = FVersion) then MOk x else a_get h b f.
Proof. exact (set_get h a x h'). Qed.
Print Assumptions C105_set_get.

(** nor does anything else in any object *)
Theorem C105_set_frame h a x h' r : a_set_version h a x = (h', r) →
  (∀ p, a_meta a ≠ VRef p → dget p h' = dget p h) ∧ (∀ v, is_dict h' v = is_dict h v) ∧
  (∀ v k y, k ≠ "resourceVersion" → entry h' v k y ↔ entry h v k y) ∧ (∀ v k y, k ≠ "resource_version" → attr h' v k y ↔ attr h v k y).
Proof. exact (set_frame h a x h' r). Qed.
Print Assumptions C105_set_frame.

(** setting can fail only where nothing can be read, and then changes nothing *)
Theorem C105_set_fails h a x h' e : a_set_version h a x = (h', MErr e) → h' = h ∧ ∀ f y, a_get h a f ≠ MOk y.
Proof. exact (set_fails h a x h' e). Qed.
Print Assumptions C105_set_fails.

(** a list is given back as it was set, by identity, and its metadata stays *)
Theorem C105_list h v x h' : set_list h v x = (h', MOk tt) → extract_list h' v = MOk x ∧
  (∀ p, v ≠ VRef p → dget p h' = dget p h) ∧ (∀ m, has_meta h' v m ↔ has_meta h v m).
Proof. exact (list_set h v x h'). Qed.
Print Assumptions C105_list.
Theorem C105_list_works h v x : (∃ h', set_list h v x = (h', MOk tt)) ↔ dictionary h v ∨ typed h v.
Proof. exact (list_set_works h v x). Qed.
Print Assumptions C105_list_works.

(** what the reflector reads of a list *)
Theorem C105_read_list h v rv l : read_list h v = MOk (rv, l) ↔
  ∃ m, has_meta h v m ∧ has_field h (is_dict h v) m FVersion rv ∧ (entry h v "items" l ∨ attr h v "items" l).
Proof. exact (read_list_ok h v rv l). Qed.
Print Assumptions C105_read_list.

(** of the fake source's list it reads the version and the items put there, and making it changes no object *)
Theorem C105_fake_list h items version h' l : fake_list h items version = (h', l) →
  read_list h' l = MOk (version, items) ∧ ∀ p c, dget p h = Some c → dget p h' = Some c.
Proof. exact (fake_list_reads h items version h' l). Qed.
Print Assumptions C105_fake_list.

(** a dictionary and a typed object with the same metadata read the same and have the same key *)
Theorem C105_alike h v w : alike h v w → ∃ a b, accessor h v = MOk a ∧ accessor h w = MOk b ∧
  ∀ f x, a_get h a f = MOk x ↔ a_get h b f = MOk x.
Proof. exact (alike_accessors h v w). Qed.
Print Assumptions C105_alike.
Theorem C105_alike_keys repr h v w k : alike h v w → key_func repr h v = MOk k ↔ key_func repr h w = MOk k.
Proof. exact (alike_keys repr h v w k). Qed.
Print Assumptions C105_alike_keys.

(** the keys are those of C36 *)
Theorem C105_keys repr h v o : looks h v o → same_key (key_func repr h v) (meta_namespace_key_func o).
Proof. exact (key_refines repr h v o). Qed.
Print Assumptions C105_keys.
(** and on any other object the key function raises one of four errors *)
Theorem C105_key_errors repr h v e : key_func repr h v = MErr e →
  (e = NotObject ↔ ∀ m, ¬ has_meta h v m) ∧ e ∈ [NotObject; KeyErr; AttrErr; TypeErr].
Proof. exact (key_errors repr h v e). Qed.
Print Assumptions C105_key_errors.

(** the namespace index has the namespace *)
Theorem C105_index h v l : namespace_index h v = MOk l ↔ ∃ m ns, has_meta h v m ∧ has_field h (is_dict h v) m FNamespace ns ∧ l = [ns].
Proof. exact (index_ok h v l). Qed.
Print Assumptions C105_index.

(** group, version and kind are read of objects with an apiVersion that splits, and a kind *)
Theorem C105_gvk h v g ver k : gvk h v = MOk (g, ver, k) ↔
  ∃ s, (entry h v "apiVersion" (VStr s) ∨ entry h v "apiVersion" (VKey s) ∨ attr h v "api_version" (VStr s) ∨ attr h v "api_version" (VKey s)) ∧
    group_version s = Some (g, ver) ∧ (entry h v "kind" k ∨ attr h v "kind" k).
Proof. exact (gvk_ok h v g ver k). Qed.
Print Assumptions C105_gvk.

(** a change of the fake source is put on record if the version could be set, whether the key can then be read or not *)
Theorem C105_change h ch ver v h' ch' r : change_start h ch ver v = (h', ch', r) →
  ch' = ch ∧ h' = h ∧ (∃ e, r = MErr e) ∧ ¬ (∃ a f y, accessor h v = MOk a ∧ a_get h a f = MOk y) ∨
  ch' = (ch ++ [v])%list ∧ ∃ a, accessor h v = MOk a ∧ a_get h' a FVersion = MOk ver ∧ (∀ f, f ≠ FVersion → a_get h' a f = a_get h a f) ∧
    ∀ ns n u, r = MOk (ns, n, u) ↔ a_get h a FNamespace = MOk ns ∧ a_get h a FName = MOk n ∧ a_get h a FUid = MOk u.
Proof. exact (change_outcome h ch ver v h' ch' r). Qed.
Print Assumptions C105_change.
(** so a change may raise and still be on record *)
Theorem C105_failed_change_refuted : ∃ h v h' e a, change_start h [] (VStr "1") v = (h', [v], MErr e) ∧ accessor h v = MOk a ∧ a_get h' a FVersion = MOk (VStr "1").
Proof. exact failed_change_stays. Qed.
Print Assumptions C105_failed_change_refuted.

(** an accessor does not see metadata put into the object later *)
Theorem C105_replaced_metadata_refuted : ∃ h h' v a, accessor h v = MOk a ∧ accessor h' v ≠ MOk a ∧ h' = dset 0 (HDict [("metadata", VRef 2)]) h ∧
  a_get h' a FVersion = MOk (VStr "1") ∧ ∃ b, accessor h' v = MOk b ∧ a_get h' b FVersion = MOk (VStr "2").
Proof. exact stale_accessor. Qed.
Print Assumptions C105_replaced_metadata_refuted.
(** setting the version of one object may change that of another *)
Theorem C105_shared_metadata_refuted : ∃ h v w a b h', v ≠ w ∧ accessor h v = MOk a ∧ accessor h w = MOk b ∧
  a_get h b FVersion = MOk (VStr "1") ∧ a_set_version h a (VStr "2") = (h', MOk tt) ∧ a_get h' b FVersion = MOk (VStr "2").
Proof. exact shared_metadata. Qed.
Print Assumptions C105_shared_metadata_refuted.
(** a dictionary around typed metadata has an accessor that reads nothing *)
Theorem C105_mixed_refuted : ∃ h v a, accessor h v = MOk a ∧ (∀ f, a_get h a f = MErr TypeErr) ∧ a_set_version h a (VStr "2") = (h, MErr TypeErr) ∧
  ∀ repr, key_func repr h v = MErr TypeErr.
Proof. exact mixed_spelling. Qed.
Print Assumptions C105_mixed_refuted.

(** a concrete case *)
Theorem C105_case : ∃ h v w a h', alike h v w ∧ accessor h v = MOk a ∧ a_get h a FNamespace = MOk (VStr "d") ∧
  (∀ repr, key_func repr h v = MOk (VStr "d/p") ∧ key_func repr h w = MOk (VStr "d/p")) ∧
  a_set_version h a (VStr "7") = (h', MOk tt) ∧ a_get h' a FVersion = MOk (VStr "7") ∧
  gvk h v = MOk ("apps", "v1", VStr "Deployment") ∧ gvk h w = MErr ValueErr.
Proof. exact meta_case. Qed.
Print Assumptions C105_case.
