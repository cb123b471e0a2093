(** C70. *)
From Verif Require Import Base Client_model Client_spec Client_proofs.

(** C70: a kind can be registered once: a definition for a kind that was in an earlier one raises
    and changes nothing; the first succeeds if it has its attributes. *)
Theorem C70_again_raises (G T : Type) `{EqDecision G, EqDecision T} h (s : registry G T) g d d0 : exec cstep reg_init h s →
  d0 ∈ defs h → d_gvk d0 = Some g → d_gvk d = Some g → cstep s (CDefine d) = (s, CAssertionError).
Proof. exact (again h s g d d0). Qed.
Print Assumptions C70_again_raises.
Theorem C70_first_registers (G T : Type) `{EqDecision G, EqDecision T} h (s : registry G T) g d : exec cstep reg_init h s →
  (∀ d0, d0 ∈ defs h → d_gvk d0 ≠ Some g) → d_gvk d = Some g → well_formed d → (cstep s (CDefine d)).2 = CDone.
Proof. exact (first_ok h s g d). Qed.
Print Assumptions C70_first_registers.
(** so the client of a kind is forever the one of its first definition *)
Theorem C70_client (G T : Type) `{EqDecision G, EqDecision T} h (s : registry G T) g : exec cstep reg_init h s →
  (cstep s (CClientFor g)).2 = match first_def g (defs h) with Some d => CClient (d_cls d) | None => CKeyError end.
Proof. exact (client_for h s g). Qed.
Print Assumptions C70_client.

(** C70: kinds and object types map to each other, if no object type is in definitions for two kinds *)
Theorem C70_one_to_one (G T : Type) `{EqDecision G, EqDecision T} h (s : registry G T) t g : exec cstep reg_init h s → types_distinct (defs h) →
  (cstep s (CGvkFor t)).2 = CGvk g ↔ gives (defs h) g t.
Proof. exact (one_to_one h s t g). Qed.
Print Assumptions C70_one_to_one.
Theorem C70_type_of_kind (G T : Type) `{EqDecision G, EqDecision T} h (s : registry G T) g t : exec cstep reg_init h s → (∀ d, d ∈ defs h → well_formed d) →
  dget g (r_types s) = Some t ↔ gives (defs h) g t.
Proof. exact (type_of h s g t). Qed.
Print Assumptions C70_type_of_kind.
Theorem C70_unstructured (G T : Type) `{EqDecision G, EqDecision T} h (s : registry G T) g : exec cstep reg_init h s →
  g ∈ r_unstructured s ↔ ∃ d, first_def g (defs h) = Some d ∧ d_type d = OFalsy.
Proof. exact (unstructured h s g). Qed.
Print Assumptions C70_unstructured.

(** C70: one direction holds always: the kind found for an object type has that object type *)
Theorem C70_kind_of_type (G T : Type) `{EqDecision G, EqDecision T} h (s : registry G T) t g : exec cstep reg_init h s →
  (cstep s (CGvkFor t)).2 = CGvk g → gives (defs h) g t.
Proof. exact (gvk_sound h s t g). Qed.
Print Assumptions C70_kind_of_type.
(** C70: of several kinds with an object type, the last registered is found *)
Theorem C70_last_wins (G T : Type) `{EqDecision G, EqDecision T} h (s : registry G T) d g t : exec cstep reg_init h s →
  d_gvk d = Some g → d_type d = OType t → (cstep s (CDefine d)).2 = CDone → (cstep (cstep s (CDefine d)).1 (CGvkFor t)).2 = CGvk g.
Proof. exact (last_wins h s d g t). Qed.
Print Assumptions C70_last_wins.

(** C70: "one-to-one" is false: two kinds are registered with object type 7, both without
    error; 7 now means the second. *)
Theorem C70_shared_refuted : ∃ s, exec cstep reg_init shared_h s ∧ (∀ d, d ∈ defs shared_h → well_formed d) ∧ dget 1 (r_types s) = Some 7 ∧ dget 4 (r_types s) = Some 7.
Proof. exact shared_case. Qed.
Print Assumptions C70_shared_refuted.
(** C70: a class definition that fails, for want of object_type or of its hash, has taken the kind:
    the corrected definition is refused, and the kind has the client whose definition failed. *)
Theorem C70_failed_takes_kind_refuted : ∃ s, exec cstep reg_init half_h s ∧ well_formed pod.
Proof. exact half_case. Qed.
Print Assumptions C70_failed_takes_kind_refuted.
Theorem C70_unhashable_takes_kind_refuted : ∃ s, exec cstep reg_init unhashed_h s ∧ dget 1 (r_types s) = Some 7.
Proof. exact unhashed_case. Qed.
Print Assumptions C70_unhashable_takes_kind_refuted.

(** a case of C70_one_to_one, with a refused definition and one without object type *)
Theorem C70_case : ∃ s, exec cstep reg_init case_h s ∧ types_distinct (defs case_h) ∧ gives (defs case_h) 1 7 ∧ gives (defs case_h) 2 8.
Proof. exact distinct_case. Qed.
Print Assumptions C70_case.
