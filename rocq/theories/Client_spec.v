(** Specification of the client registry: C70. *)
From Verif Require Import Base Client_model.

Section spec.
  Context {G T : Type} `{EqDecision G, EqDecision T}.
  Notation hist := (list (cop G T * cres G)).

  (** the definitions of a history *)
  Definition defs (h : hist) : list (cdef G T) := omap (λ x, match x.1 with CDefine d => Some d | _ => None end) h.
  Definition of_kind (g : G) (d : cdef G T) : Prop := d_gvk d = Some g.
  #[global] Instance of_kind_dec g d : Decision (of_kind g d).
  Proof. unfold of_kind. solve_decision. Defined.
  (** the first definition for a kind *)
  Fixpoint first_def (g : G) (ds : list (cdef G T)) : option (cdef G T) :=
    match ds with [] => None | d :: ds => if decide (of_kind g d) then Some d else first_def g ds end.
  (** t was given to g by the definition that counts for g *)
  Definition gives (ds : list (cdef G T)) (g : G) (t : T) : Prop := ∃ d, first_def g ds = Some d ∧ d_type d = OType t.
  (** no object type is in definitions for two kinds *)
  Definition types_distinct (ds : list (cdef G T)) : Prop :=
    ∀ d1 d2 t, d1 ∈ ds → d2 ∈ ds → d_type d1 = OType t → d_type d2 = OType t → d_gvk d1 = d_gvk d2.
  (** the attributes are there and usable *)
  Definition well_formed (d : cdef G T) : Prop := is_Some (d_gvk d) ∧ d_type d ≠ OMissing ∧ ∀ t, d_type d ≠ OUnhashable t.
End spec.
