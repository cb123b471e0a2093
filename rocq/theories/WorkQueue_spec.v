(** Vocabulary for stating work-queue properties on call histories.
    A history is the list of calls made, with their results, oldest first.
    Nothing here refers to the implementation's fields. *)
From Verif Require Import Base WorkQueue_model.

Section spec.
  Context {A : Type}.
  Notation event := (wop A * wres A)%type.
  Notation history := (list event).

  (** [x] was handed out and no successful [done x] followed *)
  Definition in_hand (x : A) (h : history) : Prop :=
    ∃ h1 h2, h = h1 ++ (Get, RItem x) :: h2 ∧ (Done x, RNone) ∉ h2.

  Definition shut (h : history) : Prop := (ShutDown, RNone) ∈ h.

  (** [x] was added before any shutdown and not handed out since *)
  Definition owed (x : A) (h : history) : Prop :=
    ∃ h1 h2, h = h1 ++ (Add x, RNone) :: h2 ∧ ¬ shut h1 ∧ (Get, RItem x) ∉ h2.

  Definition delivered (x : A) (h : history) : Prop := (Get, RItem x) ∈ h.
  Definition added (x : A) (h : history) : Prop := (Add x, RNone) ∈ h.
End spec.
