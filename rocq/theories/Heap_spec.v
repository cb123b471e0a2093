(** Specification of C95. *)
From Verif Require Import Base.
Section spec.
  Context {E K : Type} (lt : E → E → option bool) (key : E → K).
  (** the heap order, as heapq documents it: heap[k] <= heap[2*k+1] and heap[k] <= heap[2*k+2] *)
  Definition heap_ordered (h : list E) : Prop := ∀ k x y c, h !! k = Some x → c = 2 * k + 1 ∨ c = 2 * k + 2 → h !! c = Some y → lt y x = Some false.
  (** [lt] orders elements of different keys *)
  Record orders : Prop := {
    o_answers x y : key x ≠ key y → ∃ b, lt x y = Some b;
    o_asym x y : lt x y = Some true → lt y x = Some false;
    o_trans x y z : key x ≠ key z → lt y x = Some false → lt z y = Some false → lt z x = Some false
  }.
End spec.
