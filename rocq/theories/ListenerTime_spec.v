(** What a timed run of a listener shows. *)
From Verif Require Import Base Listener_model Listener_spec ListenerTime_model.
From Coq Require Import ZArith.
Section spec.
  Context {N : Type}.
  Implicit Types ls : list (tlabel N).
  (** the steps without the times *)
  Definition untimed ls : list (llabel N) := omap (λ l, match l with TDo l _ => Some l | TPass _ => None end) ls.
  (** how often the handler raised, and how often it returned *)
  Definition raises_of ls : nat := length (omap (λ l, match l with TDo LRaise _ => Some tt | _ => None end) ls).
  Definition returns_of ls : nat := length (omap (λ l, match l with TDo LReturn _ => Some tt | _ => None end) ls).
  (** the handler is called, or the task of the handler ends *)
  Definition goes_on (l : llabel N) : Prop := (∃ n, l = LCall n) ∨ l = LRunStop.
End spec.
