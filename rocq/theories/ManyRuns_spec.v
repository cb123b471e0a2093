(** Specification of C96, over histories. *)
From Verif Require Import Base Listener_model ManyRuns_model.
Section spec.
  Context {N : Type}.
  Implicit Types ls : list (mlabel N).
  (** the notifications accepted for the handler, and those it was called with *)
  Definition taken ls : list N := omap (λ l, match l with MPut n => Some n | _ => None end) ls.
  Definition called ls : list N := omap (λ l, match l with MCall _ n => Some n | _ => None end) ls.
  Definition returned ls : nat := length (omap (λ l, match l with MReturn _ | MRaise _ => Some tt | _ => None end) ls).
  Definition runs ls : nat := length (omap (λ l, match l with MRun => Some tt | _ => None end) ls).
  (** the tasks go on: no new notification, run or stop *)
  Definition goes_on (l : mlabel N) : Prop := match l with MAdd _ | MCancel | MRun | MStop => False | _ => True end.
  Definition times `{EqDecision N} (n : N) (l : list N) : nat := length (filter (λ m, m = n) l).
End spec.
