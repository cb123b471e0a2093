(** What passes through a listener, read off the labels of a run. *)
From Verif Require Import Base Listener_model.
Section spec.
  Context {N : Type}.
  Implicit Types ls : list (llabel N).
  (** the notifications accepted for the handler, and those passed to it *)
  Definition accepted_of ls : list N := omap (λ l, match l with LPut n => Some n | _ => None end) ls.
  Definition handled_of ls : list N := omap (λ l, match l with LCall n => Some n | _ => None end) ls.
  (** steps of the three tasks; not the arrival of a notification, its cancellation and the stop request *)
  Definition task_step (l : llabel N) : Prop := match l with LAdd _ | LAddCancel | LStop => False | _ => True end.
  (** the handler's callback ends *)
  Definition callback_ends (l : llabel N) : Prop := l = LReturn ∨ l = LRaise.
  (** the number of calls of _add that returned *)
  Definition returned_of ls : nat := length (omap (λ l, match l with LJoined => Some tt | _ => None end) ls).
End spec.
