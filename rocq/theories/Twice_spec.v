(** Specification of C93, over histories. *)
From Verif Require Import Base Twice_model.

Section spec.
  Context {A : Type} `{EqDecision A}.
  Implicit Types (tr : list (tlab A)).
  Definition count (P : tlab A → bool) tr : nat := length (List.filter P tr).
  (** calls of start *)
  Definition starts tr : nat := count (λ l, match l with TStart => true | _ => false end) tr.
  (** requests taken and not yet reconciled to the end: reconciles that are running *)
  Definition takes x tr : nat := count (λ l, match l with TTake _ _ y => bool_decide (x = y) | _ => false end) tr.
  Definition rets x tr : nat := count (λ l, match l with TDone _ y _ => bool_decide (x = y) | _ => false end) tr.
  (** workers ended by the KeyError of done *)
  Definition errors x tr : nat := count (λ l, match l with TDone _ y false => bool_decide (x = y) | _ => false end) tr.
  (** requests taken from the first [n] queues *)
  Definition old_takes n tr : nat := count (λ l, match l with TTake _ q _ => bool_decide (q < n) | _ => false end) tr.
  (** workers waiting in get *)
  Definition waiting (s : tctl A) : nat := length (List.filter (λ p, match p with PGet _ => true | _ => false end) (t_ws s)).
End spec.
