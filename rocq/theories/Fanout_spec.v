(** Specification of C94, over histories. *)
From Verif Require Import Base Listener_model Fanout_model.

Section spec.
  Context {N : Type}.
  Implicit Types (tr : list (flabel N)).
  (** what handler [i] is to be given, if [k] handlers are registered and [sy] are those that are syncing *)
  Fixpoint expected_from (i k : nat) (sy : list nat) tr : list N :=
    match tr with
    | [] => []
    | FRegister items :: tr => (if decide (i = k) then items else []) ++ expected_from i (S k) (sy ++ [k]) tr
    | FDistribute n true :: tr => (if decide (i ∈ sy) then [n] else []) ++ expected_from i k sy tr
    | FDistribute n false :: tr => (if decide (i < k) then [n] else []) ++ expected_from i k sy tr
    | FResync due :: tr => expected_from i k due tr
    | FLis _ _ :: tr => expected_from i k sy tr
    end.
  Definition expected i tr : list N := expected_from i 0 [] tr.
  (** what it was called with *)
  Definition calls i tr : list N := omap (λ l, match l with FLis j (LCall n) => if decide (i = j) then Some n else None | _ => None end) tr.
  (** notifications for all handlers *)
  Definition for_all tr : nat := length (omap (λ l, match l with FDistribute _ false => Some tt | _ => None end) tr).
  (** new work: a handler, a notification, a check for resyncs *)
  Definition arrives (l : flabel N) : Prop := match l with FLis _ _ => False | _ => True end.
  (** the callback of handler [i] ends *)
  Definition returns i (l : flabel N) : Prop := l = FLis i LReturn ∨ l = FLis i LRaise.
End spec.
