(** Specification of C64 over infinite runs. *)
From Verif Require Import Base WorkQueue_model DelayQueue_model DelayQueue_spec RateLimit_model Controller_model Controller_spec.
Local Open Scope nat_scope.

Section spec.
  Context {A : Type} `{EqDecision A} (is_request : A → bool).

  (** an infinite run: [σ n] is the state before the n-th transition [lb n] *)
  Definition runs (σ : nat → kstate A) (lb : nat → klabel A) : Prop := ∀ n, kstep is_request (σ n) (lb n) (σ (S n)).
  (** a transition of worker i's own code *)
  Definition moves (i : nat) (l : klabel A) : Prop :=
    match l with KGet j _ _ | KRet j _ _ _ _ | KResume j | KDone j _ _ | KWake j => j = i | _ => False end.
  (** every worker that did not end goes on: its reconciles return, its sleeps end, and so on.
      A worker that waits for an empty queue goes on by being answered RBlocked; that a
      waiting one is woken when something is added is C06. *)
  Definition fair (σ : nat → kstate A) (lb : nat → klabel A) : Prop :=
    ∀ j n p, k_ws (σ n) !! j = Some p → ∃ m, n ≤ m ∧ (moves j (lb m) ∨ k_ws (σ m) !! j = Some WDead ∨ k_ws (σ m) !! j = Some WCrashed).
End spec.
