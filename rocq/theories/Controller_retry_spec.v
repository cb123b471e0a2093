(** Specification of C81 for the controller: infinite runs. *)
From Verif Require Import Base WorkQueue_model DelayQueue_model DelayQueue_spec RateLimit_model Controller_model Controller_spec Controller_live_spec DelayQueue_live_spec.
From Coq Require Import QArith.
Local Open Scope nat_scope.

Section spec.
  Context {A : Type} `{EqDecision A} (is_request : A → bool).
  Implicit Types (σ : nat → kstate A) (lb : nat → klabel A).

  (** the controller's queue goes on, and is not shut down *)
  Definition serves σ lb : Prop :=
    queue_goes_on (λ n, k_q (σ n)) (λ n, head (to_queue (lb n))) ∧ ∀ n, dq_stop (k_q (σ n)) = false.
  (** what happened before moment n *)
  Definition upto lb (n : nat) : list (klabel A) := lb <$> seq 0 n.
  (** the reconcile failed, or asks to be repeated *)
  Definition fails (o : outcome) : Prop :=
    match o with ORaise => True | OResult requeue after => requeue = true ∧ Qeq_bool after 0 = true | OBad => False end.
  (** at moment m a reconcile of x ended *)
  Definition ended lb (x : A) (m : nat) (o : outcome) : Prop := ∃ i sec a, lb m = KRet i x o sec a.
End spec.
