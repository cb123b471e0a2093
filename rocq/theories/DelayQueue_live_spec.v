(** Specification of C81 for the delaying queue: infinite runs. *)
From Verif Require Import Base WorkQueue_model WaitPQ_model DelayQueue_model.
From Coq Require Import ZArith.
Local Open Scope nat_scope.

Section spec.
  Context {A : Type} `{EqDecision A}.
  Implicit Types (σ : nat → dq A) (lb : nat → option (dlabel A)).

  (** an infinite run: [σ n] is the state before the n-th moment, when transition [lb n] happens,
      or ([None]) something that does not concern the queue *)
  Definition queue_runs σ lb : Prop :=
    ∀ n, match lb n with Some l => dtrans (σ n) l (σ (S n)) | None => σ (S n) = σ n end.

  (** the task running _waiting_loop *)
  Definition by_loop (l : option (dlabel A)) : Prop :=
    match l with Some (DLoopTop | DTake | DResume | DWakeTimer | DWakeHeartbeat | DWakeStop) => True | _ => False end.
  (** goes on whenever it can *)
  Definition loop_goes_on σ lb : Prop :=
    ∀ n, ∃ m, n ≤ m ∧ (by_loop (lb m) ∨ ∀ l s, l ∈ [DLoopTop; DTake; DResume; DWakeTimer] → ¬ dtrans (σ m) l s).
  (** wait_task does not lose against the other things waited for again and again *)
  Definition taker_goes_on σ lb : Prop :=
    ∀ n, ∃ m, n ≤ m ∧ (lb m = Some DTake ∨ ∀ k s, m ≤ k → ¬ dtrans (σ k) DTake s).
  (** a put pending at any time completes *)
  Definition puts_go_on σ lb : Prop :=
    ∀ n e, e ∈ dq_puts (σ n) → ∃ m, n ≤ m ∧ lb m = Some DPut ∧ last (dq_incoming (σ (S m))) = Some e.
  (** time passes *)
  Definition clock_goes_on σ : Prop := ∀ T : Z, ∃ m, (T <= dq_now (σ m))%Z.

  Definition queue_goes_on σ lb : Prop :=
    loop_goes_on σ lb ∧ taker_goes_on σ lb ∧ puts_go_on σ lb ∧ clock_goes_on σ.
End spec.
