(** Vocabulary for the delaying queue, on sequences of labels (oldest first). *)
From Verif Require Import Base WorkQueue_model WorkQueue_spec WaitPQ_model DelayQueue_model.
From Coq Require Import ZArith.
Open Scope Z_scope.

Section spec.
  Context {A : Type} `{EqDecision A}.

  (** [x] may be delivered at time [T]: it was added directly, or some
      add_after asked for it to be available from a time not after [T] on *)
  Definition authorised (ls : list (dlabel A)) (x : A) (T : Z) : Prop :=
    DAdd x ∈ ls ∨ ∃ d t0, DAddAfter x d t0 ∈ ls ∧ t0 + d ≤ T.

  Definition deliveries (x : A) (ls : list (dlabel A)) : nat :=
    countb (λ l, match l with DGet (RItem y) _ => bool_decide (y = x) | _ => false end) ls.
  Definition requests_for (x : A) (ls : list (dlabel A)) : nat :=
    countb (λ l, match l with DAdd y | DAddAfter y _ _ => bool_decide (y = x) | _ => false end) ls.

  (** every entry the queue still has to release, wherever it is kept *)
  Definition dq_tracked (s : dq A) : list (A * Z) :=
    dq_puts s ++ dq_incoming s ++ (match dq_pc s with LGot e => [e] | _ => [] end)
    ++ ((λ e, (e.1, e.2.1)) <$> pq_finder (dq_pq s)).

  (** steps of the background machinery that need no outside event (no clock
      tick, no call, no heartbeat) *)
  Definition internal (l : dlabel A) : Prop :=
    l = DPut ∨ l = DLoopTop ∨ l = DTake ∨ l = DResume ∨ l = DWakeTimer.

  (** [x] will be handed out: the ready queue owes it *)
  Definition ready_owed (x : A) (s : dq A) : Prop :=
    ∃ h, exec wstep wq_init h (dq_base s) ∧ owed x h.
End spec.
