(** Vocabulary for C76. *)
From Verif Require Import Base Watch_model.

Section spec.
  Context {E : Type}.
  Notation trace := (list (fwlabel E)).

  (** the events passed to action, in the order the calls got hold of the watcher; what the iteration returned *)
  Definition sent (tr : trace) : list E := omap (λ l, match l with FWPut e => Some e | _ => None end) tr.
  Definition returned (tr : trace) : list E := omap (λ l, match l with FWReturn _ e => Some e | _ => None end) tr.
  (** what was sent while no stop was called yet *)
  Fixpoint sent_before_stop (tr : trace) : list E :=
    match tr with [] => [] | FWStop :: _ => [] | FWPut e :: tr => e :: sent_before_stop tr | _ :: tr => sent_before_stop tr end.

  (** calls of __anext__ begun and finished *)
  Definition begun (tr : trace) : nat := length (omap (λ l, match l with FWRead _ => Some tt | _ => None end) tr).
  Definition finished (tr : trace) : nat :=
    length (omap (λ l, match l with FWReturn _ _ | FWValueError _ _ | FWEnd _ | FWCancel _ => Some tt | _ => None end) tr).
  (** one consumer: the next call begins when the one before it is over *)
  Definition one_consumer (tr : trace) : Prop := ∀ pre i post, tr = pre ++ FWRead i :: post → begun pre = finished pre.
  (** an action is under way *)
  Definition busy (s : fwatcher E) : Prop := is_Some (w_lock s).

  Definition no_reset (tr : trace) : Prop := FWReset ∉ tr.
  Definition no_reader_cancelled (tr : trace) : Prop := ∀ i, FWCancel i ∉ tr.
  Definition no_action_cancelled (tr : trace) : Prop := FWAbort ∉ tr.
  (** the steps of the consumer's task and the get and stop tasks behind it *)
  Definition consumer_label (l : fwlabel E) : Prop := match l with FWStart _ | FWTake _ _ | FWReturn _ _ | FWEnd _ => True | _ => False end.
End spec.
