(** Vocabulary for asyncio queues. *)
From Verif Require Import Base AsyncQueue_model.

Section spec.
  Context {A : Type}.
  Notation aqueue := (aqueue A).
  (** the task is in this state *)
  Definition is_at (s : aqueue) (t : nat) (o : qop A) (x : qstate) : Prop := q_tasks s !! t = Some (T o x).
  (** it waits, and nobody woke or cancelled it *)
  Definition pending (s : aqueue) (t : nat) (o : qop A) : Prop := is_at s t o (SWait FPending).
  (** nothing happens unless a task is made or cancelled, or task_done is called *)
  Definition quiet (max : nat) (s : aqueue) : Prop := ∀ t s', ¬ qstep max s (QRun t) s'.
  (** labels that are runs *)
  Definition is_run (l : qlabel A) : Prop := match l with QRun _ => True | _ => False end.
  (** the tasks made, in order *)
  Definition made (ls : list (qlabel A)) : list (qop A) := omap (λ l, match l with QStart o => Some o | _ => None end) ls.
End spec.

(** ** Cases *)
(** mux.py:23; calls of action: the first 25 fill the queue, the next waits; when the loop has taken one event, another call comes first *)
Definition overtake_trace : list (qlabel nat) :=
  (QStart ∘ OPut <$> seq 0 26) ++ (QRun <$> seq 0 26) ++ [QStart OGet; QStart (OPut 99); QRun 26; QRun 27; QRun 25].
(** a queue of size one, as in the listener: two gets wait, a put wakes the first, a third get takes the item *)
Definition barge_trace : list (qlabel nat) := [QStart OGet; QStart OGet; QRun 0; QRun 1; QStart (OPut 5); QStart OGet; QRun 2; QRun 3; QRun 0].
(** a get waits, a second one too; a put and a join; the first get is cancelled after it was woken; the second gets the item *)
Definition pass_trace : list (qlabel nat) := [QStart OGet; QStart OGet; QRun 0; QRun 1; QStart (OPut 5); QStart OJoin; QRun 2; QRun 3; QCancel 0; QRun 0; QRun 1; QTaskDone; QRun 3].
(** a join waits for the one item; when it was taken, another is put before the join runs *)
Definition join_trace : list (qlabel nat) := [QStart (OPut 5); QStart OJoin; QRun 0; QRun 1; QStart OGet; QRun 2; QTaskDone; QStart (OPut 6); QRun 3; QRun 1].
