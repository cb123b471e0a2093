(** When the reflector checked for resyncs, read off a trace (oldest first). *)
From Verif Require Import Base RealTime_model Resync_model.
From Coq Require Import ZArith.
Local Open Scope Z_scope.

(** the times of the checks *)
Definition check_times (tr : list zlabel) : list Z := omap (λ l, match l with ZCheck t _ => Some t | _ => None end) tr.
(** the clock after a trace that began at t0 *)
Definition zclock (t0 : Z) (tr : list zlabel) : Z := foldl (λ t l, match l with ZTime (RPass t') => t' | _ => t end) t0 tr.
(** the watches made since the last list, newest label first: when they began, and how many checks there were *)
Fixpoint episode (tr : list zlabel) : option Z :=
  match tr with
  | [] => None
  | ZBegin t :: _ => Some t
  | ZCancel _ :: _ => None
  | _ :: tr => episode tr
  end.
(** the resync task waits for its timer: it has started, and the last resync it wanted succeeded *)
Fixpoint waiting (tr : list zlabel) : Prop :=
  match tr with
  | [] => False
  | ZTime _ :: tr => waiting tr
  | ZStart :: _ | ZCheck _ false :: _ | ZResync true :: _ => True
  | _ => False
  end.
Definition timer_label (l : zlabel) : Prop := match l with ZTime _ => True | _ => False end.

(** times of which each is at most D after the one before, the first at most D after t0 *)
Fixpoint every (D t0 : Z) (ts : list Z) : Prop := match ts with [] => True | t :: ts => t0 <= t <= t0 + D ∧ every D t ts end.
