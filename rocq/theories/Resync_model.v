(** Model of when the reflector checks for resyncs: the task [resync] and [_resync_queue] of
    aiok8s/cache/reflector.py:64-85, 109-111, 133-137, with the timers of RealTime_model.v
    (aiok8s/util/clock.py:28-29, aiok8s/util/_time.py:5-16).

    - Times are integers in an arbitrary unit, those of the event loop's clock; [res] is its
      resolution and [d] the resync period (0: none, as for a period of None).
    - A transition is a piece of a task between two suspensions.  What should_resync answers (71)
      and whether the store's resync raises (74) is left open; should_resync is unset in the same
      way as it always answers true.
    - Cancelling the resync task (110) stops its timer (83) in the same step: nothing else of the task
      runs between the two.
    - list_and_watch reaches line 85 whenever no resync task is there ([ZBegin]), and line 110 at any time
      after that ([ZCancel]): what happens in between is in Reflector_model.v. *)
From Verif Require Import Base RealTime_model.
From Coq Require Import ZArith.
Local Open Scope Z_scope.

(** the resync task: none; not begun; at line 70; at line 74; ended *)
Inductive zphase := ZNone | ZNew | ZGet | ZStore | ZEnd.
(** with the timer it has at present; its queue is self.c *)
Record zstate := ZState { z_task : zphase; z_timer : rtimer }.
Inductive zlabel :=
| ZTime (l : tlabel)              (* the clock, and the task of the timer *)
| ZBegin (t : Z) | ZStart | ZCheck (t : Z) (due : bool) | ZResync (ok : bool) | ZCancel (t : Z).

Section resync.
  Context (res d : Z).

  (** no timer, or one that has been stopped *)
  Definition no_timer (t : Z) : rtimer := RT t TpEnd None.
  (** _resync_queue, 133-137 *)
  Definition resync_queue (t : Z) : rtimer := if d =? 0 then no_timer t else rt_init t.
  Definition own (l : tlabel) : bool := match l with RTake _ | RStop => false | _ => true end.
  Definition z_init (t : Z) : zstate := ZState ZNone (no_timer t).
  Definition z_now (s : zstate) : Z := t_now (z_timer s).

  Inductive zstep (s : zstate) : zlabel → zstate → Prop :=
  | z_time l tm : own l = true → tstep res KTimer d (z_timer s) l tm → zstep s (ZTime l) (ZState (z_task s) tm)
  (** 85 *)
  | z_begin : z_task s = ZNone → zstep s (ZBegin (z_now s)) (ZState ZNew (z_timer s))
  (** 67-70 *)
  | z_start : z_task s = ZNew → zstep s ZStart (ZState ZGet (resync_queue (z_now s)))
  (** 70-71, and 80-81 if nothing is due *)
  | z_check w due : z_task s = ZGet → t_cell (z_timer s) = Some w →
      zstep s (ZCheck (z_now s) due) (if due then ZState ZStore (RT (z_now s) (t_phase (z_timer s)) None) else ZState ZGet (resync_queue (z_now s)))
  (** 74-79, and 80-81 *)
  | z_resync ok : z_task s = ZStore → zstep s (ZResync ok) (if ok then ZState ZGet (resync_queue (z_now s)) else ZState ZEnd (no_timer (z_now s)))
  (** 110-111, 82-83 *)
  | z_cancel : z_task s ≠ ZNone → zstep s (ZCancel (z_now s)) (ZState ZNone (no_timer (z_now s))).
End resync.
