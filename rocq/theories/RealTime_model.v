(** Model of Timer and Ticker, aiok8s/util/_time.py:5-34 (also behind RealClock,
    aiok8s/util/clock.py:21-32, 115-123, 157-165).

    - Times are integers in an arbitrary unit.  The event loop's clock never goes back.
      asyncio wakes a sleeping task once deadline < time + resolution
      (Lib/asyncio/base_events.py, not in /repo): [res] is that resolution.  It may be
      arbitrarily late.  asyncio.sleep(d) with d <= 0 suspends once: its deadline is at once.
    - time.time() is another clock; what it reads is arbitrary ([w]).
    - A transition is a piece of a task between two suspensions.  [stop] cancels the task:
      CancelledError is thrown into it at its next step, also when it was woken
      already or has not begun, so nothing of its code runs any more.
    - The readers of the queue are [RTake]: asyncio.Queue hands out each item once. *)
From Verif Require Import Base.
From Coq Require Import ZArith.
Local Open Scope Z_scope.

Inductive tkind := KTimer | KTicker.
(** the task: not begun; in sleep (10, 25); in put (11); ended or cancelled *)
Inductive tphase := TpNew | TpSleep (deadline : Z) | TpPut (w : Z) | TpEnd.
Record rtimer := RT { t_now : Z; t_phase : tphase; t_cell : option Z (* self.c, 7 and 21 *) }.
Definition rt_init (t : Z) : rtimer := RT t TpNew None.

Inductive tlabel := RPass (t : Z) | RBegin (t : Z) | RWake (t w : Z) | RPut | RTake (w : Z) | RStop.

Section realtime.
  Context (res : Z) (k : tkind) (d : Z).

  Definition deadline_from (t : Z) : Z := t + Z.max 0 d.
  (** after the sleep: 11 or 26-29 *)
  Definition tick (s : rtimer) (w : Z) : rtimer :=
    match k with
    | KTimer => match t_cell s with
                | None => RT (t_now s) TpEnd (Some w)
                | Some old => RT (t_now s) (TpPut w) (Some old)
                end
    | KTicker => RT (t_now s) (TpSleep (deadline_from (t_now s))) (match t_cell s with None => Some w | Some old => Some old end)
    end.

  Inductive tstep : rtimer → tlabel → rtimer → Prop :=
  | t_pass s t : t_now s <= t → tstep s (RPass t) (RT t (t_phase s) (t_cell s))
  (** 9-10, 23-25 *)
  | t_begin s : t_phase s = TpNew → tstep s (RBegin (t_now s)) (RT (t_now s) (TpSleep (deadline_from (t_now s))) (t_cell s))
  | t_wake s dl w : t_phase s = TpSleep dl → dl < t_now s + res → tstep s (RWake (t_now s) w) (tick s w)
  | t_put s w : t_phase s = TpPut w → t_cell s = None → tstep s RPut (RT (t_now s) TpEnd (Some w))
  | t_take s w : t_cell s = Some w → tstep s (RTake w) (RT (t_now s) (t_phase s) None)
  (** 15-16, 33-34 *)
  | t_stop s : tstep s RStop (RT (t_now s) TpEnd (t_cell s)).
End realtime.
