(** Model of aiok8s/util/wait.py.

    Durations, factors and times are exact rationals: rounding of double
    operations, infinities and nans are not modelled.  [random.random()]
    returns an arbitrary number, given to each call that draws one; its range
    is a hypothesis of the theorems that need it. *)
From Verif Require Import Base.
From Verif Require Export RateLimit_model.
From Coq Require Import ZArith QArith Lqa Lia.
Open Scope Q_scope.

Definition is_zero (q : Q) : bool := Qeq_bool q 0.

(** jitter, 68-72; [rnd] is what random.random() returned *)
Definition jitter (duration max_factor rnd : Q) : Q :=
  let max_factor := if Qle_bool max_factor 0 then 1 else max_factor in
  duration + rnd * max_factor * duration.

(** class Backoff, 79-85 *)
Record backoff := Backoff { bo_duration : Q; bo_factor : Q; bo_jitter : Q; bo_steps : Z; bo_cap : Q }.

(** Backoff.step, 87-102 *)
Definition backoff_step (b : backoff) (rnd : Q) : backoff * Q :=
  if (bo_steps b <? 1)%Z then
    (b, if negb (is_zero (bo_jitter b)) then jitter (bo_duration b) (bo_jitter b) rnd else bo_duration b)
  else
    let steps := (bo_steps b - 1)%Z in
    let duration := bo_duration b in
    let '(next, steps) :=
      if negb (is_zero (bo_factor b)) then
        let next := bo_duration b * bo_factor b in
        if negb (is_zero (bo_cap b)) && qlt (bo_cap b) next then (bo_cap b, 0%Z) else (next, steps)
      else (bo_duration b, steps) in
    (Backoff next (bo_factor b) (bo_jitter b) steps (bo_cap b),
     if negb (is_zero (bo_jitter b)) then jitter duration (bo_jitter b) rnd else duration).

(** what a call of a condition does; [CTimeout] raises asyncio.TimeoutError *)
Inductive answer := CTrue | CFalse | CRaise | CTimeout.
(** what a waiting function did *)
Inductive wevent := WCall | WSleep (d : Q).
Inductive woutcome := WRunning | WReturned | WRaised | WWaitTimeoutError.

(** exponential_backoff, 105-113, on the Backoff objects that exist: the
    caller's is number [c], the copy of 106 is a new one.  The inputs are the
    answers of the condition, each with the random number drawn after it; when
    they are used up the call is still running.  Cancellation is not modelled. *)
Fixpoint expo_loop (bs : list backoff) (c : nat) (ins : list (answer * Q)) : list backoff * list wevent * woutcome :=
  match bs !! c with
  | None => (bs, [], WRaised)
  | Some b =>
      if (bo_steps b =? 0)%Z then (bs, [], WWaitTimeoutError) else
      match ins with
      | [] => (bs, [], WRunning)
      | (a, rnd) :: ins =>
          match a with
          | CTrue => (bs, [WCall], WReturned)
          | CRaise | CTimeout => (bs, [WCall], WRaised)
          | CFalse =>
              if (bo_steps b =? 1)%Z then (bs, [WCall], WWaitTimeoutError) else
              let '(b', d) := backoff_step b rnd in
              let '(bs', ev, out) := expo_loop (<[c := b']> bs) c ins in
              (bs', WCall :: WSleep d :: ev, out)
          end
      end
  end.
Definition exponential_backoff (bs : list backoff) (c : nat) (ins : list (answer * Q)) : list backoff * list wevent * woutcome :=
  match bs !! c with
  | None => (bs, [], WRaised)
  | Some b => expo_loop (bs ++ [b]) (length bs) ins
  end.

(** Polling is modelled for intervals that are not negative.
    A call of the condition by a polling function; no answer if it was cancelled *)
Record pcall := PCall { pc_start : Q; pc_end : Q; pc_answer : option answer }.
(** poll_infinite, 132-136, from time [t]: the calls and the outcome with its time;
    a sleep may end [late] too late, the call after it takes [dur] and answers [a] *)
Inductive poll_infinite (interval : Q) : Q → list pcall → woutcome → Q → Prop :=
| pinf_running t : poll_infinite interval t [] WRunning t
| pinf_again t late dur calls out t' : 0 <= late → 0 <= dur →
    poll_infinite interval (t + interval + late + dur) calls out t' →
    poll_infinite interval t (PCall (t + interval + late) (t + interval + late + dur) (Some CFalse) :: calls) out t'
| pinf_end t late dur a : 0 <= late → 0 <= dur → a ≠ CFalse →
    poll_infinite interval t [PCall (t + interval + late) (t + interval + late + dur) (Some a)]
      (match a with CTrue => WReturned | _ => WRaised end) (t + interval + late + dur).

(** poll, 117-121: asyncio.wait_for around it, for a timeout that is a number: the
    inner task ends at the deadline at the latest, or it is still
    running then and is cancelled.  With a timeout that is not positive it is cancelled before it starts. *)
Inductive poll (interval timeout t0 : Q) : list pcall → woutcome → Q → Prop :=
| poll_zero : timeout <= 0 → poll interval timeout t0 [] WWaitTimeoutError t0
| poll_done calls out t' : 0 < timeout → poll_infinite interval t0 calls out t' → out ≠ WRunning → t' <= t0 + timeout →
    poll interval timeout t0 calls
      (match last calls with Some (PCall _ _ (Some CTimeout)) => WWaitTimeoutError (* 120-121 catch it *) | _ => out end) t'
(** cancelled in a sleep *)
| poll_cancelled_sleep calls t' late : 0 < timeout → poll_infinite interval t0 calls WRunning t' → 0 <= late →
    t' <= t0 + timeout → t0 + timeout <= t' + interval + late →
    poll interval timeout t0 calls WWaitTimeoutError (t0 + timeout)
(** or in a call of the condition *)
| poll_cancelled_call calls t' late dur : 0 < timeout → poll_infinite interval t0 calls WRunning t' → 0 <= late →
    t' + interval + late <= t0 + timeout → t0 + timeout <= t' + interval + late + dur →
    poll interval timeout t0 (calls ++ [PCall (t' + interval + late) (t0 + timeout) None]) WWaitTimeoutError (t0 + timeout).

(** poll_immediate, 125-128 *)
Inductive poll_immediate (interval timeout t0 : Q) : list pcall → woutcome → Q → Prop :=
| pimm_first dur a : 0 <= dur → a ≠ CFalse → poll_immediate interval timeout t0 [PCall t0 (t0 + dur) (Some a)] (match a with CTrue => WReturned | _ => WRaised end) (t0 + dur)
| pimm_poll dur calls out t' : 0 <= dur → poll interval timeout (t0 + dur) calls out t' →
    poll_immediate interval timeout t0 (PCall t0 (t0 + dur) (Some CFalse) :: calls) out t'.
(** poll_immediate_infinite, 140-143 *)
Inductive poll_immediate_infinite (interval t0 : Q) : list pcall → woutcome → Q → Prop :=
| pimi_first dur a : 0 <= dur → a ≠ CFalse → poll_immediate_infinite interval t0 [PCall t0 (t0 + dur) (Some a)] (match a with CTrue => WReturned | _ => WRaised end) (t0 + dur)
| pimi_poll dur calls out t' : 0 <= dur → poll_infinite interval (t0 + dur) calls out t' →
    poll_immediate_infinite interval t0 (PCall t0 (t0 + dur) (Some CFalse) :: calls) out t'.

(** ** jitter_until, 49-65; [loop], [until] and [jitter_loop] (24-46) are
    instances: without a stop event, with jitter 0, sliding *)
Record ucfg := UCfg { u_period : Q; u_jitter : Q; u_sliding : bool }.
Inductive upc :=
| UInit                                   (* not started *)
| UCalling (jp : Q) (timer : option Q)    (* f runs; the time of the timer if it was made before *)
| UWaiting (timer : Q)                    (* 64 *)
| UEnded
| UFailed.
Record ust := USt { u_now : Q; u_stop : bool; u_pc : upc }.
Inductive ulabel := ULater (d : Q) | USetStop | UStart (rnd : Q) | UCallEnds (ok : bool) | UWake (rnd : Q).

(** 51-59, without an await before the call of f *)
Definition u_top (g : ucfg) (s : ust) (rnd : Q) : ust :=
  if u_stop s then USt (u_now s) (u_stop s) UEnded else
  let jp := if qlt 0 (u_jitter g) then jitter (u_period g) (u_jitter g) rnd else u_period g in
  USt (u_now s) (u_stop s) (UCalling jp (if u_sliding g then None else Some (u_now s + jp))).

Inductive ustep (g : ucfg) : ust → ulabel → ust → Prop :=
| us_later s d : 0 <= d → ustep g s (ULater d) (USt (u_now s + d) (u_stop s) (u_pc s))
| us_stop s : ustep g s USetStop (USt (u_now s) true (u_pc s))
| us_start s rnd : u_pc s = UInit → ustep g s (UStart rnd) (u_top g s rnd)
(** 59-63 *)
| us_returns s jp timer : u_pc s = UCalling jp timer →
    ustep g s (UCallEnds true) (USt (u_now s) (u_stop s) (UWaiting (match timer with Some t => t | None => u_now s + jp end)))
| us_raises s jp timer : u_pc s = UCalling jp timer → ustep g s (UCallEnds false) (USt (u_now s) (u_stop s) UFailed)
(** 64-65 *)
| us_wake s timer rnd : u_pc s = UWaiting timer → timer <= u_now s ∨ u_stop s = true → ustep g s (UWake rnd) (u_top g s rnd).
