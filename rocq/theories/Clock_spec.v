(** Specification of fake timers and tickers, each on its own. *)
From Verif Require Import Base Clock_model.
Local Open Scope Z_scope.

Notation chist := (list (cop * cres)).

(** the time after a history *)
Definition time_after (t0 : Z) (h : chist) : Z :=
  foldl (λ now e, match e.1 with CStep d => now + d | CSetTime t => t | _ => now end) t0 h.

(** a timer: its life so far *)
Inductive timer := TNew | TPending (target : Z) | TFired (at_time : Z) | TStopped.
Definition timer_step (i : nat) (st : Z * timer) (e : cop * cres) : Z * timer :=
  let '(now, tm) := st in
  let to t := (t, match tm with TPending target => if bool_decide (target <= t) then TFired t else tm | _ => tm end) in
  match e.1 with
  | CNewTimer d => (now, if bool_decide (e.2 = CQueue i) then TPending (now + d) else tm)
  | CStop j => (now, if bool_decide (i = j) then match tm with TPending _ => TStopped | _ => tm end else tm)
  | CReset j d => (now, if bool_decide (i = j) then match tm with TPending _ => TPending (now + d) | _ => tm end else tm)
  | CStep d => to (now + d)
  | CSetTime t => to t
  | _ => (now, tm)
  end.
Definition timer_of (i : nat) (t0 : Z) (h : chist) : timer := (foldl (timer_step i) (t0, TNew) h).2.
(** stop() and reset() succeed on a pending timer *)
Definition is_pending (tm : timer) : bool := match tm with TPending _ => true | _ => false end.
(** what was read from a queue *)
Definition got (i : nat) (h : chist) : list Z :=
  omap (λ e : cop * cres, match e with (CGet j, CItem (Some t)) => if bool_decide (j = i) then Some t else None | _ => None end) h.

(** a ticker: when it was made, its period, the latest time since then, and the unread tick *)
Inductive ticker := KNone | KTicker (start period latest : Z) (unread : option Z).
(** the number of the last tick due at time [t] *)
Definition tick_number (start period t : Z) : Z := (t - start) / period.
Definition ticker_step (i : nat) (st : Z * ticker) (e : cop * cres) : Z * ticker :=
  let '(now, tk) := st in
  let to t := (t, match tk with
                  | KNone => KNone
                  | KTicker start period latest unread =>
                      KTicker start period (Z.max latest t)
                        (if bool_decide (tick_number start period latest < tick_number start period t)
                         then match unread with Some _ => unread | None => Some t end else unread)
                  end) in
  match e.1 with
  | CNewTicker d => (now, if bool_decide (e.2 = CQueue i) then KTicker now d now None else tk)
  | CStep d => to (now + d)
  | CSetTime t => to t
  | CGet j => (now, if bool_decide (j = i) then match tk with KTicker s p l _ => KTicker s p l None | KNone => KNone end else tk)
  | _ => (now, tk)
  end.
Definition ticker_of (i : nat) (t0 : Z) (h : chist) : ticker := (foldl (ticker_step i) (t0, KNone) h).2.
(** no ticker with a negative period was made *)
Definition no_negative_ticker (h : chist) : Prop := ∀ d r, (CNewTicker d, r) ∈ h → 0 <= d.
(** the methods of timers are used on timers only: no ticker has the number [i] *)
Definition not_misused (h : chist) : Prop := ∀ i d d' r, (CNewTicker d, CQueue i) ∈ h → (CStop i, r) ∉ h ∧ (CReset i d', r) ∉ h.
