(** Model of when a reflector sends its requests: aiok8s/cache/reflector.py:34, 40-51, 57, 86-108,
    143-144, 232-238, on top of Reflector_model.v.

    - Times are integers in an arbitrary unit, of which a second has [sec]; [res] is the resolution of the
      event loop's clock (see RealTime_model.v: a sleep ends once deadline < time + res, or any time later).
    - The event loop's clock ([p_now]) times the pause between two lists and never goes back.  time.time()
      ([p_wall], through RealClock, aiok8s/util/clock.py:19-23) times the watches and may read anything.
    - A list is requested when the pause is over; a watch at once when the reflector becomes ready for it,
      in the same step (between 63 and 93, and between 93 and 100, nothing suspends before the call). *)
From Verif Require Import Base KeyFunc_model Reflector_model.
From Coq Require Import ZArith.

Section pace.
  Context {O RV S : Type} (g : rcfg O RV) (q : sops O RV S) (sec res : Z).

  Record pstate := PState {
    p_refl : refl RV; p_store : S;
    p_listing : bool;          (* the call of list (57) is under way *)
    p_now : Z; p_wall : Z;     (* the two clocks *)
    p_wake : option Z;         (* deadline of the pause (51); None before the first list *)
    p_start : Z                (* start (144) *)
  }.
  Definition p_init (s : S) (t w : Z) : pstate := PState refl_init s false t w None 0.

  (** [PSendList t]: a list is requested.  [PIn i out sends t w]: input [i] of the reflector at these times; [sends]: a watch is requested *)
  Inductive plabel :=
  | PPass (t w : Z) | PSendList (t : Z) | PIn (i : rinput O RV) (out : list (routput O RV)) (sends : bool) (t w : Z).

  Definition pausing (s : pstate) : bool := match r_pc (p_refl s) with RIdle => negb (p_listing s) | _ => false end.
  (** 51 *)
  Definition awake (s : pstate) : bool := match p_wake s with None => true | Some dl => (dl <? p_now s + res)%Z end.
  (** inputs that can come now *)
  Definition allowed (s : pstate) (i : rinput O RV) : Prop :=
    match i with
    | IListFails | IList _ _ => p_listing s = true
    | IClose short => short = (p_wall s - p_start s <? sec)%Z           (* 233-234 *)
    | _ => True
    end.
  Definition is_ready (r : refl RV) : bool := match r_pc r with RReady => true | _ => false end.
  Definition is_idle (r : refl RV) : bool := match r_pc r with RIdle => true | _ => false end.
  Definition list_answer (i : rinput O RV) : bool := match i with IListFails | IList _ _ => true | _ => false end.
  (** after the reflector went from [p_refl s] to [r] *)
  Definition after (s : pstate) (i : rinput O RV) (r : refl RV) (st : S) : pstate :=
    let listing := p_listing s && negb (list_answer i) in
    PState r st listing (p_now s) (p_wall s)
      (* 45-51: list_and_watch returned or raised *)
      (if is_idle r && (list_answer i || negb (is_idle (p_refl s))) then Some (p_now s + sec)%Z else p_wake s)
      (* 144 *)
      (match i with IWatch => if is_ready (p_refl s) then p_wall s else p_start s | _ => p_start s end).

  Inductive pstep (s : pstate) : plabel → pstate → Prop :=
  | p_pass t w : (p_now s <= t)%Z →
      pstep s (PPass t w) (PState (p_refl s) (p_store s) (p_listing s) t w (p_wake s) (p_start s))
  | p_send_list : pausing s = true → awake s = true →
      pstep s (PSendList (p_now s)) (PState (p_refl s) (p_store s) true (p_now s) (p_wall s) (p_wake s) (p_start s))
  | p_in i r st out : allowed s i → rstep g q (p_refl s, p_store s) i = ((r, st), out) →
      pstep s (PIn i out (is_ready r && negb (is_ready (p_refl s))) (p_now s) (p_wall s)) (after s i r st).
End pace.
Arguments pstate : clear implicits.
Arguments plabel : clear implicits.
