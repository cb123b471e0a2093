(** Model of Broadcaster and its watchers, aiok8s/watch/mux.py:28-190.

    Atomicity and simplifications:
    - A transition is a piece of a task between two suspensions.  Requests are
      ordered by the moment they enter [_incoming] (25 places); a call waiting
      for room there is a [MSubmit] that did not happen yet.
    - [_lock] is held across a suspension by [_distribute] in waiting mode only:
      the puts of watch_with_prefix (67-68) go to a queue with room for all of
      them and of positive size, so they neither wait nor join.  So the lock is
      kept by the phase of the loop, and [_stop_watching] (97-101) can act when
      the loop is not distributing.
    - In waiting mode (132-141) the put task is created first and runs before
      the loop can resume: it stores the event if there is room.  While it waits
      (for room, or for join at 189-190) the loop goes on only when it is done
      or the watcher is stopped; a put that is cancelled never stores its event.
    - __anext__ (163-174) is a pending [get]: [MNext] begins it, [MReturn] is the
      item being taken and returned.  If the caller is cancelled ([MCancel]), or
      StopAsyncIteration is raised (174), the get task at 164 is not cancelled
      and stays behind ([mw_lost]); it takes an item some time later ([MLose]).
      Any pending get may be the next to take an item.
    - asyncio.wait (166) with the stopped task already done lets the new get task
      run first, so StopAsyncIteration needs an empty buffer, unless an item
      arrived after the watcher was stopped ([mw_late]).
    - Nobody submits an event of the type "internal-do-function", nor None.
    - The caller of watch() gets its watcher when the request was handled; the
      watcher's number is its identity. *)
From Verif Require Import Base.
From Coq Require Import ZArith.

Section mux.
  Context {E : Type}.

  (** an element of _incoming: 74, 89-94 (with the queued_events of
      watch_with_prefix, or None for watch), 77 *)
  Inductive request := REvent (e : E) | RWatch (queued : option (list E)) | RShutdown.
  (** FullChannelBehavior, 19-21 *)
  Inductive behavior := WaitIfFull | DropIfFull.

  (** _BroadcasterWatcher, 152-158 *)
  Record mwatcher := MW {
    mw_max : Z;              (* maxsize of _result; no limit if not positive *)
    mw_buf : list E;         (* _result *)
    mw_unfinished : nat;     (* its unfinished tasks *)
    mw_stopped : bool;
    mw_late : bool;
    mw_live : nat;           (* calls of __anext__ under way *)
    mw_lost : nat            (* get tasks left behind *)
  }.
  (** asyncio.Queue.full *)
  Definition mfull (w : mwatcher) : bool := bool_decide (0 < mw_max w ∧ mw_max w <= Z.of_nat (length (mw_buf w)))%Z.
  (** asyncio.Queue.put_nowait with room *)
  Definition mput (e : E) (w : mwatcher) : mwatcher :=
    MW (mw_max w) (mw_buf w ++ [e]) (S (mw_unfinished w)) (mw_stopped w) (mw_late w || mw_stopped w) (mw_live w) (mw_lost w).
  (** Event.set of _stopped *)
  Definition mstop (w : mwatcher) : mwatcher := MW (mw_max w) (mw_buf w) (mw_unfinished w) true (mw_late w) (mw_live w) (mw_lost w).

  (** [MDist e ids joining]: in 132-141, at the first of [ids]; joining: in 190 *)
  Inductive mphase := MIdle | MDist (e : E) (ids : list nat) (joining : bool) | MEnded.
  Record mux := Mux {
    m_incoming : list request;
    m_phase : mphase;
    m_reg : list nat;          (* keys of _watchers, in order *)
    m_ws : list mwatcher       (* every watcher made, by number; its length is _next_watcher *)
  }.
  Definition mux_init : mux := Mux [] MIdle [] [].

  Context (len : Z) (mode : behavior).   (* queue_length, full_channel_behavior *)

  (** 42-50, 58-68 *)
  Definition new_watcher (q : option (list E)) : mwatcher :=
    match q with
    | None => MW len [] 0 false false 0 0
    | Some es => MW (Z.max len (Z.of_nat (length es) + 1)) es (length es) false false 0 0
    end.
  (** 123-131, for the watchers with the given numbers; also the numbers of those that were full *)
  Fixpoint drop_dist (e : E) (ids : list nat) (ws : list mwatcher) : list mwatcher * list nat :=
    match ids with
    | [] => (ws, [])
    | i :: ids =>
        match ws !! i with
        | Some w =>
            if mw_stopped w then drop_dist e ids ws
            else if mfull w then let '(ws', ms) := drop_dist e ids ws in (ws', i :: ms)
            else drop_dist e ids (<[i := mput e w]> ws)
        | None => drop_dist e ids ws
        end
    end.
  (** 132: the next watcher, or the end of the loop *)
  Definition dist_next (e : E) (ids : list nat) : mphase := match ids with [] => MIdle | _ => MDist e ids false end.

  Inductive mlabel :=
  | MSubmit (r : request) | MTake (r : request) (missed : list nat)
  | MPut (i : nat) (e : E) | MSkip (i : nat) | MJoined (i : nat)
  | MStop (i : nat) | MUnregister (i : nat)
  | MNext (i : nat) | MReturn (i : nat) (e : E) | MEnd (i : nat) | MCancel (i : nat) | MLose (i : nat) (e : E).

  Inductive mstep : mux → mlabel → mux → Prop :=
  (** asyncio.Queue.put on _incoming: 74, 77, 89-95 *)
  | m_submit q p reg ws r : length q < 25 → mstep (Mux q p reg ws) (MSubmit r) (Mux (q ++ [r]) p reg ws)
  (** _loop, 109-119 *)
  | m_take_watch pre q reg ws : mstep (Mux (RWatch pre :: q) MIdle reg ws) (MTake (RWatch pre) []) (Mux q MIdle (reg ++ [length ws]) (ws ++ [new_watcher pre]))
  | m_take_shutdown q reg ws : mstep (Mux (RShutdown :: q) MIdle reg ws) (MTake RShutdown [])
      (Mux q MEnded [] (foldr (λ i ws, alter mstop i ws) ws reg))
  (** _distribute, 121-141 *)
  | m_take_drop e q reg ws ws' ms : mode = DropIfFull → drop_dist e reg ws = (ws', ms) →
      mstep (Mux (REvent e :: q) MIdle reg ws) (MTake (REvent e) ms) (Mux q MIdle reg ws')
  | m_take_wait e q reg ws : mode = WaitIfFull → mstep (Mux (REvent e :: q) MIdle reg ws) (MTake (REvent e) []) (Mux q (dist_next e reg) reg ws)
  | m_put e i ids q reg ws w : ws !! i = Some w → mfull w = false →
      mstep (Mux q (MDist e (i :: ids) false) reg ws) (MPut i e)
        (Mux q (if bool_decide (mw_max w = 0%Z) then MDist e (i :: ids) true else dist_next e ids) reg (<[i := mput e w]> ws))
  | m_skip e i ids q reg ws w : ws !! i = Some w → mw_stopped w = true →
      mstep (Mux q (MDist e (i :: ids) false) reg ws) (MSkip i) (Mux q (dist_next e ids) reg ws)
  | m_joined e i ids q reg ws w : ws !! i = Some w → mw_unfinished w = 0 ∨ mw_stopped w = true →
      mstep (Mux q (MDist e (i :: ids) true) reg ws) (MJoined i) (Mux q (dist_next e ids) reg ws)
  (** stop, 182-185, and _stop_watching *)
  | m_stop i q p reg ws w : ws !! i = Some w → mstep (Mux q p reg ws) (MStop i) (Mux q p reg (<[i := mstop w]> ws))
  | m_unregister i q p reg ws w : ws !! i = Some w → mw_stopped w = true → (p = MIdle ∨ p = MEnded) →
      mstep (Mux q p reg ws) (MUnregister i) (Mux q p (filter (λ j, j ≠ i) reg) ws)
  (** __anext__, 163-174 *)
  | m_next i q p reg ws m b u st lt lv lo : ws !! i = Some (MW m b u st lt lv lo) → mstep (Mux q p reg ws) (MNext i) (Mux q p reg (<[i := MW m b u st lt (S lv) lo]> ws))
  | m_return i e q p reg ws m b u st lt lv lo : ws !! i = Some (MW m (e :: b) u st lt (S lv) lo) →
      mstep (Mux q p reg ws) (MReturn i e) (Mux q p reg (<[i := MW m b (if bool_decide (m = 0%Z) then pred u else u) st lt lv lo]> ws))
  | m_end i q p reg ws m b u lt lv lo : ws !! i = Some (MW m b u true lt (S lv) lo) → b = [] ∨ lt = true →
      mstep (Mux q p reg ws) (MEnd i) (Mux q p reg (<[i := MW m b u true lt lv (S lo)]> ws))
  | m_cancel i q p reg ws m b u st lt lv lo : ws !! i = Some (MW m b u st lt (S lv) lo) →
      mstep (Mux q p reg ws) (MCancel i) (Mux q p reg (<[i := MW m b u st lt lv (S lo)]> ws))
  | m_lose i e q p reg ws m b u st lt lv lo : ws !! i = Some (MW m (e :: b) u st lt lv (S lo)) →
      mstep (Mux q p reg ws) (MLose i e) (Mux q p reg (<[i := MW m b u st lt lv lo]> ws)).
End mux.
Arguments request : clear implicits.
Arguments mwatcher : clear implicits.
Arguments mphase : clear implicits.
Arguments mux : clear implicits.
Arguments mlabel : clear implicits.
