(** Model of aiok8s/cache/reflector.py ([Reflector.list_and_watch], [run]).

    The reflector reacts to inputs from its environment: answers of the
    lister/watcher, events of the watch stream, the end of the stream, timers.
    One input is handled without suspending except inside calls to the store;
    each of these acts at one moment, together with the assignments that follow
    it (no suspension lies in between).  An input that cannot occur in a state is
    ignored there.

    In particular, at most one event is handled between a failing resync and the end of the watch it causes.

    Not modelled here: the timeout_seconds option (line 89, see Request_model.v), the times of lists and
    watches (see Pace_model.v), and logging. *)
From Verif Require Import Base KeyFunc_model.
From Coq Require Strings.String.
Notation string := Coq.Strings.String.string (only parsing).

Section reflector.
  Context {O RV S : Type}.

  (** meta.py accessors on watch event objects.  [None]: reading raises. *)
  Record rcfg := Rcfg {
    c_typed : bool;                              (* an expected type is given (line 126-127) *)
    c_isinstance : O → bool;                     (* isinstance(object, expected type) *)
    c_gvk : option (string * string * string);   (* the expected group, version and kind (line 120-124) *)
    c_api : O → option string;                   (* apiVersion *)
    c_kind : O → option string;                  (* kind *)
    c_has_meta : O → bool;                       (* meta.accessor does not raise *)
    c_rv : O → option RV                         (* metadata.resource_version *)
  }.
  (** the store the reflector feeds: an operation returns false if it raises *)
  Record sops := Sops {
    so_replace : S → list O → RV → S * bool;
    so_add : S → O → S * bool;
    so_update : S → O → S * bool;
    so_delete : S → O → S * bool;
    so_resync : S → S * bool
  }.

  Inductive etype := EvAdded | EvModified | EvDeleted | EvBookmark | EvError | EvUnknown.
  #[global] Instance etype_eq_dec : EqDecision etype.
  Proof. solve_decision. Defined.
  Record event := Event { e_type : etype; e_obj : O }.

  (** the resync error (64, 78): none; queued, but the handler may have been woken by an event
      already; there when the handler is woken the next time (155, 159-163) *)
  Inductive rerr := ENone | EQueued | EReady.
  (** where the task is: about to list (or pausing before it), about to watch,
      watching with this number of accepted events, watching a stream whose
      reading task has died, cancelled *)
  Inductive rpc := RIdle | RReady | RWatching (n : nat) | RHung | RCancelled.
  Record refl := Refl {
    r_pc : rpc;
    r_last : option RV;      (* _last_sync_resource_version; None is the initial "" *)
    r_opt : option RV;       (* options["resource_version"] of the next watch *)
    r_err : rerr
  }.
  (** a resync failed: the error is queued, the resync task has ended *)
  Definition r_failed (r : refl) : bool := match r_err r with ENone => false | _ => true end.
  Definition r_noticed (r : refl) : bool := match r_err r with EReady => true | _ => false end.
  (** the handler waits again *)
  Definition notice (x : rerr) : rerr := match x with ENone => ENone | _ => EReady end.
  (** line 28-38 *)
  Definition refl_init : refl := Refl RIdle None None ENone.

  Inductive rinput :=
  | IListFails | IList (items : list O) (rv : RV)
  | IWatchFails | IWatch
  | IEvent (e : event)
  | IClose (short : bool)                (* the stream ends; short: less than a second after the watch began *)
  | IStreamRaises                        (* the stream raises *)
  | IResync (due : bool)                 (* the resync timer fires; due: should_resync is unset or returns true *)
  | ISeeError                            (* the handler is woken by the queued resync error *)
  | ILast                                (* last_sync_resource_version() *)
  | ICancel.
  (** what the reflector did: calls to the store, with false for a call that raised, and to watch *)
  Inductive routput :=
  | CReplace (items : list O) (rv : RV) (ok : bool) | CAdd (o : O) (ok : bool) | CUpdate (o : O) (ok : bool)
  | CDelete (o : O) (ok : bool) | CResync (ok : bool) | CWatch (rv : option RV)
  | CLast (rv : option RV).              (* answer of last_sync_resource_version *)

  (** how lines 165-192 classify an event *)
  Inductive eclass := KRaise | KSkip | KTake (rv : RV).
  Definition gvk_check (g : rcfg) (o : O) : option bool :=
    match c_gvk g with
    | None => Some true
    | Some want => match c_api g o, c_kind g o with
                   | Some a, Some k => match group_version_kind a k with
                                       | Some got => Some (bool_decide (want = got))
                                       | None => None
                                       end
                   | _, _ => None
                   end
    end.
  Definition classify (g : rcfg) (e : event) : eclass :=
    if decide (e_type e = EvError) then KRaise                                       (* 167-168 *)
    else if c_typed g && negb (c_isinstance g (e_obj e)) then KSkip                  (* 169-177 *)
    else match gvk_check g (e_obj e) with                                            (* 178-186 *)
         | None => KRaise
         | Some false => KSkip
         | Some true =>
             if negb (c_has_meta g (e_obj e)) then KSkip                             (* 187-191 *)
             else match c_rv g (e_obj e) with None => KRaise | Some rv => KTake rv end   (* 192 *)
         end.
  (** lines 193-229: a store error is logged and forgotten *)
  Definition apply_event (q : sops) (e : event) (s : S) : S * list routput :=
    match e_type e with
    | EvAdded => let '(s', ok) := so_add q s (e_obj e) in (s', [CAdd (e_obj e) ok])
    | EvModified => let '(s', ok) := so_update q s (e_obj e) in (s', [CUpdate (e_obj e) ok])
    | EvDeleted => let '(s', ok) := so_delete q s (e_obj e) in (s', [CDelete (e_obj e) ok])
    | EvBookmark | EvError | EvUnknown => (s, [])
    end.
  (** list_and_watch ends, run() will list again; the resync task is cancelled (lines 109-111, 44-51) *)
  Definition to_idle (r : refl) : refl := Refl RIdle (r_last r) (r_opt r) ENone.

  Definition rstep (g : rcfg) (q : sops) (x : refl * S) (i : rinput) : (refl * S) * list routput :=
    let '(r, s) := x in
    match i, r_pc r with
    (** lines 113-114 *)
    | ILast, _ => (x, [CLast (r_last r)])
    | ICancel, RCancelled => (x, [])
    | ICancel, _ => ((Refl RCancelled (r_last r) (r_opt r) ENone, s), [])
    (** lines 57, 49-51 *)
    | IListFails, RIdle => ((to_idle r, s), [])
    (** lines 57-62, 64, 86 *)
    | IList items rv, RIdle =>
        let '(s', ok) := so_replace q s items rv in
        if ok then ((Refl RReady (Some rv) (Some rv) ENone, s'), [CReplace items rv true])
        else ((to_idle r, s'), [CReplace items rv false])
    (** lines 96-99 *)
    | IWatchFails, RReady => ((to_idle r, s), [CWatch (r_opt r)])
    (** lines 93, 144-155 *)
    | IWatch, RReady => ((Refl (RWatching 0) (r_last r) (r_opt r) (notice (r_err r)), s), [CWatch (r_opt r)])
    (** lines 157-232; a resync error wins over an event (162-163), unless it came when the handler
        was already woken.  (If it wins in that case too, the input is [ISeeError].) *)
    | IEvent e, RWatching n =>
        if r_noticed r then ((to_idle r, s), [])
        else match classify g e with
             | KRaise => ((to_idle r, s), [])
             | KSkip => ((Refl (r_pc r) (r_last r) (r_opt r) (notice (r_err r)), s), [])
             | KTake rv => let '(s', out) := apply_event q e s in
                           ((Refl (RWatching (n + 1)) (Some rv) (Some rv) (notice (r_err r)), s'), out)
             end
    (** lines 165-166, 233-243 *)
    | IClose short, RWatching n =>
        if r_noticed r || short && (n =? 0) then ((to_idle r, s), [])
        else ((Refl RReady (r_last r) (r_opt r) (r_err r), s), [])
    (** lines 148-152: the task reading the stream dies, None is never queued *)
    | IStreamRaises, RWatching n => ((Refl RHung (r_last r) (r_opt r) (r_err r), s), [])
    (** lines 66-83 *)
    | IResync due, (RReady | RWatching _ | RHung) =>
        if negb due || r_failed r then (x, [])
        else let '(s', ok) := so_resync q s in
             ((Refl (r_pc r) (r_last r) (r_opt r) (if ok then ENone else EQueued), s'), [CResync ok])
    (** lines 162-163 *)
    | ISeeError, (RWatching _ | RHung) => if r_failed r then ((to_idle r, s), []) else (x, [])
    | _, _ => (x, [])
    end.
End reflector.
Arguments rcfg : clear implicits.
Arguments sops : clear implicits.
Arguments event : clear implicits.
Arguments refl : clear implicits.
Arguments rinput : clear implicits.
Arguments routput : clear implicits.
Arguments eclass : clear implicits.
