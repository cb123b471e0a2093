(** Model of LeaderElector, aiok8s/leaderelection/leaderelection.py:43-216, and
    ConfigMapLock, aiok8s/leaderelection/resourcelock.py:36-81.

    Any number of electors share one config map at the API server.

    Atomicity and simplifications:
    - A transition is a piece of an elector's task between two suspensions, the
      server handling a request, or somebody else changing the config map.
    - A read is handled by the server at the moment its answer arrives: the
      elector does nothing in between.  A write is handled ([LServe]) and
      answered ([LReply]) at two moments.  A write the elector no longer waits
      for may still be handled later, or never ([w_orphans]).
    - Any request may fail ([fault], [lost]); a lost answer does not undo a write.
    - [now] is time.time() at 139, [t] is self._clock.now() at 167, 173 and 206;
      both are arbitrary, so clocks may differ and go back.
    - Of a JSON record the fields that are read are kept; each may be missing.
      A value that is no JSON object raises at 175 in any case ([.get]).
    - Attributes that __init__ does not set are [None] until assigned; reading
      them raises AttributeError.  The observed record is a dict.
    - 79-98: f runs inside jitter_loop; gather returns when that task is done.
      An exception of f ends the task.
    - [e_task] is true while the task of on_started_leading (69) is not done. *)
From Verif Require Import Base.
From stdpp Require Import strings.
From Coq Require Import ZArith QArith.
Local Open Scope Z_scope.

(** LeaderElectionConfig, 32-39; the callbacks and the lock: given or falsy *)
Record lec := Lec {
  lec_lease : Q; lec_renew : Q; lec_retry : Q;
  lec_started : bool; lec_stopped : bool; lec_lock : bool }.
Inductive lec_error := ELease | ERenew | ELeaseZero | ERenewZero | ERetryZero | ENoStarted | ENoStopped | ENoLock.
(** JITTER_FACTOR, 22 *)
Definition jitter_factor : Q := 6 # 5.
Definition Qleb (x y : Q) : bool := Qle_bool x y.
(** __init__, 44-61; None: the elector is made *)
Definition lec_check (c : lec) : option lec_error :=
  if Qleb (lec_lease c) (lec_renew c) then Some ELease
  else if Qleb (lec_renew c) (jitter_factor * lec_retry c) then Some ERenew
  else if Qleb (lec_lease c) 0 then Some ELeaseZero
  else if Qleb (lec_renew c) 0 then Some ERenewZero
  else if Qleb (lec_retry c) 0 then Some ERetryZero
  else if negb (lec_started c) then Some ENoStarted
  else if negb (lec_stopped c) then Some ENoStopped
  else if negb (lec_lock c) then Some ENoLock
  else None.

(** what an elector uses of its configuration: lock.identity(), lease_duration, release_on_cancel *)
Record ecfg := ECfg { c_id : string; c_lease : Z; c_release : bool }.
(** exceptions: AttributeError, UnboundLocalError, KeyError, CancelledError, one of a callback *)
Inductive exn := AttributeError | UnboundLocalError | KeyError | Cancelled | CallbackError.
Global Instance exn_eq : EqDecision exn. Proof. solve_decision. Defined.

(** a record; 140-145 *)
Record lrec := LRec { r_holder : option string; r_acquire : option Z; r_transitions : option Z }.
(** the annotation's text: no JSON, "null", "", an object, or other JSON *)
Inductive raw := RawBad | RawNull | RawEmpty | RawObj (r : lrec) | RawOther.
(** metadata.annotations: None, {}, without the key, with it *)
Inductive annotations := AnnNone | AnnEmpty | AnnOther | AnnKey (x : raw).
Record cmap := CMap { cm_rv : nat; cm_ann : annotations }.
Global Instance lrec_eq : EqDecision lrec. Proof. solve_decision. Defined.
Global Instance raw_eq : EqDecision raw. Proof. solve_decision. Defined.
Global Instance annotations_eq : EqDecision annotations. Proof. solve_decision. Defined.

(** a record that is not None: {} or a JSON object, "", other JSON *)
Inductive found := FObj (r : lrec) | FOther.
(** ConfigMapLock.get, resourcelock.py:42-51, given the answer: an exception,
    or the record and the raw record; the latter is kept as the annotations
    when it is the dict {} (46-49) *)
Definition lock_get (a : option cmap) : option (option found * annotations) :=
  match a with
  | None => None                                        (* 404 *)
  | Some cm =>
      match cm_ann cm with
      | AnnNone | AnnOther => Some (None, cm_ann cm)
      | AnnEmpty => Some (Some (FObj (LRec None None None)), AnnEmpty)
      | AnnKey RawBad => None                           (* json.loads raises *)
      | AnnKey RawNull => Some (None, cm_ann cm)
      | AnnKey RawEmpty => Some (Some FOther, cm_ann cm)
      | AnnKey (RawObj r) => Some (Some (FObj r), cm_ann cm)
      | AnnKey RawOther => Some (Some FOther, cm_ann cm)
      end
  end.

(** requests that write: create 53-64, replace 66-75 with the resource version of _cm *)
Inductive request := RCreate (r : lrec) | RUpdate (rv : nat) (r : lrec).
(** the API server: create fails if the object exists, replace if it does not or has another version *)
Definition serve (next_rv : nat) (q : request) (a : option cmap) : option cmap :=
  match q, a with
  | RCreate r, None => Some (CMap next_rv (AnnKey (RawObj r)))
  | RCreate _, Some _ => None
  | RUpdate rv r, Some cm => if bool_decide (cm_rv cm = rv) then Some (CMap next_rv (AnnKey (RawObj r))) else None
  | RUpdate _ _, None => None
  end.

(** attributes: _cm of the lock; _observed_record, _observed_raw_record,
    _observed_time, _reported_leader *)
Record attrs := Attrs {
  a_cm : option cmap; a_obs : option lrec; a_raw : option annotations; a_time : option Z; a_rep : option string }.
Definition attrs_init : attrs := Attrs None None None None None.

(** obj.holder_identity for the observed record: it is a dict, which has no such attribute *)
Definition dict_holder_identity (r : lrec) : option (option string) := None.
(** self._observed_record.holder_identity *)
Definition observed_holder (a : attrs) : exn + option string :=
  match a_obs a with
  | None => inl AttributeError
  | Some r => match dict_holder_identity r with None => inl AttributeError | Some h => inr h end
  end.
(** is_leader, 76-77 *)
Definition is_leader (c : ecfg) (a : attrs) : exn + bool :=
  match observed_holder a with inl x => inl x | inr h => inr (bool_decide (h = Some (c_id c))) end.
(** _maybe_report_transition, 209-216; the task of on_new_leader is not followed *)
Definition report (a : attrs) : exn + attrs :=
  match observed_holder a with
  | inl x => inl x
  | inr h =>
      match a_rep a with
      | None => inl AttributeError
      | Some old => if bool_decide (h = Some old) then inr a
                    else inr (Attrs (a_cm a) (a_obs a) (a_raw a) (a_time a) h)
      end
  end.

(** what _try_acquire_or_renew does next: returns or raises, or asks for a write *)
Inductive outcome := OBool (b : bool) | ORaise (x : exn).
Inductive next := NDone (o : outcome) | NAsk (q : request).
(** bool("...") of holderIdentity, 175 *)
Definition truthy (h : option string) : bool := match h with Some s => negb (bool_decide (s = ""%string)) | None => false end.
(** _try_acquire_or_renew after the answer of get, 151-198; [cm]: the new value of _cm *)
Definition after_get (c : ecfg) (a : attrs) (now t : Z) (ans : option cmap) : attrs * next :=
  let a := match ans with Some cm => Attrs (Some cm) (a_obs a) (a_raw a) (a_time a) (a_rep a) | None => a end in
  match lock_get ans with
  | None => (a, NDone (OBool false))
  | Some (None, _) => (a, NAsk (RCreate (LRec (Some (c_id c)) (Some now) None)))
  | Some (Some f, rw) =>
      match a_raw a with
      | None => (a, NDone (ORaise AttributeError))
      | Some seen =>
          match f with
          | FOther => (a, NDone (ORaise AttributeError))
          | FObj old =>
              let a := if bool_decide (seen = rw) then a else Attrs (a_cm a) (Some old) (Some rw) (Some t) (a_rep a) in
              let lead := is_leader c a in
              (* 174-178: Some true: return False *)
              let held : exn + bool :=
                if negb (truthy (r_holder old)) then inr false
                else match a_time a with
                     | None => inl AttributeError
                     | Some ot => if bool_decide (now < ot + c_lease c)
                                  then match lead with inl x => inl x | inr b => inr (negb b) end
                                  else inr false
                     end in
              match held with
              | inl x => (a, NDone (ORaise x))
              | inr true => (a, NDone (OBool false))
              | inr false =>
                  match lead with
                  | inl x => (a, NDone (ORaise x))
                  | inr true =>
                      match r_acquire old, r_transitions old with
                      | Some aq, Some tr =>
                          (a, match a_cm a with
                              | Some cm => NAsk (RUpdate (cm_rv cm) (LRec (Some (c_id c)) (Some aq) (Some tr)))
                              | None => NDone (OBool false)
                              end)
                      | _, _ => (a, NDone (ORaise KeyError))
                      end
                  | inr false =>
                      match r_transitions old with
                      | Some tr =>
                          (a, match a_cm a with
                              | Some cm => NAsk (RUpdate (cm_rv cm) (LRec (Some (c_id c)) (Some now) (Some (tr + 1))))
                              | None => NDone (OBool false)
                              end)
                      | None => (a, NDone (ORaise KeyError))
                      end
                  end
              end
          end
      end
  end.
Definition written (q : request) : lrec := match q with RCreate r => r | RUpdate _ r => r end.
(** the answer to a write, 160-168, 198-207 and 129-136: its new _cm if it succeeded *)
Definition after_write (a : attrs) (t : Z) (q : request) (ok : option cmap) : attrs * outcome :=
  match ok with
  | Some cm => (Attrs (Some cm) (Some (written q)) (a_raw a) (Some t) (a_rep a), OBool true)
  | None => (a, OBool false)
  end.

(** where a request or attempt belongs: _acquire, _renew, _release (with the
    exception that is being raised, if any) *)
Inductive ctx := Acquiring | Renewing | Releasing (x : option exn).
Inductive phase :=
  | ENew
  | EGet (c : ctx)                                        (* in get, 147-150 *)
  | EReq (c : ctx) (q : request)                          (* a write was sent *)
  | EServed (c : ctx) (q : request) (ok : option cmap)    (* and handled *)
  | EAcqWait                                              (* wait.py:42 *)
  | ERenWait                                              (* wait.py:134 *)
  | ERenPause                                             (* 117 *)
  | EStopping (x : option exn)                            (* 72-74 *)
  | EEnded (x : option exn).                              (* run returned or raised *)
Record elector := Elec { e_cfg : ecfg; e_ph : phase; e_at : attrs; e_task : bool }.
Definition to (p : phase) (a : attrs) (e : elector) : elector := Elec (e_cfg e) p a (e_task e).

(** run after _acquire, 67-70; without success the return at 68 runs 72, where
    task is not bound *)
Definition acquire_done (ok : bool) (e : elector) : elector :=
  if ok then Elec (e_cfg e) (EGet Renewing) (e_at e) true
  else to (EEnded (Some UnboundLocalError)) (e_at e) e.
(** the loop of _renew is left, by an exception or the break at 112: 118-120, 122-129 *)
Definition renew_left (x : option exn) (e : elector) : elector :=
  let a := e_at e in
  if c_release (e_cfg e) then
    match is_leader (e_cfg e) a with
    | inl x' => to (EStopping (Some x')) a e
    | inr false => to (EStopping x) a e
    | inr true =>
        match a_obs a with
        | Some r => match r_transitions r, a_cm a with
                    | Some n, Some cm => to (EReq (Releasing x) (RUpdate (cm_rv cm) (LRec None None (Some n)))) a e
                    | Some _, None => to (EStopping x) a e
                    | None, _ => to (EStopping (Some KeyError)) a e
                    end
        | None => to (EStopping (Some AttributeError)) a e
        end
    end
  else to (EStopping x) a e.
(** an attempt is over: 86-92, 105-117, 128-136 *)
Definition try_done (c : ctx) (o : outcome) (e : elector) : elector :=
  match c with
  | Acquiring =>
      match o with
      | ORaise _ => acquire_done false e
      | OBool b => match report (e_at e) with
                   | inl _ => acquire_done b e
                   | inr a => if b then acquire_done true (to (e_ph e) a e) else to EAcqWait a e
                   end
      end
  | Renewing =>
      match o with
      | OBool false => to ERenWait (e_at e) e
      | OBool true => match report (e_at e) with inl x => renew_left (Some x) e | inr a => to ERenPause a e end
      | ORaise x => match report (e_at e) with
                    | inl x' => renew_left (Some x') e
                    | inr a => renew_left (if bool_decide (x = Cancelled) then Some Cancelled else None) (to (e_ph e) a e)
                    end
      end
  | Releasing x => match o with ORaise x' => to (EStopping (Some x')) (e_at e) e | OBool _ => to (EStopping x) (e_at e) e end
  end.

(** task.cancel() on the task of run *)
Definition cancelled (e : elector) : elector :=
  match e_ph e with
  | ENew => to (EEnded (Some Cancelled)) (e_at e) e
  | EGet c | EReq c _ | EServed c _ _ => try_done c (ORaise Cancelled) e
  | EAcqWait => acquire_done false e
  | ERenWait => try_done Renewing (ORaise Cancelled) e
  | ERenPause => renew_left (Some Cancelled) e
  | EStopping _ => to (EEnded (Some Cancelled)) (e_at e) e
  | EEnded _ => e
  end.
(** a write it no longer waits for *)
Definition left_behind (e : elector) : list request := match e_ph e with EReq _ q => [q] | _ => [] end.

Record world := World {
  w_cm : option cmap; w_rv : nat; w_orphans : list request; w_es : list elector }.
Definition world_init (a : option annotations) (cs : list ecfg) : world :=
  World (CMap 0 <$> a) 1 [] ((λ c, Elec c ENew attrs_init false) <$> cs).
Definition set_e (i : nat) (e : elector) (w : world) : world := World (w_cm w) (w_rv w) (w_orphans w) (<[i:=e]> (w_es w)).
Definition add_orphans (qs : list request) (w : world) : world := World (w_cm w) (w_rv w) (w_orphans w ++ qs) (w_es w).
Definition served (q : request) (w : world) : world :=
  match serve (w_rv w) q (w_cm w) with
  | Some cm => World (Some cm) (S (w_rv w)) (w_orphans w) (w_es w)
  | None => w
  end.

Inductive label :=
  | LStart (i : nat)
  | LGet (i : nat) (now t : Z) (fault : bool)   (* the answer of get arrives *)
  | LServe (i : nat) (q : request) (ok : bool)  (* the server handles its write *)
  | LReply (i : nat) (t : Z) (lost : bool)      (* the answer arrives, or the write failed for it *)
  | LTick (i : nat)                             (* a sleep is over *)
  | LCancel (i : nat)
  | LTaskDone (i : nat)                         (* the task of on_started_leading is done *)
  | LFinish (i : nat) (ok : bool)               (* 73-74 over; ok: on_stopped_leading did not raise *)
  | LOrphan (q : request) (ok : bool)           (* the server handles a write left behind *)
  | LDelete                                     (* somebody deletes the config map *)
  | LSet (a : annotations).                     (* somebody creates or changes it *)

Inductive lstep (w : world) : label → world → Prop :=
  | l_start i e : w_es w !! i = Some e → e_ph e = ENew →
      lstep w (LStart i) (set_e i (to (EGet Acquiring) (e_at e) e) w)
  | l_get i e c now t fault : w_es w !! i = Some e → e_ph e = EGet c →
      lstep w (LGet i now t fault)
        (set_e i (let '(a, n) := after_get (e_cfg e) (e_at e) now t (if fault then None else w_cm w) in
                  match n with
                  | NDone o => try_done c o (to (e_ph e) a e)
                  | NAsk q => to (EReq c q) a e
                  end) w)
  | l_serve i e c q : w_es w !! i = Some e → e_ph e = EReq c q →
      let ok := serve (w_rv w) q (w_cm w) in
      lstep w (LServe i q (bool_decide (is_Some ok))) (set_e i (to (EServed c q ok) (e_at e) e) (served q w))
  | l_reply i e c q ok t lost : w_es w !! i = Some e → e_ph e = EServed c q ok →
      lstep w (LReply i t lost)
        (set_e i (let '(a, o) := after_write (e_at e) t q (if lost then None else ok) in try_done c o (to (e_ph e) a e)) w)
  | l_lost i e c q t : w_es w !! i = Some e → e_ph e = EReq c q →
      lstep w (LReply i t true) (add_orphans [q] (set_e i (try_done c (OBool false) e) w))
  | l_tick i e c : w_es w !! i = Some e → (e_ph e = EAcqWait ∧ c = Acquiring ∨ (e_ph e = ERenWait ∨ e_ph e = ERenPause) ∧ c = Renewing) →
      lstep w (LTick i) (set_e i (to (EGet c) (e_at e) e) w)
  | l_cancel i e : w_es w !! i = Some e →
      lstep w (LCancel i) (add_orphans (left_behind e) (set_e i (cancelled e) w))
  | l_task i e : w_es w !! i = Some e → e_task e = true →
      lstep w (LTaskDone i) (set_e i (Elec (e_cfg e) (e_ph e) (e_at e) false) w)
  | l_finish i e x : w_es w !! i = Some e → e_ph e = EStopping x → e_task e = false →
      lstep w (LFinish i true) (set_e i (to (EEnded x) (e_at e) e) w)
  | l_finish_raise i e x : w_es w !! i = Some e → e_ph e = EStopping x →
      lstep w (LFinish i false) (set_e i (to (EEnded (Some CallbackError)) (e_at e) e) w)
  | l_orphan qs1 q qs2 : w_orphans w = qs1 ++ q :: qs2 →
      lstep w (LOrphan q (bool_decide (is_Some (serve (w_rv w) q (w_cm w)))))
        (served q (World (w_cm w) (w_rv w) (qs1 ++ qs2) (w_es w)))
  | l_delete cm : w_cm w = Some cm → lstep w LDelete (World None (w_rv w) (w_orphans w) (w_es w))
  | l_set a : lstep w (LSet a) (World (Some (CMap (w_rv w) a)) (S (w_rv w)) (w_orphans w) (w_es w)).
