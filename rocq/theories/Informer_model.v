(** Model of an informer: aiok8s/cache/controller.py, [_new_informer] (118-151)
    and [_process_loop] (78-86), on top of the DeltaFIFO (DeltaFifo_model.v) and
    the client store (Store_model.v).  [handle_deltas] of shared_informer.py
    (176-202) has the same body, with the distribution to the listeners in place
    of the handler callback; its lock is in SharedInformer_model.v.

    The queue's key function is [keyf]; the client store's is [key_of keyf],
    which also knows DeletedFinalStateUnknown markers (controller.py:107-110,
    114).  The known objects of the queue are the client store (119-121).
    The process callback of [pop] awaits one handler callback per delta, so the
    delivery of a list of deltas is split: [PPop] up to the first delta,
    [PDelta] for one delta up to the await of the handler, then [PRaise] if that
    handler call raised (a RequeueError with or without cause, or anything else),
    else the next [PDelta], and [PDone] after the last.
    The store calls of the callback do not suspend (their lock is never held
    across a suspension).  [retry_on_error] is false, as in every constructor of
    the library (148, shared_informer.py:141), so a failed delivery is dropped. *)
From Verif Require Import Base DeltaFifo_model Store_model Reflector_model.

Section informer.
  Context {K O V N : Type} `{EqDecision K} `{EqDecision V} `{EqDecision N} (keyf : O → option K).
  Notation dobj := (dobj K O).
  Notation delta := (delta K O).
  Notation cstore := (store K dobj V N).
  Notation csop := (sop K dobj V N).

  (** a handler callback about to be awaited; [sync]: caused by a Sync delta
      (used by the shared informer only) *)
  Inductive notif := NAdd (o : dobj) (sync : bool) | NUpdate (old new : dobj) (sync : bool) | NDelete (o : dobj).

  Record inf := Inf {
    i_q : dfifo K O;
    i_st : cstore;            (* client_state *)
    i_todo : list delta;      (* the rest of the for loop over the popped deltas *)
    i_cb : bool               (* a handler callback is being awaited *)
  }.
  Definition inf_init (fs : dict N (index_func dobj V)) : inf := Inf dfifo_init (store_init fs) [] false.

  (** the client store as known_objects: list_keys() and get_by_key() (store.py:79-80, 89-90) *)
  Definition known_of (st : cstore) : known K O :=
    Known (dkeys (s_items st)) (λ k, match dget k (s_items st) with Some o => LFound o | None => LMissing end).

  (** one delta, controller.py:124-141: the store call, then the callback;
      [None]: the store call raised *)
  Definition handle_delta (st : cstore) (d : delta) : cstore * option notif :=
    let call (c : csop) (n : notif) :=
      let '(st', r) := sstep (key_of keyf) st c in (st', match r with SNone => Some n | _ => None end) in
    match d.1 with
    | DtSync | DtAdded | DtUpdated =>
        let sync := bool_decide (d.1 = DtSync) in
        match (sstep (key_of keyf) st (SGet d.2)).2 with
        | SOpt (Some old) => call (SUpdate d.2) (NUpdate old d.2 sync)
        | SOpt None => call (SAdd d.2) (NAdd d.2 sync)
        | _ => (st, None)
        end
    | DtDeleted => call (SDelete d.2) (NDelete d.2)
    end.

  Inductive iop :=
  | QAdd (o : O) | QUpdate (o : O) | QDelete (o : O) | QReplace (l : list O) | QResync   (* the reflector *)
  | QHasSynced | QGetByKey (k : K) | QClose
  | PPop | PDelta | PRaise (requeue : option bool) | PDone | PCancel                                             (* the process loop *)
  | SLook (k : K).                                                                       (* the client store *)
  Inductive ires := IQ (r : dres K O) | ICallback (n : notif) | INothing | IObj (o : option dobj).

  Definition call_q (s : inf) (c : dop K O) : inf * ires :=
    let '(q, r) := dstep keyf (i_q s) c in (Inf q (i_st s) (i_todo s) (i_cb s), IQ r).
  (** the process callback ends *)
  Definition end_process (s : inf) (out : doutcome) : inf * ires :=
    let '(q, r) := dstep keyf (i_q s) (DFinish out) in (Inf q (i_st s) [] false, IQ r).

  Definition istep (s : inf) (c : iop) : inf * ires :=
    match c with
    | QAdd o => call_q s (DAdd (DObj o))
    | QUpdate o => call_q s (DUpdate (DObj o))
    | QDelete o => call_q s (DDelete (Some (known_of (i_st s))) (DObj o))
    | QReplace l => call_q s (DReplace (Some (known_of (i_st s))) (DObj <$> l))
    | QResync => call_q s (DResync (Some (known_of (i_st s))))
    (** controller.py:72-73 *)
    | QHasSynced => call_q s DHasSynced
    | QGetByKey k => call_q s (DGetByKey k)
    | QClose => call_q s DClose
    (** controller.py:78-86 *)
    | PPop =>
        match dstep keyf (i_q s) DPop with
        | (q, DPopped ds) => (Inf q (i_st s) ds false, IQ (DPopped ds))
        | (q, r) => (Inf q (i_st s) (i_todo s) (i_cb s), IQ r)
        end
    | PDelta =>
        match d_busy (i_q s), i_todo s with
        | Some _, d :: rest =>
            match handle_delta (i_st s) d with
            | (st, Some n) => (Inf (i_q s) st rest true, ICallback n)
            | (st, None) => end_process (Inf (i_q s) st rest false) DFail
            end
        | _, _ => (s, INothing)
        end
    | PRaise rq => if i_cb s then end_process s (match rq with Some cause => DRequeue cause | None => DFail end) else (s, INothing)
    | PDone => match d_busy (i_q s), i_todo s with Some _, [] => end_process s DOk | _, _ => (s, INothing) end
    (** the loop's task is cancelled: the process function waits only in the
        handler's callback (controller.py:133, 136, 139; the store's lock is
        never held across a wait), so a cancellation arrives there.  While the
        loop waits in pop() nothing of this state changes *)
    | PCancel => if i_cb s then end_process s DCancel else (s, INothing)
    | SLook k => (s, match (sstep (key_of keyf) (i_st s) (SGetByKey k)).2 with SOpt o => IObj o | _ => INothing end)
    end.

  (** the queue as the reflector's target (controller.py:48-53) *)
  Definition ok_of (x : inf * ires) : inf * bool := (x.1, match x.2 with IQ DNone => true | _ => false end).
  Definition inf_sops : sops O nat inf :=
    Sops (λ s l _, ok_of (istep s (QReplace l))) (λ s o, ok_of (istep s (QAdd o)))
         (λ s o, ok_of (istep s (QUpdate o))) (λ s o, ok_of (istep s (QDelete o))) (λ s, ok_of (istep s QResync)).
End informer.
Arguments notif : clear implicits.
Arguments inf : clear implicits.
Arguments iop : clear implicits.
Arguments ires : clear implicits.
