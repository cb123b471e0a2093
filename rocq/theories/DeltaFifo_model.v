(** Model of aiok8s/cache/delta_fifo.py, class [DeltaFIFO] and its helpers.

    [keyf] is the key function given to the constructor ([None]: it raised).
    Objects queued by clients are real objects or [DeletedFinalStateUnknown]
    markers; DeltaArg_model.v adds [Deltas] lists.
    The known-objects store belongs to somebody else and may change between
    calls, so every call that consults it receives its current content.

    [pop] awaits the process callback while holding the lock (lines 140-163).
    It is split into [DPop], up to the await, and [DFinish], the rest.  While a
    callback runs the calls that need the lock cannot proceed: they answer
    [DLockWait] and change nothing; calls without lock proceed. *)
From Verif Require Import Base.

(** delta_fifo.py:246-250 *)
Inductive dtype := DtAdded | DtUpdated | DtDeleted | DtSync.
#[global] Instance dtype_eq_dec : EqDecision dtype.
Proof. solve_decision. Defined.

(** how the process callback ended: normally, RequeueError (with or without a
    cause), another exception, cancellation of the popping task *)
Inductive doutcome := DOk | DRequeue (cause : bool) | DFail | DCancel.

Section types.
  Context {K O : Type}.
  (** a real object, or DeletedFinalStateUnknown(key, obj) (lines 266-268) *)
  Inductive dobj := DObj (o : O) | DTomb (k : K) (o : option dobj).
  (** Delta(type, object) (lines 253-255) *)
  Definition delta : Type := dtype * dobj.
  (** what known_objects.get_by_key does: return an object, return None, raise *)
  Inductive lookup := LFound (o : dobj) | LMissing | LRaises.
  Record known := Known { kn_keys : list K; kn_get : K → lookup }.

  (** lines 26-34 *)
  Record dfifo := DFIFO {
    d_items : dict K (list delta);     (* self._items *)
    d_queue : list K;                  (* self._queue *)
    d_populated : bool;                (* self._populated *)
    d_count : nat;                     (* self._initial_population_count *)
    d_closed : bool;                   (* self._closed *)
    d_busy : option (K * list delta)   (* id_ and item of the pop awaiting its callback *)
  }.
  Definition dfifo_init : dfifo := DFIFO [] [] false 0 false None.

  (** calls; [kn = None] means the queue was built without known_objects *)
  Inductive dop :=
  | DAdd (o : dobj) | DUpdate (o : dobj) | DDelete (kn : option known) (o : dobj)
  | DList | DListKeys | DGet (o : dobj) | DGetByKey (k : K)
  | DReplace (kn : option known) (l : list dobj) | DResync (kn : option known)
  | DPop | DFinish (out : doutcome)
  | DAddIfNotPresent (ds : list delta) | DHasSynced | DClose | DIsClosed.
  Inductive dres :=
  | DNone
  | DPopped (ds : list delta)          (* the callback is called with ds *)
  | DItem (ds : list delta)            (* pop returns ds *)
  | DProcessError (ds : list delta)
  | DCancelled
  | DBlocked                           (* pop suspends in Condition.wait *)
  | DClosedError
  | DLockWait                          (* waits for the lock; no effect yet *)
  | DIdle                              (* DFinish while no callback runs *)
  | DKeyFuncError (o : dobj)           (* the key function raised on o *)
  | DAttributeError                    (* newest() of an empty Deltas *)
  | DObjs (l : list dobj) | DKeys (l : list K) | DDeltas (ds : option (list delta)) | DBool (b : bool).
End types.
Arguments dobj : clear implicits.
Arguments delta : clear implicits.
Arguments lookup : clear implicits.
Arguments known : clear implicits.
Arguments dfifo : clear implicits.
Arguments dop : clear implicits.
Arguments dres : clear implicits.

Section dfifo.
  Context {K O : Type} `{EqDecision K} (keyf : O → option K).
  Notation dfifo := (dfifo K O).
  Notation delta := (delta K O).
  Notation dobj := (dobj K O).

  (** lines 180-187 *)
  Definition key_of (o : dobj) : option K :=
    match o with DObj o => keyf o | DTomb k _ => Some k end.

  Definition is_tomb (o : dobj) : bool := match o with DTomb _ _ => true | DObj _ => false end.
  (** _is_dup, lines 281-286; [a] is the newest delta, [b] the one before *)
  Definition is_dup (a b : delta) : option delta :=
    if decide (b.1 = DtDeleted ∧ a.1 = DtDeleted)
    then Some (if is_tomb b.2 then a else b) else None.
  (** _dedup_deltas, lines 271-278 *)
  Definition dedup_deltas (ds : list delta) : list delta :=
    match reverse ds with
    | a :: b :: rest => match is_dup a b with Some out => reverse rest ++ [out] | None => ds end
    | _ => ds
    end.

  (** _will_object_be_deleted_locked, lines 200-202 *)
  Definition will_be_deleted (k : K) (s : dfifo) : bool :=
    match dget k (d_items s) with
    | Some ds => match last ds with Some d => bool_decide (d.1 = DtDeleted) | None => false end
    | None => false
    end.

  (** _queue_action_locked, lines 204-216, once the key is known.  (The last
      branch deletes an empty list; it is never taken.) *)
  Definition queue_action (t : dtype) (k : K) (o : dobj) (s : dfifo) : dfifo * bool :=
    if bool_decide (t = DtSync) && will_be_deleted k s then (s, false)
    else
      let new := dedup_deltas (default [] (dget k (d_items s)) ++ [(t, o)]) in
      match new with
      | [] => (DFIFO (ddel k (d_items s)) (d_queue s) (d_populated s) (d_count s) (d_closed s) (d_busy s), false)
      | _ => (DFIFO (dset k new (d_items s))
                    (if decide (k ∈ dkeys (d_items s)) then d_queue s else d_queue s ++ [k])
                    (d_populated s) (d_count s) (d_closed s) (d_busy s), true)
      end.

  Definition set_populated (s : dfifo) : dfifo :=
    DFIFO (d_items s) (d_queue s) true (d_count s) (d_closed s) (d_busy s).

  (** add and update, lines 36-44: populated is set before the key is computed *)
  Definition df_add (t : dtype) (o : dobj) (s : dfifo) : dfifo * dres K O * bool :=
    match key_of o with
    | None => (set_populated s, DKeyFuncError o, false)
    | Some k => let '(s', n) := queue_action t k o (set_populated s) in (s', DNone, n)
    end.

  (** delete, lines 46-62: skipped if neither known nor pending; if the lookup
      raises, queued anyway *)
  Definition df_delete (kn : option (known K O)) (o : dobj) (s : dfifo) : dfifo * dres K O * bool :=
    match key_of o with
    | None => (s, DKeyFuncError o, false)
    | Some k =>
        let s1 := set_populated s in
        let pending := bool_decide (k ∈ dkeys (d_items s)) in
        let skip := match kn with
          | None => negb pending
          | Some kn => match kn_get kn k with
                       | LFound _ => false
                       | LMissing => negb pending
                       | LRaises => false
                       end
          end in
        if skip then (s1, DNone, false)
        else let '(s', n) := queue_action DtDeleted k o s1 in (s', DNone, n)
    end.

  (** replace, lines 80-84: a Sync for every listed object, in order; stops at
      the first object whose key function raises *)
  Fixpoint sync_all (l : list dobj) (s : dfifo) (n : bool) : dfifo * bool * option dobj :=
    match l with
    | [] => (s, n, None)
    | o :: l => match key_of o with
                | None => (s, n, Some o)
                | Some k => let '(s', n') := queue_action DtSync k o s in sync_all l s' (n || n')
                end
    end.
  (** deletions for the given keys with the given last objects (lines 86-97, 102-127) *)
  Fixpoint delete_all (l : list (K * option dobj)) (s : dfifo) (n : bool) : dfifo * bool :=
    match l with
    | [] => (s, n)
    | (k, o) :: l => let '(s', n') := queue_action DtDeleted k (DTomb k o) s in delete_all l s' (n || n')
    end.
  (** the object put into the marker: the newest pending one (lines 90-93), or
      what the known-objects store returns (lines 107-123) *)
  Definition newest_obj (ds : list delta) : option dobj := snd <$> last ds.
  Definition lookup_obj (r : lookup K O) : option dobj :=
    match r with LFound o => Some o | LMissing | LRaises => None end.
  Definition deletions (kn : option (known K O)) (keys : list K) (s : dfifo) : list (K * option dobj) :=
    match kn with
    | None => (λ p, (p.1, newest_obj p.2)) <$> filter (λ p, p.1 ∉ keys) (d_items s)
    | Some kn => (λ k, (k, lookup_obj (kn_get kn k))) <$> filter (λ k, k ∉ keys) (kn_keys kn)
    end.
  (** lines 98-100 and 128-130 *)
  Definition set_initial (n : nat) (s : dfifo) : dfifo :=
    if d_populated s then s
    else DFIFO (d_items s) (d_queue s) true n (d_closed s) (d_busy s).
  (** replace, lines 78-130.  In the branch without known_objects the pending
      dict is iterated while existing keys are reassigned, which is allowed and
      does not change which keys are visited; each key's own newest delta is
      read before it is changed. *)
  Definition df_replace (kn : option (known K O)) (l : list dobj) (s : dfifo) : dfifo * dres K O * bool :=
    match sync_all l s false with
    | (s1, n, Some o) => (s1, DKeyFuncError o, n)
    | (s1, n, None) =>
        let dels := deletions kn (omap key_of l) s1 in
        let '(s2, n2) := delete_all dels s1 n in
        (set_initial (length l + length dels) s2, DNone, n2)
    end.

  (** _sync_key_locked, lines 218-239 *)
  Definition sync_key (kn : known K O) (k : K) (s : dfifo) : dfifo * bool * option dobj :=
    match kn_get kn k with
    | LRaises | LMissing => (s, false, None)
    | LFound o =>
        match key_of o with
        | None => (s, false, Some o)
        | Some id =>
            match dget id (d_items s) with
            | Some (_ :: _) => (s, false, None)
            | _ => let '(s', n) := queue_action DtSync id o s in (s', n, None)
            end
        end
    end.
  (** resync, lines 132-138 *)
  Fixpoint resync_keys (kn : known K O) (ks : list K) (s : dfifo) (n : bool) : dfifo * dres K O * bool :=
    match ks with
    | [] => (s, DNone, n)
    | k :: ks => match sync_key kn k s with
                 | (s', n', None) => resync_keys kn ks s' (n || n')
                 | (s', n', Some o) => (s', DKeyFuncError o, n || n')
                 end
    end.
  Definition df_resync (kn : option (known K O)) (s : dfifo) : dfifo * dres K O * bool :=
    match kn with None => (s, DNone, false) | Some kn => resync_keys kn (kn_keys kn) s false end.

  (** pop, lines 141-152: queue entries without pending deltas are skipped *)
  Fixpoint skip_stale (items : dict K (list delta)) (queue : list K) (count : nat)
    : list K * nat * option (K * list delta) :=
    match queue with
    | [] => ([], count, None)
    | k :: queue => match dget k items with
                    | None => skip_stale items queue (pred count)
                    | Some ds => (queue, pred count, Some (k, ds))
                    end
    end.
  Definition df_pop (s : dfifo) : dfifo * dres K O * bool :=
    let '(queue, count, found) := skip_stale (d_items s) (d_queue s) (d_count s) in
    match found with
    | None => (DFIFO (d_items s) queue (d_populated s) count (d_closed s) None,
               if d_closed s then DClosedError else DBlocked, false)
    | Some (k, ds) =>
        (DFIFO (ddel k (d_items s)) queue (d_populated s) count (d_closed s) (Some (k, ds)), DPopped ds, false)
    end.

  (** _add_if_not_present, lines 192-198 *)
  Definition put_if_absent (k : K) (ds : list delta) (s : dfifo) : dfifo * bool :=
    if decide (k ∈ dkeys (d_items s)) then (set_populated s, false)
    else (DFIFO (dset k ds (d_items s)) (d_queue s ++ [k]) true (d_count s) (d_closed s) (d_busy s), true).

  (** pop, lines 153-163 *)
  Definition df_finish (out : doutcome) (s : dfifo) : dfifo * dres K O * bool :=
    match d_busy s with
    | None => (s, DIdle, false)
    | Some (k, ds) =>
        let s' := DFIFO (d_items s) (d_queue s) (d_populated s) (d_count s) (d_closed s) None in
        match out with
        | DOk => (s', DItem ds, false)
        | DRequeue cause =>
            let '(s'', n) := put_if_absent k ds s' in
            (s'', if cause then DProcessError ds else DItem ds, n)
        | DFail => (s', DProcessError ds, false)
        | DCancel => (s', DCancelled, false)
        end
    end.

  (** add_if_not_present, lines 165-170; the key is that of the newest delta *)
  Definition df_add_if_not_present (ds : list delta) (s : dfifo) : dfifo * dres K O * bool :=
    match last ds with
    | None => (s, DAttributeError, false)
    | Some d => match key_of d.2 with
                | None => (s, DKeyFuncError d.2, false)
                | Some k => let '(s', n) := put_if_absent k ds s in (s', DNone, n)
                end
    end.

  (** lines 172-173 *)
  Definition df_has_synced (s : dfifo) : bool := d_populated s && Nat.eqb (d_count s) 0.

  (** does the call take the lock? ([key_of] and the type check of
      add_if_not_present come before the lock, but have no effect on it) *)
  Definition needs_lock (c : dop K O) : bool :=
    match c with
    | DList | DListKeys | DGet _ | DGetByKey _ | DHasSynced | DIsClosed | DFinish _ => false
    | _ => true
    end.

  (** the call once the lock is free *)
  Definition dcall_free (s : dfifo) (c : dop K O) : dfifo * dres K O * bool :=
    match c with
    | DAdd o => df_add DtAdded o s
    | DUpdate o => df_add DtUpdated o s
    | DDelete kn o => df_delete kn o s
    (** lines 64-65: every pending list is non-empty, so newest() has an object *)
    | DList => (s, DObjs (omap newest_obj (dvals (d_items s))), false)
    | DListKeys => (s, DKeys (dkeys (d_items s)), false)
    | DGet o => match key_of o with
                | None => (s, DKeyFuncError o, false)
                | Some k => (s, DDeltas (dget k (d_items s)), false)
                end
    | DGetByKey k => (s, DDeltas (dget k (d_items s)), false)
    | DReplace kn l => df_replace kn l s
    | DResync kn => df_resync kn s
    | DPop => df_pop s
    | DFinish out => df_finish out s
    | DAddIfNotPresent ds => df_add_if_not_present ds s
    | DHasSynced => (s, DBool (df_has_synced s), false)
    (** lines 175-178 *)
    | DClose => (DFIFO (d_items s) (d_queue s) (d_populated s) (d_count s) true (d_busy s), DNone, true)
    | DIsClosed => (s, DBool (d_closed s), false)
    end.
  Definition dcall (s : dfifo) (c : dop K O) : dfifo * dres K O * bool :=
    match d_busy s with
    | Some _ => if needs_lock c then (s, DLockWait, false) else dcall_free s c
    | None => dcall_free s c
    end.
  Definition dstep (s : dfifo) (c : dop K O) : dfifo * dres K O := (dcall s c).1.
End dfifo.
