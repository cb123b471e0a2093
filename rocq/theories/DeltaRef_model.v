(** Model of aiok8s/cache/delta_fifo.py, class [DeltaFIFO], holding its [Deltas]
    lists by reference, as Python does.

    A list is a number; [r_heap] has the contents of all lists made so far.
    - [_queue_action_locked] always makes a new list (209, 210; [_dedup_deltas] returns
      its argument or makes another one, 271-278).
    - [add_if_not_present] keeps the list it was given (165-170, 198).
    - [pop] takes the list out of the queue and hands it to the process callback
      (152, 154), and puts the same list back on a RequeueError (156).
    - [get] and [get_by_key] return a copy, or the list itself if it is empty (75-76:
      [d and _copy_deltas(d)]).
    - [list] raises AttributeError if a pending list is empty (65: newest() is None).
    Everything else is as in DeltaFifo_model.v.  Callers may make lists and put any
    contents into any list at any time, also while a callback is running.
    Objects are values here (Alias_model.v has objects that are edited).
    Not modelled: an edit between the computation of the key by
    add_if_not_present (168) and the moment it gets the lock (169). *)
From Verif Require Import Base DeltaFifo_model.

Section ref.
  Context {K O : Type} `{EqDecision K} (keyf : O → option K).
  Notation delta := (delta K O).
  Notation dobj := (dobj K O).

  (** lines 26-34 *)
  Record rst := RS {
    r_heap : list (list delta);
    r_items : dict K nat;              (* self._items *)
    r_queue : list K; r_populated : bool; r_count : nat; r_closed : bool;
    r_busy : option (K * nat)          (* id_ and item of the pop awaiting its callback *)
  }.
  Definition rst_init : rst := RS [] [] [] false 0 false None.
  Definition contents (s : rst) (r : nat) : list delta := default [] (r_heap s !! r).
  (** the list at a key, [] if there is none: self._items.get(id_, []) *)
  Definition at_key (s : rst) (k : K) : list delta := match dget k (r_items s) with Some r => contents s r | None => [] end.

  (** _will_object_be_deleted_locked, 200-202 *)
  Definition r_will_be_deleted (k : K) (s : rst) : bool :=
    match last (at_key s k) with Some d => bool_decide (d.1 = DtDeleted) | None => false end.
  (** _queue_action_locked, 204-216 *)
  Definition r_queue_action (t : dtype) (k : K) (o : dobj) (s : rst) : rst :=
    if bool_decide (t = DtSync) && r_will_be_deleted k s then s
    else
      let new := dedup_deltas (at_key s k ++ [(t, o)]) in
      match new with
      | [] => RS (r_heap s) (ddel k (r_items s)) (r_queue s) (r_populated s) (r_count s) (r_closed s) (r_busy s)
      | _ => RS (r_heap s ++ [new]) (dset k (length (r_heap s)) (r_items s))
                (if decide (k ∈ dkeys (r_items s)) then r_queue s else r_queue s ++ [k])
                (r_populated s) (r_count s) (r_closed s) (r_busy s)
      end.
  Definition r_set_populated (s : rst) : rst := RS (r_heap s) (r_items s) (r_queue s) true (r_count s) (r_closed s) (r_busy s).
  (** calls of the queue, making a list, changing a list *)
  Inductive rop := RCall (c : dop K O) | RPut (r : nat) | RNew (ds : list delta) | REdit (r : nat) (ds : list delta).
  Inductive rres :=
  | RRes (x : dres K O)                (* an answer without a list *)
  | RPopped (r : nat) | RItem (r : nat) | RProcessError (r : nat) | RDeltas (r : option nat) | RMade (r : nat).

  (** add and update, 36-44 *)
  Definition r_add (t : dtype) (o : dobj) (s : rst) : rst * rres :=
    match key_of keyf o with
    | None => (r_set_populated s, RRes (DKeyFuncError o))
    | Some k => (r_queue_action t k o (r_set_populated s), RRes DNone)
    end.
  (** delete, 46-62 *)
  Definition r_delete (kn : option (known K O)) (o : dobj) (s : rst) : rst * rres :=
    match key_of keyf o with
    | None => (s, RRes (DKeyFuncError o))
    | Some k =>
        let pending := bool_decide (k ∈ dkeys (r_items s)) in
        let skip := match kn with
          | None => negb pending
          | Some kn => match kn_get kn k with LFound _ => false | LMissing => negb pending | LRaises => false end
          end in
        if skip then (r_set_populated s, RRes DNone) else (r_queue_action DtDeleted k o (r_set_populated s), RRes DNone)
    end.
  (** replace, 78-130 *)
  Fixpoint r_sync_all (l : list dobj) (s : rst) : rst * option dobj :=
    match l with
    | [] => (s, None)
    | o :: l => match key_of keyf o with None => (s, Some o) | Some k => r_sync_all l (r_queue_action DtSync k o s) end
    end.
  Fixpoint r_delete_all (l : list (K * option dobj)) (s : rst) : rst :=
    match l with [] => s | (k, o) :: l => r_delete_all l (r_queue_action DtDeleted k (DTomb k o) s) end.
  Definition r_deletions (kn : option (known K O)) (keys : list K) (s : rst) : list (K * option dobj) :=
    match kn with
    | None => (λ p, (p.1, newest_obj (contents s p.2))) <$> filter (λ p, p.1 ∉ keys) (r_items s)
    | Some kn => (λ k, (k, lookup_obj (kn_get kn k))) <$> filter (λ k, k ∉ keys) (kn_keys kn)
    end.
  Definition r_set_initial (n : nat) (s : rst) : rst :=
    if r_populated s then s else RS (r_heap s) (r_items s) (r_queue s) true n (r_closed s) (r_busy s).
  Definition r_replace (kn : option (known K O)) (l : list dobj) (s : rst) : rst * rres :=
    match r_sync_all l s with
    | (s1, Some o) => (s1, RRes (DKeyFuncError o))
    | (s1, None) =>
        let dels := r_deletions kn (omap (key_of keyf) l) s1 in
        (r_set_initial (length l + length dels) (r_delete_all dels s1), RRes DNone)
    end.
  (** _sync_key_locked, 218-239, and resync, 132-138 *)
  Definition r_sync_key (kn : known K O) (k : K) (s : rst) : rst * option dobj :=
    match kn_get kn k with
    | LRaises | LMissing => (s, None)
    | LFound o =>
        match key_of keyf o with
        | None => (s, Some o)
        | Some id => match at_key s id with _ :: _ => (s, None) | [] => (r_queue_action DtSync id o s, None) end
        end
    end.
  Fixpoint r_resync_keys (kn : known K O) (ks : list K) (s : rst) : rst * rres :=
    match ks with
    | [] => (s, RRes DNone)
    | k :: ks => match r_sync_key kn k s with
                 | (s', None) => r_resync_keys kn ks s'
                 | (s', Some o) => (s', RRes (DKeyFuncError o))
                 end
    end.
  (** pop, 141-152 *)
  Fixpoint r_skip_stale (items : dict K nat) (queue : list K) (count : nat) : list K * nat * option (K * nat) :=
    match queue with
    | [] => ([], count, None)
    | k :: queue => match dget k items with
                    | None => r_skip_stale items queue (pred count)
                    | Some r => (queue, pred count, Some (k, r))
                    end
    end.
  Definition r_pop (s : rst) : rst * rres :=
    let '(queue, count, found) := r_skip_stale (r_items s) (r_queue s) (r_count s) in
    match found with
    | None => (RS (r_heap s) (r_items s) queue (r_populated s) count (r_closed s) None, RRes (if r_closed s then DClosedError else DBlocked))
    | Some (k, r) => (RS (r_heap s) (ddel k (r_items s)) queue (r_populated s) count (r_closed s) (Some (k, r)), RPopped r)
    end.
  (** _add_if_not_present, 192-198 *)
  Definition r_put_if_absent (k : K) (r : nat) (s : rst) : rst :=
    if decide (k ∈ dkeys (r_items s)) then r_set_populated s
    else RS (r_heap s) (dset k r (r_items s)) (r_queue s ++ [k]) true (r_count s) (r_closed s) (r_busy s).
  (** pop, 153-163 *)
  Definition r_finish (out : doutcome) (s : rst) : rst * rres :=
    match r_busy s with
    | None => (s, RRes DIdle)
    | Some (k, r) =>
        let s' := RS (r_heap s) (r_items s) (r_queue s) (r_populated s) (r_count s) (r_closed s) None in
        match out with
        | DOk => (s', RItem r)
        | DRequeue cause => (r_put_if_absent k r s', if cause then RProcessError r else RItem r)
        | DFail => (s', RProcessError r)
        | DCancel => (s', RRes DCancelled)
        end
    end.
  (** add_if_not_present, 165-170 *)
  Definition r_put (r : nat) (s : rst) : rst * rres :=
    match last (contents s r) with
    | None => (s, RRes DAttributeError)
    | Some d => match key_of keyf d.2 with
                | None => (s, RRes (DKeyFuncError d.2))
                | Some k => (r_put_if_absent k r s, RRes DNone)
                end
    end.
  Definition r_alloc (ds : list delta) (s : rst) : rst :=
    RS (r_heap s ++ [ds]) (r_items s) (r_queue s) (r_populated s) (r_count s) (r_closed s) (r_busy s).
  (** get_by_key, 74-76 *)
  Definition r_get (k : K) (s : rst) : rst * rres :=
    match dget k (r_items s) with
    | None => (s, RDeltas None)
    | Some r => match contents s r with [] => (s, RDeltas (Some r)) | ds => (r_alloc ds s, RDeltas (Some (length (r_heap s)))) end
    end.
  (** list, 64-65 *)
  Definition r_list (s : rst) : rst * rres :=
    match mapM (λ r, newest_obj (contents s r)) (dvals (r_items s)) with
    | Some l => (s, RRes (DObjs l))
    | None => (s, RRes DAttributeError)
    end.

  (** the call once the lock is free *)
  Definition rcall_free (s : rst) (c : dop K O) : rst * rres :=
    match c with
    | DAdd o => r_add DtAdded o s
    | DUpdate o => r_add DtUpdated o s
    | DDelete kn o => r_delete kn o s
    | DList => r_list s
    | DListKeys => (s, RRes (DKeys (dkeys (r_items s))))
    | DGet o => match key_of keyf o with None => (s, RRes (DKeyFuncError o)) | Some k => r_get k s end
    | DGetByKey k => r_get k s
    | DReplace kn l => r_replace kn l s
    | DResync kn => match kn with None => (s, RRes DNone) | Some kn => r_resync_keys kn (kn_keys kn) s end
    | DPop => r_pop s
    | DFinish out => r_finish out s
    (** a list made for the call *)
    | DAddIfNotPresent ds => r_put (length (r_heap s)) (r_alloc ds s)
    | DHasSynced => (s, RRes (DBool (r_populated s && Nat.eqb (r_count s) 0)))
    | DClose => (RS (r_heap s) (r_items s) (r_queue s) (r_populated s) (r_count s) true (r_busy s), RRes DNone)
    | DIsClosed => (s, RRes (DBool (r_closed s)))
    end.
  Definition rstep (s : rst) (c : rop) : rst * rres :=
    match c with
    | RCall c => match r_busy s with
                 | Some _ => if needs_lock c then (s, RRes DLockWait) else rcall_free s c
                 | None => rcall_free s c
                 end
    | RPut r => match r_busy s with Some _ => (s, RRes DLockWait) | None => r_put r s end
    | RNew ds => (r_alloc ds s, RMade (length (r_heap s)))
    | REdit r ds => (RS (<[r:=ds]> (r_heap s)) (r_items s) (r_queue s) (r_populated s) (r_count s) (r_closed s) (r_busy s), RRes DNone)
    end.
End ref.
Arguments rst : clear implicits.
Arguments rop : clear implicits.
Arguments rres : clear implicits.
