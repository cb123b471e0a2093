(** Model of aiok8s/cache/store.py ([_Cache]) over
    aiok8s/cache/thread_safe_store.py ([_ThreadSafeMap]).

    [keyf] is the key function ([None]: it raised).  An index function returns
    a list of index values or raises ([None]).  No call suspends while holding
    the lock, so every call is atomic.  A Python set is a list without
    repetitions; its iteration order is unspecified, so nothing is claimed about
    the order of results built from one.  Objects are never Python's None. *)
From Verif Require Import Base.

Section store.
  Context {K O V N : Type} `{EqDecision K} `{EqDecision V} `{EqDecision N} (keyf : O → option K).

  (** index.py:26-35 *)
  Definition index_func : Type := O → option (list V).
  Notation index := (dict V (list K)).
  Notation indices := (dict N (dict V (list K))).
  Notation indexers := (dict N index_func).

  (** thread_safe_store.py:26-30 *)
  Record store := Store { s_items : dict K O; s_indexers : indexers; s_indices : indices }.
  (** store.py:37-47 *)
  Definition store_init (fs : indexers) : store := Store [] fs [].

  Inductive sop :=
  | SAdd (o : O) | SUpdate (o : O) | SDelete (o : O) | SList | SListKeys | SGet (o : O) | SGetByKey (k : K)
  | SReplace (l : list O) | SResync | SIndex (n : N) (o : O) | SIndexKeys (n : N) (v : V)
  | SListIndexFuncValues (n : N) | SByIndex (n : N) (v : V) | SGetIndexers | SAddIndexers (fs : indexers).
  Inductive sres :=
  | SNone
  | SStoreKeyError (o : O)             (* the key function raised on o *)
  | SKeyError
  | SIndexError                        (* an index function raised *)
  | SRunningError | SConflictError     (* add_indexers *)
  | SObjs (l : list O) | SKeys (l : list K) | SOpt (o : option O) | SValues (l : list V) | SNames (l : list N).

  (** how a loop over index functions ended *)
  Inductive loop_end := LDone | LKeyError | LIndexError.
  Definition loop_res (e : loop_end) : sres :=
    match e with LDone => SNone | LKeyError => SKeyError | LIndexError => SIndexError end.

  (** thread_safe_store.py:129-131 *)
  Definition index_add (k : K) (ix : index) (v : V) : index := dset v (sadd k (default [] (dget v ix))) ix.
  (** lines 126-131 *)
  Fixpoint insert_indices (fs : indexers) (o : O) (k : K) (ixs : indices) : indices * loop_end :=
    match fs with
    | [] => (ixs, LDone)
    | (n, f) :: fs =>
        match f o with
        | None => (ixs, LIndexError)
        | Some vs => insert_indices fs o k (dset n (foldl (index_add k) (default [] (dget n ixs)) vs) ixs)
        end
    end.
  (** lines 139-144; an empty set is skipped like a missing one *)
  Fixpoint index_remove (k : K) (vs : list V) (ix : index) : index * bool :=
    match vs with
    | [] => (ix, true)
    | v :: vs =>
        match dget v ix with
        | Some (x :: xs) =>
            if decide (k ∈ x :: xs)
            then match srem k (x :: xs) with
                 | [] => index_remove k vs (ddel v ix)
                 | set => index_remove k vs (dset v set ix)
                 end
            else (ix, false)
        | _ => index_remove k vs ix
        end
    end.
  (** lines 133-144 *)
  Fixpoint delete_indices (fs : indexers) (o : O) (k : K) (ixs : indices) : indices * loop_end :=
    match fs with
    | [] => (ixs, LDone)
    | (n, f) :: fs =>
        match f o with
        | None => (ixs, LIndexError)
        | Some vs =>
            match dget n ixs with
            | None => delete_indices fs o k ixs
            | Some ix =>
                let '(ix', ok) := index_remove k vs ix in
                if ok then delete_indices fs o k (dset n ix' ixs) else (dset n ix' ixs, LKeyError)
            end
        end
    end.
  (** lines 123-131 *)
  Definition update_indices (fs : indexers) (old : option O) (o : O) (k : K) (ixs : indices) : indices * loop_end :=
    match old with
    | None => insert_indices fs o k ixs
    | Some old => match delete_indices fs old k ixs with
                  | (ixs', LDone) => insert_indices fs o k ixs'
                  | (ixs', e) => (ixs', e)
                  end
    end.

  (** lines 32-36 and 38-42: the object is stored before the indices *)
  Definition ts_add (k : K) (o : O) (s : store) : store * sres :=
    let '(ixs, e) := update_indices (s_indexers s) (dget k (s_items s)) o k (s_indices s) in
    (Store (dset k o (s_items s)) (s_indexers s) ixs, loop_res e).
  (** lines 44-52 *)
  Definition ts_delete (k : K) (s : store) : store * sres :=
    match dget k (s_items s) with
    | None => (s, SNone)
    | Some o => match delete_indices (s_indexers s) o k (s_indices s) with
                | (ixs, LDone) => (Store (ddel k (s_items s)) (s_indexers s) ixs, SNone)
                | (ixs, e) => (Store (s_items s) (s_indexers s) ixs, loop_res e)
                end
    end.
  (** lines 67-68 *)
  Fixpoint reindex (fs : indexers) (items : dict K O) (ixs : indices) : indices * loop_end :=
    match items with
    | [] => (ixs, LDone)
    | (k, o) :: items => match update_indices fs None o k ixs with
                         | (ixs', LDone) => reindex fs items ixs'
                         | (ixs', e) => (ixs', e)
                         end
    end.
  (** lines 63-68 *)
  Definition ts_replace (items : dict K O) (s : store) : store * sres :=
    let '(ixs, e) := reindex (s_indexers s) items [] in (Store items (s_indexers s) ixs, loop_res e).
  (** store.py:92-99: the dict is built before anything is stored *)
  Fixpoint store_items (l : list O) (items : dict K O) : dict K O + O :=
    match l with
    | [] => inl items
    | o :: l => match keyf o with Some k => store_items l (dset k o items) | None => inr o end
    end.

  (** [self._items[key] for key in ...]; KeyError if one is missing *)
  Fixpoint fetch (items : dict K O) (ks : list K) : option (list O) :=
    match ks with
    | [] => Some []
    | k :: ks => match dget k items, fetch items ks with Some o, Some l => Some (o :: l) | _, _ => None end
    end.
  Definition fetched (items : dict K O) (ks : list K) : sres :=
    match fetch items ks with Some l => SObjs l | None => SKeyError end.
  Definition index_of (n : N) (s : store) : index := default [] (dget n (s_indices s)).
  Definition set_of (v : V) (ix : index) : list K := default [] (dget v ix).
  (** thread_safe_store.py:75-82: the keys under any of the object's values *)
  Definition union_of (vs : list V) (ix : index) : list K :=
    match vs with
    | [v] => set_of v ix
    | _ => foldl (λ acc k, sadd k acc) [] (concat ((λ v, set_of v ix) <$> vs))
    end.

  Definition sstep (s : store) (c : sop) : store * sres :=
    match c with
    (** store.py:55-67 *)
    | SAdd o | SUpdate o => match keyf o with None => (s, SStoreKeyError o) | Some k => ts_add k o s end
    (** store.py:69-74 *)
    | SDelete o => match keyf o with None => (s, SStoreKeyError o) | Some k => ts_delete k s end
    | SList => (s, SObjs (dvals (s_items s)))
    | SListKeys => (s, SKeys (dkeys (s_items s)))
    (** store.py:82-90 *)
    | SGet o => match keyf o with None => (s, SStoreKeyError o) | Some k => (s, SOpt (dget k (s_items s))) end
    | SGetByKey k => (s, SOpt (dget k (s_items s)))
    | SReplace l => match store_items l [] with inr o => (s, SStoreKeyError o) | inl items => ts_replace items s end
    | SResync => (s, SNone)
    (** thread_safe_store.py:70-83 *)
    | SIndex n o =>
        match dget n (s_indexers s) with
        | None => (s, SKeyError)
        | Some f => match f o with
                    | None => (s, SIndexError)
                    | Some vs => (s, fetched (s_items s) (union_of vs (index_of n s)))
                    end
        end
    (** lines 85-91 *)
    | SIndexKeys n v =>
        match dget n (s_indexers s) with None => (s, SKeyError) | Some _ => (s, SKeys (set_of v (index_of n s))) end
    (** lines 93-97 *)
    | SListIndexFuncValues n => (s, SValues (dkeys (index_of n s)))
    (** lines 99-105 *)
    | SByIndex n v =>
        match dget n (s_indexers s) with
        | None => (s, SKeyError)
        | Some _ => (s, fetched (s_items s) (set_of v (index_of n s)))
        end
    | SGetIndexers => (s, SNames (dkeys (s_indexers s)))
    (** lines 110-118: [old_keys | new_keys] is the union *)
    | SAddIndexers fs =>
        match s_items s with
        | _ :: _ => (s, SRunningError)
        | [] => match dkeys (s_indexers s) ++ dkeys fs with
                | _ :: _ => (s, SConflictError)
                | [] => (Store [] (s_indexers s ++ fs) (s_indices s), SNone)
                end
        end
    end.
End store.
Arguments index_func : clear implicits.
Arguments store : clear implicits.
Arguments sop : clear implicits.
Arguments sres : clear implicits.
