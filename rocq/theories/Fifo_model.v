(** Model of aiok8s/cache/fifo.py, class [FIFO] (lines 33-159).

    [keyf] is the key function; [None] means it raised.  No method suspends
    while holding the lock (the process callback of [pop] is synchronous), so
    every call is one step; [FBlocked] marks the point where [pop] suspends in
    [Condition.wait].  Every step also says whether it executed [notify_all]. *)
From Verif Require Import Base.

(** what the process callback given to [pop] does with an object *)
Inductive outcome := POk | PRequeue (cause : bool) | PFail.

Section fifo.
  Context {K O : Type} `{EqDecision K} (keyf : O → option K).

  (** fifo.py:34-42 *)
  Record fifo := FIFO {
    f_items : dict K O;        (* self._items *)
    f_queue : list K;          (* self._queue *)
    f_populated : bool;        (* self._populated *)
    f_count : nat;             (* self._initial_population_count *)
    f_closed : bool            (* self._closed *)
  }.
  Definition fifo_init : fifo := FIFO [] [] false 0 false.

  Inductive fop :=
  | FAdd (o : O) | FUpdate (o : O) | FDelete (o : O) | FListObjs | FListKeys
  | FGet (o : O) | FGetByKey (k : K) | FReplace (l : list O) | FResync
  | FPop (process : O → outcome) | FAddIfNotPresent (o : O) | FHasSynced | FClose | FIsClosed.
  Inductive fres :=
  | FNone | FItem (o : O) | FBlocked | FClosedError | FProcessError (o : O)
  | FKeyError | FStoreKeyError (o : O) | FObjs (l : list O) | FKeys (l : list K)
  | FOpt (o : option O) | FBool (b : bool).

  (** lines 44-54 (and 56-57), once the key is known *)
  Definition fifo_add (k : K) (o : O) (s : fifo) : fifo :=
    FIFO (dset k o (f_items s))
         (if decide (k ∈ dkeys (f_items s)) then f_queue s else f_queue s ++ [k])
         true (f_count s) (f_closed s).

  (** lines 59-66; [del] raises KeyError after [_populated] was set *)
  Definition fifo_delete (k : K) (s : fifo) : fifo * fres :=
    if decide (k ∈ dkeys (f_items s))
    then (FIFO (ddel k (f_items s)) (f_queue s) true (f_count s) (f_closed s), FNone)
    else (FIFO (f_items s) (f_queue s) true (f_count s) (f_closed s), FKeyError).

  (** lines 85-91: the new dict, or the object whose key function raised *)
  Fixpoint index_items (l : list O) (items : dict K O) : dict K O + O :=
    match l with
    | [] => inl items
    | o :: l => match keyf o with
                | Some k => index_items l (dset k o items)
                | None => inr o
                end
    end.
  (** lines 92-100 *)
  Definition fifo_replace (items : dict K O) (s : fifo) : fifo :=
    FIFO items (dkeys items) true
         (if f_populated s then f_count s else length items) (f_closed s).

  (** lines 102-109 *)
  Definition fifo_resync (s : fifo) : fifo :=
    FIFO (f_items s)
         (f_queue s ++ filter (λ k, k ∉ f_queue s) (dkeys (f_items s)))
         (f_populated s) (f_count s) (f_closed s).

  (** lines 153-159; the flag says whether it notified *)
  Definition fifo_add_if_not_present (k : K) (o : O) (s : fifo) : fifo * bool :=
    if decide (k ∈ dkeys (f_items s))
    then (FIFO (f_items s) (f_queue s) true (f_count s) (f_closed s), false)
    else (FIFO (dset k o (f_items s)) (f_queue s ++ [k]) true (f_count s) (f_closed s), true).

  (** lines 113-122: consume queue entries until one is backed by an object.
      Returns the object found, if any. *)
  Fixpoint skip_stale (items : dict K O) (queue : list K) (count : nat) : list K * nat * option (K * O) :=
    match queue with
    | [] => ([], count, None)
    | k :: queue =>
        match dget k items with
        | None => skip_stale items queue (pred count)
        | Some o => (queue, pred count, Some (k, o))
        end
    end.
  (** lines 111-132 *)
  Definition fifo_pop (process : O → outcome) (s : fifo) : fifo * fres * bool :=
    let '(queue, count, found) := skip_stale (f_items s) (f_queue s) (f_count s) in
    match found with
    | None =>
        let s' := FIFO (f_items s) queue (f_populated s) count (f_closed s) in
        (s', if f_closed s then FClosedError else FBlocked, false)
    | Some (k, o) =>
        let s' := FIFO (ddel k (f_items s)) queue (f_populated s) count (f_closed s) in
        match process o with
        | POk => (s', FItem o, false)
        | PRequeue cause =>
            let '(s'', n) := fifo_add_if_not_present k o s' in
            (s'', if cause then FProcessError o else FItem o, n)
        | PFail => (s', FProcessError o, false)
        end
    end.

  (** lines 142-143 *)
  Definition fifo_has_synced (s : fifo) : bool := f_populated s && Nat.eqb (f_count s) 0.

  (** one call: new state, answer, and whether notify_all was executed *)
  Definition fcall (s : fifo) (c : fop) : fifo * fres * bool :=
    match c with
    | FAdd o | FUpdate o =>
        match keyf o with None => (s, FStoreKeyError o, false) | Some k => (fifo_add k o s, FNone, true) end
    | FDelete o =>
        match keyf o with
        | None => (s, FStoreKeyError o, false)
        | Some k => let '(s', r) := fifo_delete k s in (s', r, false)
        end
    | FListObjs => (s, FObjs (dvals (f_items s)), false)
    | FListKeys => (s, FKeys (dkeys (f_items s)), false)
    | FGet o => match keyf o with
                | None => (s, FStoreKeyError o, false)
                | Some k => (s, FOpt (dget k (f_items s)), false)
                end
    | FGetByKey k => (s, FOpt (dget k (f_items s)), false)
    | FReplace l =>
        match index_items l [] with
        | inr o => (s, FStoreKeyError o, false)
        | inl items => let s' := fifo_replace items s in (s', FNone, negb (Nat.eqb (length (f_queue s')) 0))
        end
    | FResync => let s' := fifo_resync s in (s', FNone, negb (Nat.eqb (length (f_queue s')) 0))
    | FPop process => fifo_pop process s
    | FAddIfNotPresent o =>
        match keyf o with
        | None => (s, FStoreKeyError o, false)
        | Some k => let '(s', n) := fifo_add_if_not_present k o s in (s', FNone, n)
        end
    | FHasSynced => (s, FBool (fifo_has_synced s), false)
    (** lines 145-148 *)
    | FClose => (FIFO (f_items s) (f_queue s) (f_populated s) (f_count s) true, FNone, true)
    | FIsClosed => (s, FBool (f_closed s), false)
    end.
  Definition fstep (s : fifo) (c : fop) : fifo * fres := (fcall s c).1.
End fifo.
Arguments fifo : clear implicits.
Arguments fop : clear implicits.
Arguments fres : clear implicits.
