(** Model of aiok8s/workqueue/delaying_queue.py, class [_WaitForPriorityQueue]
    (lines 123-169).

    Deadlines are integers: every finite Python float is an integer multiple of
    2^-1074, and the code only compares them.

    Simplification: [heapq] (standard library) is modelled by a list kept sorted
    by [(priority, count)].  heapq only promises that [_pq[0]] and [heappop]
    give the least element; counts are unique, so this determines every answer
    and [data] is never compared.  An entry is a mutable list [priority, count,
    data] shared between heap and [_entry_finder]; here the finder stores
    [(priority, count)] and tombstoning ([entry[-1] = _REMOVED], line 167) looks
    the heap entry up by its unique count. *)
From Verif Require Import Base.
From Coq Require Import ZArith Lia.
Open Scope Z_scope.

Section pq.
  Context {A : Type} `{EqDecision A}.

  (** heap entry: priority, count, data ([None] = _REMOVED) *)
  Notation entry := (Z * nat * option A)%type.

  (** delaying_queue.py:126-130 *)
  Record pq := PQ {
    pq_heap : list entry;         (* self._pq *)
    pq_finder : dict A (Z * nat); (* self._entry_finder *)
    pq_count : nat;               (* self._counter *)
    pq_len : nat                  (* self._len *)
  }.
  Definition pq_init : pq := PQ [] [] 0 0.

  (** comparison of two entries: priority first, then count *)
  Definition entry_lt (e1 e2 : entry) : bool :=
    (e1.1.1 <? e2.1.1) || ((e1.1.1 =? e2.1.1) && (e1.1.2 <? e2.1.2)%nat).

  (** heapq.heappush *)
  Fixpoint heappush (e : entry) (h : list entry) : list entry :=
    match h with
    | [] => [e]
    | e' :: h' => if entry_lt e e' then e :: h else e' :: heappush e h'
    end.

  (** line 167, [entry[-1] = self._REMOVED] *)
  Definition tombstone (c : nat) (h : list entry) : list entry :=
    (λ e, if decide (e.1.2 = c) then (e.1, None) else e) <$> h.

  (** delaying_queue.py:163-169 [_remove]; [None] = returned False.  Called only
      when [data] is in the finder. *)
  Definition pq_remove (data : A) (old : Z * nat) (priority : Z) (s : pq) : option pq :=
    if old.1 >? priority
    then Some (PQ (tombstone old.2 (pq_heap s)) (ddel data (pq_finder s)) (pq_count s) (pq_len s))
    else None.

  (** lines 141-144 *)
  Definition pq_push (data : A) (priority : Z) (s : pq) : pq :=
    let count := pq_count s in
    PQ (heappush (priority, count, Some data) (pq_heap s))
       (dset data (priority, count) (pq_finder s)) (S count) (pq_len s).

  (** delaying_queue.py:135-144 [insert] *)
  Definition pq_insert (data : A) (priority : Z) (s : pq) : pq :=
    match dget data (pq_finder s) with
    | Some old =>
        match pq_remove data old priority s with
        | None => s
        | Some s' => pq_push data priority s'
        end
    | None => pq_push data priority (PQ (pq_heap s) (pq_finder s) (pq_count s) (S (pq_len s)))
    end.

  (** delaying_queue.py:146-152 [peek_priority]; [None] = KeyError *)
  Fixpoint peek_heap (h : list entry) : list entry * option Z :=
    match h with
    | [] => ([], None)
    | (p, c, Some d) :: h' => (h, Some p)
    | (_, _, None) :: h' => peek_heap h'
    end.
  Definition pq_peek (s : pq) : pq * option Z :=
    let '(h, r) := peek_heap (pq_heap s) in
    (PQ h (pq_finder s) (pq_count s) (pq_len s), r).

  (** delaying_queue.py:154-161 [pop]; [None] = KeyError *)
  Fixpoint pop_heap (h : list entry) : list entry * option A :=
    match h with
    | [] => ([], None)
    | (_, _, Some d) :: h' => (h', Some d)
    | (_, _, None) :: h' => pop_heap h'
    end.
  Definition pq_pop (s : pq) : pq * option A :=
    let '(h, r) := pop_heap (pq_heap s) in
    match r with
    | Some d => (PQ h (ddel d (pq_finder s)) (pq_count s) (pred (pq_len s)), Some d)
    | None => (PQ h (pq_finder s) (pq_count s) (pq_len s), None)
    end.

  Inductive pqop := PInsert (d : A) (p : Z) | PPeek | PPop | PLen.
  Inductive pqres := QNone | QPrio (p : Z) | QData (d : A) | QLen (n : nat) | QKeyError.

  Definition pqstep (s : pq) (o : pqop) : pq * pqres :=
    match o with
    | PInsert d p => (pq_insert d p s, QNone)
    | PPeek => let '(s', r) := pq_peek s in
               (s', match r with Some p => QPrio p | None => QKeyError end)
    | PPop => let '(s', r) := pq_pop s in
              (s', match r with Some d => QData d | None => QKeyError end)
    | PLen => (s, QLen (pq_len s))
    end.
End pq.
Arguments pq : clear implicits.
Arguments pqop : clear implicits.
Arguments pqres : clear implicits.
