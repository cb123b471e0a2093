(** Model of the heap of aiok8s/workqueue/delaying_queue.py, class [_WaitForPriorityQueue] (lines 123-169), as the
    standard library lays it out: heapq.heappush and heappop (CPython Lib/heapq.py, which _heapq.c follows
    comparison by comparison).  WaitPQ_model.v has a sorted list instead.

    - [lt] is [<] of the elements; it answers [None] if it raises.
    - [_siftdown] is called with startpos 0 only.
    - A list index that heapq reads is always within the list; the branches for others answer [None], too.
    - The loops are structural in a number of rounds; the callers give as many as there can be. *)
From Verif Require Import Base WaitPQ_model.
From Coq Require Import ZArith.
Local Open Scope nat_scope.

Section heapq.
  Context {E : Type} (lt : E → E → option bool).
  (** [(pos - 1) >> 1] *)
  Definition parent (i : nat) : nat := (i - 1) / 2.

  (** [_siftdown]: the loop, with [newitem]; [heap[pos] = newitem] at its end *)
  Fixpoint siftdown (n : nat) (new : E) (h : list E) (pos : nat) : option (list E) :=
    match n with
    | 0 => Some (<[pos:=new]> h)
    | S n =>
        if decide (pos = 0) then Some (<[pos:=new]> h)
        else match h !! parent pos with
             | None => None
             | Some p => match lt new p with
                         | None => None
                         | Some true => siftdown n new (<[pos:=p]> h) (parent pos)
                         | Some false => Some (<[pos:=new]> h)
                         end
             end
    end.
  (** [_siftup]: the loop *)
  Fixpoint siftup (n : nat) (h : list E) (pos : nat) : option (list E * nat) :=
    match n with
    | 0 => Some (h, pos)
    | S n =>
        match h !! (2 * pos + 1) with
        | None => Some (h, pos)
        | Some l =>
            match h !! (2 * pos + 2) with
            | None => siftup n (<[pos:=l]> h) (2 * pos + 1)
            | Some r => match lt l r with
                        | None => None
                        | Some true => siftup n (<[pos:=l]> h) (2 * pos + 1)
                        | Some false => siftup n (<[pos:=r]> h) (2 * pos + 2)
                        end
            end
        end
    end.
  (** [heappush] *)
  Definition hpush (e : E) (h : list E) : option (list E) := siftdown (length h) e (h ++ [e]) (length h).
  (** [heappop]; the list is not empty *)
  Definition hpop (h : list E) : option (E * list E) :=
    match last h, removelast h with
    | None, _ => None
    | Some l, [] => Some (l, [])
    | Some l, (x :: _) as h1 =>
        match siftup (length h1) (<[0:=l]> h1) 0 with
        | None => None
        | Some (h2, pos) => match siftdown pos l h2 pos with Some h3 => Some (x, h3) | None => None end
        end
    end.
End heapq.

Section hpq.
  Context {A : Type} `{EqDecision A}.
  Notation entry := (Z * nat * option A)%type.
  (** [<] of two lists [[priority, count, data]]: the first of their elements that differ decides; data are
      not compared with [<] by the model *)
  Definition list_lt (e1 e2 : entry) : option bool :=
    if decide (e1.1.1 = e2.1.1) then
      if decide (e1.1.2 = e2.1.2) then None else Some (bool_decide (e1.1.2 < e2.1.2))
    else Some (bool_decide (e1.1.1 < e2.1.1)%Z).

  (** delaying_queue.py:126-130; the fields are those of WaitPQ_model.v, the heap is in the order of heapq *)
  Inductive hres := HOk (r : pqres A) | HRaise.

  (** 141-144 *)
  Definition h_push (data : A) (priority : Z) (s : pq A) : option (pq A) :=
    match hpush list_lt (priority, pq_count s, Some data) (pq_heap s) with
    | Some h => Some (PQ h (dset data (priority, pq_count s) (pq_finder s)) (S (pq_count s)) (pq_len s))
    | None => None
    end.
  (** 135-144 *)
  Definition h_insert (data : A) (priority : Z) (s : pq A) : option (pq A) :=
    match dget data (pq_finder s) with
    | Some old => match pq_remove data old priority s with None => Some s | Some s' => h_push data priority s' end
    | None => h_push data priority (PQ (pq_heap s) (pq_finder s) (pq_count s) (S (pq_len s)))
    end.
  (** 146-152: the loop; [Some (h, None)] = KeyError, [None] = a comparison raised *)
  Fixpoint h_peek (n : nat) (h : list entry) : option (list entry * option Z) :=
    match n, h with
    | _, [] => Some ([], None)
    | _, (p, _, Some _) :: _ => Some (h, Some p)
    | 0, _ => None
    | S n, _ => match hpop list_lt h with Some (_, h') => h_peek n h' | None => None end
    end.
  (** 154-161: the loop *)
  Fixpoint h_pop (n : nat) (h : list entry) : option (list entry * option A) :=
    match n, h with
    | _, [] => Some ([], None)
    | 0, _ => None
    | S n, _ => match hpop list_lt h with
                | Some ((_, _, Some d), h') => Some (h', Some d)
                | Some ((_, _, None), h') => h_pop n h'
                | None => None
                end
    end.
  Definition hstep (s : pq A) (o : pqop A) : pq A * hres :=
    match o with
    | PInsert d p => match h_insert d p s with Some s' => (s', HOk QNone) | None => (s, HRaise) end
    | PPeek => match h_peek (length (pq_heap s)) (pq_heap s) with
               | Some (h, r) => (PQ h (pq_finder s) (pq_count s) (pq_len s), HOk match r with Some p => QPrio p | None => QKeyError end)
               | None => (s, HRaise)
               end
    | PPop => match h_pop (length (pq_heap s)) (pq_heap s) with
              | Some (h, Some d) => (PQ h (ddel d (pq_finder s)) (pq_count s) (pred (pq_len s)), HOk (QData d))
              | Some (h, None) => (PQ h (pq_finder s) (pq_count s) (pq_len s), HOk QKeyError)
              | None => (s, HRaise)
              end
    | PLen => (s, HOk (QLen (pq_len s)))
    end.
End hpq.
Arguments hres : clear implicits.
