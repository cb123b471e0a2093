(** Model of aiok8s/workqueue/queue.py, class [Type] (lines 28-77).

    Items are values of any type with decidable equality (Python requires them
    hashable).  Every method body runs under [async with self._cond] and does
    not suspend while holding it, so each call is one atomic step; the only
    suspension is [self._cond.wait()] inside [get] (line 56), modelled by the
    result [RBlocked] here and by an explicit waiter pool in WorkQueueSched.v. *)
From Verif Require Import Base.

(** What a method asks of the condition variable. *)
Inductive notif := NoNotify | NotifyOne | NotifyAll.
#[global] Instance notif_eq_dec : EqDecision notif.
Proof. solve_decision. Defined.

Section wq.
  Context {A : Type} `{EqDecision A}.

  (** queue.py:29-36 [__init__]; the clock and update period are never used by
      this class and are left out. *)
  Record wq := WQ {
    wq_dirty : list A;   (* self._dirty, a set *)
    wq_proc : list A;    (* self._processing, a set *)
    wq_queue : list A;   (* self._queue, a deque *)
    wq_down : bool       (* self._shutting_down *)
  }.
  Definition wq_init : wq := WQ [] [] [] false.

  (** queue.py:38-39 [__len__] *)
  Definition wq_len (q : wq) : nat := length (wq_queue q).

  (** queue.py:41-51 [add] *)
  Definition wq_add (x : A) (q : wq) : wq * notif :=
    if wq_down q then (q, NoNotify)
    else if decide (x ∈ wq_dirty q) then (q, NoNotify)
    else
      let q1 := WQ (sadd x (wq_dirty q)) (wq_proc q) (wq_queue q) (wq_down q) in
      if decide (x ∈ wq_proc q1) then (q1, NoNotify)
      else (WQ (wq_dirty q1) (wq_proc q1) (wq_queue q1 ++ [x]) (wq_down q1), NotifyOne).

  (** queue.py:53-62 [get]: [GetWait] means [self._cond.wait()] is executed. *)
  Inductive get_res := GetWait | GetShutdown | GetItem (x : A).
  Definition wq_get (q : wq) : wq * get_res :=
    match wq_queue q with
    | [] => if wq_down q then (q, GetShutdown) else (q, GetWait)
    | x :: rest => (WQ (srem x (wq_dirty q)) (sadd x (wq_proc q)) rest (wq_down q), GetItem x)
    end.

  (** queue.py:64-69 [done]; [None] is the KeyError of [set.remove] (line 66). *)
  Definition wq_done (x : A) (q : wq) : option (wq * notif) :=
    if decide (x ∈ wq_proc q) then
      let q1 := WQ (wq_dirty q) (srem x (wq_proc q)) (wq_queue q) (wq_down q) in
      if decide (x ∈ wq_dirty q1)
      then Some (WQ (wq_dirty q1) (wq_proc q1) (wq_queue q1 ++ [x]) (wq_down q1), NotifyOne)
      else Some (q1, NoNotify)
    else None.

  (** queue.py:71-74 [shut_down] *)
  Definition wq_shut_down (q : wq) : wq * notif :=
    (WQ (wq_dirty q) (wq_proc q) (wq_queue q) true, NotifyAll).

  (** The four calls and their observable results. *)
  Inductive wop := Add (x : A) | Get | Done (x : A) | ShutDown.
  Inductive wres := RNone | RItem (x : A) | RShutdown | RBlocked | RKeyError.

  Definition wstep (q : wq) (o : wop) : wq * wres :=
    match o with
    | Add x => ((wq_add x q).1, RNone)
    | Get => let '(q', g) := wq_get q in
             (q', match g with GetWait => RBlocked | GetShutdown => RShutdown | GetItem x => RItem x end)
    | Done x => match wq_done x q with
                | Some (q', _) => (q', RNone)
                | None => (q, RKeyError)
                end
    | ShutDown => ((wq_shut_down q).1, RNone)
    end.
End wq.
Arguments wq : clear implicits.
Arguments wop : clear implicits.
Arguments wres : clear implicits.
Arguments get_res : clear implicits.

#[global] Instance wop_eq_dec {A} `{EqDecision A} : EqDecision (wop A).
Proof. solve_decision. Defined.
#[global] Instance wres_eq_dec {A} `{EqDecision A} : EqDecision (wres A).
Proof. solve_decision. Defined.
