(** Model of the store of aiok8s/cache/store.py and thread_safe_store.py holding
    objects by reference, as Python does.

    Nothing copies an object on its way in or out: [add] keeps the object it was
    given (thread_safe_store.py:35, 41 and 65), [get], [list] and the index
    queries return the objects kept (lines 55, 58, 83 and 105), the cache reader
    passes them on (controller/_cache_reader.py:21-26), and shared_informer.py
    passes them to the handlers.  So whoever got or stored an object can edit it
    in place while it is in the store.  The calls are those of Store_model over
    references; the key and index functions read the object a reference points
    to at the time of the call.  An edit may put any contents into any object.
    The index functions are those given at the start: C35 shows that
    [add_indexers] accepts none. *)
From Verif Require Import Base Store_model.

Section alias.
  Context {K R O V N : Type} `{EqDecision K} `{EqDecision R} `{EqDecision V} `{EqDecision N}.
  Context (keyf : O → option K) (fs : dict N (index_func O V)).

  (** the objects, what the store keeps, and its indices *)
  Record astate := AState { a_heap : R → O; a_items : dict K R; a_indices : dict N (dict V (list K)) }.
  (** store.py:37-47 *)
  Definition alias_init (hp : R → O) : astate := AState hp [] [].

  (** [obj.field = ...] in whoever holds the object *)
  Definition edit (r : R) (o : O) (hp : R → O) : R → O := λ r', if decide (r' = r) then o else hp r'.
  (** the key function and the index functions, on references *)
  Definition akey (hp : R → O) (r : R) : option K := keyf (hp r).
  Definition aindexers (hp : R → O) : dict N (index_func R V) := (λ p, (p.1, λ r, p.2 (hp r))) <$> fs.
  (** the store of Store_model a call finds *)
  Definition astore (s : astate) : store K R V N := Store (a_items s) (aindexers (a_heap s)) (a_indices s).

  Inductive aop := ACall (c : sop K R V N) | AEdit (r : R) (o : O).
  Definition astep (s : astate) (c : aop) : astate * sres K R V N :=
    match c with
    | ACall c => let '(t, r) := sstep (akey (a_heap s)) (astore s) c in (AState (a_heap s) (s_items t) (s_indices t), r)
    | AEdit r o => (AState (edit r o (a_heap s)) (a_items s) (a_indices s), SNone)
    end.
End alias.
Arguments astate : clear implicits.
Arguments aop : clear implicits.
