(** Model of aiok8s/cache/delta_fifo.py, class [DeltaFIFO], called with [Deltas]
    lists where objects are expected, as [key_of] (lines 179-186) allows.

    Nothing in DeltaFifo_model.v looks at an object other than through the key
    function and [isinstance(…, DeletedFinalStateUnknown)] (line 284), and a Deltas
    list is not a DeletedFinalStateUnknown.  So the queue called with lists is the
    queue of DeltaFifo_model.v over objects that may be lists, with the key
    function below.
    [keyf] is what the constructor's key function does with an object, [keyl] what
    it does with a Deltas list ([None]: it raises, as meta_namespace_key_func does,
    store.py:29-35).  A list is taken as it is at the time of the call. *)
From Verif Require Import Base DeltaFifo_model.

Section arg.
  Context {K O : Type}.
  (** what a caller may pass, next to DeletedFinalStateUnknown: an object, or Deltas *)
  Inductive arg := AObj (o : O) | ADeltas (ds : list (dtype * dobj K arg)).

  (** key_of, 179-186, but for what [key_of] of DeltaFifo_model.v has already done.
      182: StoreKeyError if the list is empty; 183 the newest object; 184-185 it may be
      a DeletedFinalStateUnknown; 186 the key function *)
  Definition arg_key (keyf : O → option K) (keyl : list (dtype * dobj K arg) → option K) (a : arg) : option K :=
    match a with
    | AObj o => keyf o
    | ADeltas ds => match last ds with
                    | None => None
                    | Some (_, DTomb k _) => Some k
                    | Some (_, DObj (AObj o)) => keyf o
                    | Some (_, DObj (ADeltas ds')) => keyl ds'
                    end
    end.
End arg.
Arguments arg : clear implicits.
