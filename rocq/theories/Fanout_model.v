(** Model of the listeners of a shared informer together: _SharedProcessor, aiok8s/cache/shared_informer.py:239-266
    and 280-289, with the two callers of _ProcessListener._add (312-314): _distribute (259-266), called by
    handle_deltas with _block_deltas held (176-202), and add_event_handler (119-132), which holds it as well once
    the informer was started.

    - A listener is that of Listener_model.v.
    - The holder of _block_deltas has a list of calls of _add it still has to make, one after the other
      ([f_job]); a call stays at its head until it returns (join, 314).
    - A handler is registered with the objects there are (any list); with none, before the start.
    - _should_resync (280-289) replaces the list of syncing listeners, which a _distribute under way has read
      already; which listeners are due is not determined here (SharedInformer_model.v has it).
    - The informer is not stopped (InformerStop_model.v has it). *)
From Verif Require Import Base Listener_model.

Section fanout.
  Context {N : Type}.
  Record fan := Fan {
    f_ls : list (lis N);        (* _listeners *)
    f_sync : list nat;          (* _syncing_listeners *)
    f_job : list (nat * N)      (* calls of _add to be made: listener and notification *)
  }.
  Definition fan_init : fan := Fan [] [] [].
  Inductive flabel := FRegister (items : list N) | FDistribute (n : N) (sync : bool) | FResync (due : list nat) | FLis (i : nat) (l : llabel N).
  (** the steps of a listener that depend on nothing else *)
  Definition inner (l : llabel N) : bool := match l with LAdd _ | LJoined | LAddCancel | LStop => false | _ => true end.

  Inductive fstep : fan → flabel → fan → Prop :=
  (** add_event_handler, 125-132; _add_listener, 248-257 *)
  | f_register ls sy items : fstep (Fan ls sy []) (FRegister items) (Fan (ls ++ [lis_init]) (sy ++ [length ls]) ((λ n, (length ls, n)) <$> items))
  (** _distribute, 259-266 *)
  | f_distribute ls sy n (sync : bool) : fstep (Fan ls sy []) (FDistribute n sync) (Fan ls sy ((λ i, (i, n)) <$> (if sync then sy else seq 0 (length ls))))
  (** _should_resync, 280-289 *)
  | f_resync ls sy job due : due `sublist_of` seq 0 (length ls) → fstep (Fan ls sy job) (FResync due) (Fan ls due job)
  (** _add, 312-314 *)
  | f_add ls sy i n job l l' : ls !! i = Some l → lstep l (LAdd n) l' → fstep (Fan ls sy ((i, n) :: job)) (FLis i (LAdd n)) (Fan (<[i:=l']> ls) sy ((i, n) :: job))
  | f_joined ls sy i n job l l' : ls !! i = Some l → lstep l LJoined l' → fstep (Fan ls sy ((i, n) :: job)) (FLis i LJoined) (Fan (<[i:=l']> ls) sy job)
  (** its put, and the tasks of the listeners *)
  | f_lis ls sy job i l lab l' : ls !! i = Some l → inner lab = true → lstep l lab l' → fstep (Fan ls sy job) (FLis i lab) (Fan (<[i:=l']> ls) sy job).
End fanout.
Arguments fan : clear implicits.
Arguments flabel : clear implicits.
