(** Model of the informer cache: aiok8s/controller/_informers_map.py:29-84
    ([_SpecificInformersMap]), _deleg_map.py, cache.py:30-59, and
    _informers_map.py:103-104 ([_resync_period]).

    - G is the type of group-version-kinds.  Informers are numbered in the order
      of their creation.
    - The pieces of [get] (52-66): [IRead] is the block under the mutex, [IAdd] the
      rest up to the wait, [IWake] the end of the wait.  That [IRead] and [IAdd] may be
      interleaved with others is more than asyncio does, as the mutex is never
      held across a suspension.
    - [start] (38-44) is one step, [IStart], that schedules a run of every informer;
      each begins later ([IBegin]), with a new controller that has not synced
      (shared_informer.py:134-148).
    - An informer can become synced at any time once its run began ([ISync], see
      Informer_props.v, C50), and then is until the next begin.  One that was not
      run has no controller and is not synced (shared_informer.py:161-162).
    - wait_for_cache_sync (shared_informer.py:43-56) does not end before the
      informer is synced; has_synced does not raise, so it answers True.
    - The creation of an informer does not fail. *)
From Verif Require Import Base.
From Coq Require Import QArith.

(** _informers_map.py:103-104; [r] is what random.random() answers *)
Definition resync_period (resync r : Q) : Q := resync * (r / 5 * (9 # 10)).

(** an informer: its number, the runs scheduled and begun, has_synced() *)
Record minf := MInf { mi_id : nat; mi_todo : nat; mi_runs : nat; mi_synced : bool }.

Section imap.
  Context {G : Type} `{EqDecision G}.

  (** a call of get *)
  Inductive gphase :=
  | GLook (g : G)                                       (* 53 *)
  | GFound (g : G) (found : option nat) (started : bool)  (* 57 *)
  | GWait (g : G) (id : nat)                            (* 61 *)
  | GDone (g : G) (id : nat) (started : bool)           (* 66 *)
  | GCancelled.
  (** 30-36 *)
  Record imap := IM {
    im_infs : dict G minf;      (* _informers_by_gvk *)
    im_started : bool;
    im_next : nat;
    im_gets : list gphase
  }.
  Definition im_init : imap := IM [] false 0%nat [].

  Inductive ilabel :=
  | IGet (g : G) | IRead (r : nat) | IAdd (r : nat) (g : G) (created : bool) | IWake (r : nat) | ICancel (r : nat)
  | IStart | IBegin (g : G) | ISync (g : G).

  Definition set_get (r : nat) (p : gphase) (s : imap) : imap :=
    IM (im_infs s) (im_started s) (im_next s) (<[r:=p]> (im_gets s)).
  (** 57-58 and 68-84: the map, the next number, the informer and whether it is new *)
  Definition find_or_add (g : G) (found : option nat) (s : imap) : dict G minf * nat * nat * bool :=
    match found with
    | Some id => (im_infs s, im_next s, id, false)
    | None =>
        match dget g (im_infs s) with
        | Some i => (im_infs s, im_next s, mi_id i, false)
        | None => (dset g (MInf (im_next s) 0%nat 0%nat false) (im_infs s), S (im_next s), im_next s, true)
        end
    end.
  Definition synced (g : G) (infs : dict G minf) : bool := match dget g infs with Some i => mi_synced i | None => false end.
  (** 60-66 *)
  Definition after_find (g : G) (id : nat) (started : bool) (infs : dict G minf) : gphase :=
    if started && negb (synced g infs) then GWait g id else GDone g id started.
  (** 40-43 *)
  Definition run_all (infs : dict G minf) : dict G minf := prod_map id (λ i, MInf (mi_id i) (S (mi_todo i)) (mi_runs i) (mi_synced i)) <$> infs.

  Inductive imstep (s : imap) : ilabel → imap → Prop :=
  | im_get g : imstep s (IGet g) (IM (im_infs s) (im_started s) (im_next s) (im_gets s ++ [GLook g]))
  | im_read r g : im_gets s !! r = Some (GLook g) →
      imstep s (IRead r) (set_get r (GFound g (mi_id <$> dget g (im_infs s)) (im_started s)) s)
  | im_add r g found st infs next id c : im_gets s !! r = Some (GFound g found st) → find_or_add g found s = (infs, next, id, c) →
      imstep s (IAdd r g c) (IM infs (im_started s) next (<[r:=after_find g id st infs]> (im_gets s)))
  | im_wake r g id : im_gets s !! r = Some (GWait g id) → synced g (im_infs s) = true → imstep s (IWake r) (set_get r (GDone g id true) s)
  | im_cancel r p : im_gets s !! r = Some p → (∀ g id st, p ≠ GDone g id st) → imstep s (ICancel r) (set_get r GCancelled s)
  | im_start : imstep s IStart (IM (run_all (im_infs s)) true (im_next s) (im_gets s))
  | im_begin g i n : dget g (im_infs s) = Some i → mi_todo i = S n →
      imstep s (IBegin g) (IM (dset g (MInf (mi_id i) n (S (mi_runs i)) false) (im_infs s)) (im_started s) (im_next s) (im_gets s))
  | im_sync g i : dget g (im_infs s) = Some i → mi_runs i ≠ 0%nat →
      imstep s (ISync g) (IM (dset g (MInf (mi_id i) (mi_todo i) (mi_runs i) true) (im_infs s)) (im_started s) (im_next s) (im_gets s)).

  (** cache.py:34-39, once the map's get returned; [get_by_key]: what the reader's
      indexer answers for the key (_cache_reader.py:21-26) *)
  Inductive cres (O : Type) := CNotStarted | CKeyError | CObject (o : O).
  Definition cache_get {O} (started : bool) (get_by_key : option O) : cres O :=
    if negb started then CNotStarted O else match get_by_key with Some o => CObject O o | None => CKeyError O end.
End imap.
Arguments gphase : clear implicits.
Arguments imap : clear implicits.
Arguments ilabel : clear implicits.
