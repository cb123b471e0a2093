(** Model of the fake API source: aiok8s/cache/testing/fake_controller_source.py:24-114.

    - Objects are Python objects, numbered; [keyof r] is the identity of object r
      (namespace, name, uid; 94-96), which nobody changes.  An object holds a value and
      a resource version, 0 if none was set.  A caller edits an object only along
      with a change: [FChange ty r v d] sets object r to v and passes it to change.
      The same object may be passed to several changes.
    - [d] says that random.random() was not below watch_probability (62).
    - The stream of a watcher has the copies made for it (79-83), then references to the
      objects broadcast later.  That the broadcaster loses and reorders nothing, and that
      a watcher sees what is broadcast after it was made, is C56 (Mux_props.v).
    - The lock (30) is held throughout each of the methods, which are single steps here;
      overlapping and cancelled calls and shutdown (90-92), which keeps the lock, are in AsyncLock_model. *)
From Verif Require Import Base.

(** watch/watch.py:21-26 *)
Inductive ety := EAdded | EModified | EDeleted | EOther.

Section fake.
  Context {K V : Type} `{EqDecision K} (keyof : nat → K).

  (** an object's value and resource version; and with its identity, as a copy *)
  Local Notation cell := (V * nat)%type.
  Record copy := Copy { cp_key : K; cp_cell : cell }.
  Inductive wevent := WCopy (ty : ety) (c : copy) | WRef (ty : ety) (r : nat).
  Record fsrc := FS {
    f_heap : dict nat cell;
    f_items : dict K nat;             (* 26 *)
    f_changes : list (ety * nat);     (* 31 *)
    f_watchers : list (list wevent)
  }.
  Definition f_init : fsrc := FS [] [] [] [].

  Inductive fop := FChange (ty : ety) (r : nat) (v : V) (dropped : bool) | FList | FWatch (rc : Z).
  Inductive fres := FDone | FKeyError | FListed (objs : list copy) (rv : nat) | FWatching (w : nat) | FFuture.

  (** copy.deepcopy *)
  Definition deref (h : dict nat cell) (r : nat) : option copy := Copy (keyof r) <$> dget r h.
  Definition copies {X} (f : X → nat) (g : X → copy → wevent) (h : dict nat cell) (l : list X) : list wevent :=
    omap (λ x, g x <$> deref h (f x)) l.

  (** 51-63 *)
  Definition fchange (ty : ety) (r : nat) (v : V) (dropped : bool) (s : fsrc) : fsrc * fres :=
    let rv := S (length (f_changes s)) in
    let h := dset r (v, rv) (f_heap s) in
    let changes := f_changes s ++ [(ty, r)] in
    let k := keyof r in
    let ws := if dropped then f_watchers s else (λ w, w ++ [WRef ty r]) <$> f_watchers s in
    match ty with
    | EAdded | EModified => (FS h (dset k r (f_items s)) changes ws, FDone)
    | EDeleted =>
        match dget k (f_items s) with
        | None => (FS h (f_items s) changes (f_watchers s), FKeyError)
        | Some _ => (FS h (ddel k (f_items s)) changes ws, FDone)
        end
    | EOther => (FS h (f_items s) changes ws, FDone)
    end.
  (** 65-73, 98-99 *)
  Definition flist (s : fsrc) : fres := FListed (omap (deref (f_heap s)) (dvals (f_items s))) (length (f_changes s)).
  (** [l[rc:]] *)
  Definition slice {X} (rc : Z) (l : list X) : list X :=
    drop (Z.to_nat (if (rc <? 0)%Z then (Z.of_nat (length l) + rc)%Z else rc)) l.
  (** 75-88 *)
  Definition fwatch (rc : Z) (s : fsrc) : fsrc * fres :=
    let n := Z.of_nat (length (f_changes s)) in
    let add evs := (FS (f_heap s) (f_items s) (f_changes s) (f_watchers s ++ [evs]), FWatching (length (f_watchers s))) in
    if (rc <? n)%Z then add (copies snd (λ x c, WCopy x.1 c) (f_heap s) (slice rc (f_changes s)))
    else if (n <? rc)%Z then (s, FFuture)
    else add [].

  Definition fstep (s : fsrc) (o : fop) : fsrc * fres :=
    match o with
    | FChange ty r v d => fchange ty r v d s
    | FList => (s, flist s)
    | FWatch rc => fwatch rc s
    end.
End fake.
Arguments copy : clear implicits.
Arguments wevent : clear implicits.
Arguments fsrc : clear implicits.
Arguments fop : clear implicits.
Arguments fres : clear implicits.
