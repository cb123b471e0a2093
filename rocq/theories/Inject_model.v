(** Model of the watches of controllers and of the injection of caches:
    aiok8s/controller/manager.py:32-41, aiok8s/controller/controller.py:25-42, 47-83,
    aiok8s/controller/source.py:24-37.

    Simplifications:
    - A manager is its number, and so is its cache (manager.py:20-22, 27).
    - Sources are [Kind]s.  Event handlers, predicates and reconcilers without inject_cache and
      inject_func, like those of this package, are not changed by set_fields and left out.
    - [watch] is one step: it suspends only to take the mutex (48).
    - source.start of a Kind suspends in get_informer and add_event_handler (32-33); the source is started
      in one step of the model, anywhere in between.  The cache's synchronization (65) is one step as well
      (Manager_model.v has more of it).
    - A start may end anywhere, by a cancellation or an exception. *)
From Verif Require Import Base.

(** one call of _Controller.start, 56-80 *)
Inductive sphase := SQueued | SSource (j : nat) | SSync | SWork | SEnd.
Record ictl := ICtl {
  i_func : nat;              (* set_fields: of this manager *)
  i_cache : nat;             (* cache *)
  i_watches : list nat;      (* _watches: their sources *)
  i_lock : option nat;       (* _mutex: the start that holds it *)
  i_runs : list sphase
}.
Record inj := Inj { n_kinds : list (option nat);   (* Kind._cache *) n_ctls : list ictl }.
Definition inj_init : inj := Inj [] [].

Inductive ilabel :=
| INewKind (k : nat) | INewCtl (c m : nat) | IAdd (m c : nat) | IWatch (c k : nat)
| IStart (c r : nat) | ILock (c r : nat) | ISource (c r k ca : nat) | ISourceFails (c r k : nat) | ISync (c r ca : nat) | IWork (c r : nat) | IEnd (c r : nat).

(** Kind.inject_cache, source.py:35-37 *)
Definition inject_cache (ca : nat) (o : option nat) : option nat := match o with None => Some ca | _ => o end.
Definition put_ctl (c : nat) (x : ictl) (s : inj) : inj := Inj (n_kinds s) (<[c:=x]> (n_ctls s)).
Definition with_run (r : nat) (p : sphase) (l : option nat) (x : ictl) : ictl := ICtl (i_func x) (i_cache x) (i_watches x) l (<[r:=p]> (i_runs x)).
Definition release (r : nat) (l : option nat) : option nat := match l with Some r' => if decide (r = r') then None else l | None => None end.

Inductive istep (s : inj) : ilabel → inj → Prop :=
(** source.py:25-27 *)
| i_new_kind : istep s (INewKind (length (n_kinds s))) (Inj (n_kinds s ++ [None]) (n_ctls s))
(** controller.new, controller.py:25-31; manager.add, manager.py:32-41 *)
| i_new_ctl m : istep s (INewCtl (length (n_ctls s)) m) (Inj (n_kinds s) (n_ctls s ++ [ICtl m m [] None []]))
(** manager.add of a controller there is, controller.py:82-83 *)
| i_add m c x : n_ctls s !! c = Some x →
    istep s (IAdd m c) (put_ctl c (ICtl m (i_cache x) (i_watches x) (i_lock x) (i_runs x)) s)
(** watch, controller.py:47-54; set_fields, manager.py:37-41 *)
| i_watch c k x o : n_ctls s !! c = Some x → n_kinds s !! k = Some o → i_lock x = None →
    istep s (IWatch c k) (Inj (<[k:=inject_cache (i_func x) o]> (n_kinds s))
      (<[c:=ICtl (i_func x) (i_cache x) (i_watches x ++ [k]) (i_lock x) (i_runs x)]> (n_ctls s)))
(** start, controller.py:56-57 *)
| i_start c x : n_ctls s !! c = Some x →
    istep s (IStart c (length (i_runs x))) (put_ctl c (ICtl (i_func x) (i_cache x) (i_watches x) (i_lock x) (i_runs x ++ [SQueued])) s)
(** 59 *)
| i_lock_step c r x : n_ctls s !! c = Some x → i_runs x !! r = Some SQueued → i_lock x = None →
    istep s (ILock c r) (put_ctl c (with_run r (SSource 0) (Some r) x) s)
(** 60-63; source.py:29-33 *)
| i_source c r j k ca x : n_ctls s !! c = Some x → i_runs x !! r = Some (SSource j) → i_watches x !! j = Some k → n_kinds s !! k = Some (Some ca) →
    istep s (ISource c r k ca) (put_ctl c (with_run r (SSource (S j)) (i_lock x) x) s)
| i_source_fails c r j k x : n_ctls s !! c = Some x → i_runs x !! r = Some (SSource j) → i_watches x !! j = Some k → n_kinds s !! k = Some None →
    istep s (ISourceFails c r k) (put_ctl c (with_run r SEnd (release r (i_lock x)) x) s)
(** 65: wait_for_cache_sync of the controller's cache *)
| i_sync c r j x : n_ctls s !! c = Some x → i_runs x !! r = Some (SSource j) → i_watches x !! j = None →
    istep s (ISync c r (i_cache x)) (put_ctl c (with_run r SSync (i_lock x) x) s)
(** 68-77: the workers are made and the mutex is released *)
| i_work c r x : n_ctls s !! c = Some x → i_runs x !! r = Some SSync →
    istep s (IWork c r) (put_ctl c (with_run r SWork (release r (i_lock x)) x) s)
(** 79-80 *)
| i_end c r p x : n_ctls s !! c = Some x → i_runs x !! r = Some p →
    istep s (IEnd c r) (put_ctl c (with_run r SEnd (release r (i_lock x)) x) s).
