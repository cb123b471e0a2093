(** Model of the event handlers between the informers and the controller's
    queue: aiok8s/controller/source.py:40-93 ([EventHandler]),
    aiok8s/controller/handler.py ([EnqueueRequestForObject]),
    aiok8s/controller/event.py and aiok8s/api/meta.py:37-43, 99-134, over the
    Python objects of KeyFunc_model.v.

    - A predicate is any object with methods create, update and delete; a call
      answers something true, something false, or raises.
    - queue.add (workqueue/queue.py:41-51) only suspends for the lock of its
      condition and cannot fail; the result here lists the calls in order.
    - Every accessor object is true (no __bool__ or __len__ in meta.py), so the
      "no metadata" branches of handler.py:24-26, 44-45, 55-56, 59-61 are never taken.
    - Logging has no effect. *)
From Verif Require Import Base KeyFunc_model Informer_model DeltaFifo_model.
From Coq Require Import Strings.String.
From stdpp Require Import strings.
Local Open Scope string_scope.

(** meta.py:99-101 and 124-126: what an accessor remembers *)
Inductive pymeta := MTyped (m : option (pystr * pystr)) | MDict (d : dict string pystr).
(** meta.py:37-43; [None]: _NotObjectError *)
Definition accessor (o : pyobj) : option pymeta :=
  match o with
  | Typed (Some m) _ => Some (MTyped m)
  | Unstructured (Some d) _ => Some (MDict d)
  | Typed None _ | Unstructured None _ | ExplicitKey _ | Tombstone _ _ | Other => None
  end.
(** meta.py:103-109 and 128-134; [None]: AttributeError or KeyError *)
Definition meta_namespace (m : pymeta) : option pystr :=
  match m with MTyped m => fst <$> m | MDict d => dget "namespace" d end.
Definition meta_name (m : pymeta) : option pystr :=
  match m with MTyped m => snd <$> m | MDict d => dget "name" d end.

(** event.py *)
Inductive event :=
| CreateEvent (m : pymeta) (o : pyobj)
| UpdateEvent (meta_old : pymeta) (object_old : pyobj) (meta_new : pymeta) (object_new : pyobj)
| DeleteEvent (m : pymeta) (o : pyobj).

(** reconcile.Request of a metadata, handler.py:28-32, 38-42, 49-53, 63-67: name, then namespace *)
Definition request (m : pymeta) : option nsname :=
  match meta_name m with
  | None => None
  | Some name => match meta_namespace m with None => None | Some ns => Some (NsName ns name) end
  end.
(** handler.py: the requests added and whether an exception came out *)
Definition enqueue_one (m : pymeta) : list nsname * bool :=
  match request m with Some r => ([r], false) | None => ([], true) end.
Definition enqueue (e : event) : list nsname * bool :=
  match e with
  | CreateEvent m _ | DeleteEvent m _ => enqueue_one m
  | UpdateEvent m1 _ m2 _ =>
      match enqueue_one m1 with
      | (l, true) => (l, true)
      | (l, false) => let '(l', b) := enqueue_one m2 in ((l ++ l')%list, b)
      end
  end.

Inductive pres := PTrue | PFalse | PRaise.
Definition epred := event → pres.

(** what a call of on_add, on_update or on_delete comes to *)
Record outcome := Outcome {
  o_asked : list event;          (* calls of predicates, in order, each with this event *)
  o_handled : option event;      (* the call of event_handler *)
  o_adds : list nsname;          (* its calls of queue.add *)
  o_raised : bool
}.
Definition dropped : outcome := Outcome [] None [] false.

(** source.py:53-57, 75-79, 89-93: the loop over the predicates and the handler *)
Fixpoint gate (ps : list epred) (e : event) : outcome :=
  match ps with
  | [] => let '(l, b) := enqueue e in Outcome [] (Some e) l b
  | p :: ps =>
      match p e with
      | PRaise => Outcome [e] None [] true
      | PFalse => Outcome [e] None [] false
      | PTrue => let r := gate ps e in Outcome (e :: o_asked r) (o_handled r) (o_adds r) (o_raised r)
      end
  end.

(** source.py:45-57 *)
Definition on_add (ps : list epred) (o : pyobj) : outcome :=
  match accessor o with None => dropped | Some m => gate ps (CreateEvent m o) end.
(** source.py:59-79 *)
Definition on_update (ps : list epred) (old new : pyobj) : outcome :=
  match accessor old with
  | None => dropped
  | Some m1 => match accessor new with None => dropped | Some m2 => gate ps (UpdateEvent m1 old m2 new) end
  end.
(** source.py:81-93 *)
Definition on_delete (ps : list epred) (o : pyobj) : outcome :=
  match accessor o with None => dropped | Some m => gate ps (DeleteEvent m o) end.

(** the notifications of an informer (shared_informer.py:371-390), with the
    queue's DeletedFinalStateUnknown as Python objects *)
Fixpoint as_object (o : dobj pystr pyobj) : pyobj :=
  match o with
  | DObj o => o
  | DTomb k (Some o) => Tombstone k (as_object o)
  | DTomb k None => Tombstone k Other       (* obj is None *)
  end.
Definition on_notif (ps : list epred) (n : notif pystr pyobj) : outcome :=
  match n with
  | NAdd o _ => on_add ps (as_object o)
  | NUpdate old new _ => on_update ps (as_object old) (as_object new)
  | NDelete o => on_delete ps (as_object o)
  end.
