(** Specification of the event handlers: C64-C66. *)
From Verif Require Import Base KeyFunc_model KeyFunc_spec DeltaFifo_model Informer_model Source_model.
From Coq Require Import Strings.String.
From stdpp Require Import strings.

(** the object has readable metadata *)
Definition has_meta (o : pyobj) : Prop := (∃ m x, o = Typed (Some m) x) ∨ ∃ d x, o = Unstructured (Some d) x.

(** the event a notification is turned into *)
Inductive event_of : notif pystr pyobj → event → Prop :=
| eo_add o m b : accessor o = Some m → event_of (NAdd (DObj o) b) (CreateEvent m o)
| eo_update o1 m1 o2 m2 b : accessor o1 = Some m1 → accessor o2 = Some m2 →
    event_of (NUpdate (DObj o1) (DObj o2) b) (UpdateEvent m1 o1 m2 o2)
| eo_delete o m : accessor o = Some m → event_of (NDelete (DObj o)) (DeleteEvent m o).

(** the objects a notification is about *)
Definition objects (n : notif pystr pyobj) : list (dobj pystr pyobj) :=
  match n with NAdd o _ | NDelete o => [o] | NUpdate o1 o2 _ => [o1; o2] end.

(** all requests put on the queue for a sequence of notifications *)
Definition feed (ps : list epred) (ns : list (notif pystr pyobj)) : list nsname := ns ≫= (λ n, o_adds (on_notif ps n)).
(** the key of an object in the informer's queue (shared_informer.py:136) *)
Definition queue_key (o : pyobj) : option pystr := match meta_namespace_key_func o with Key k => Some k | _ => None end.
(** the object has no name or no namespace to read *)
Definition nameless (o : dobj pystr pyobj) : Prop := ∀ o' ns name, o = DObj o' → ¬ named o' ns name.
