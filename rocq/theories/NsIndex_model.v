(** Model of the namespace index, aiok8s/cache/index.py, as the informers use it
    (aiok8s/controller/_informers_map.py).  The store itself is Store_model, the
    objects and the key function are those of KeyFunc_model. *)
From Verif Require Import Base KeyFunc_model Store_model.
From Coq Require Import Strings.String.
From stdpp Require Import strings.
Local Open Scope string_scope.

(** index.py:21-23 with meta.py:37-43, 103-105 and 128-130; [None]: an exception,
    whose kind does not matter here.  An ExplicitKey is a string without metadata. *)
Definition meta_namespace_index_func : index_func pyobj pystr := λ o,
  match o with
  | Typed (Some (Some (ns, _))) _ => Some [ns]
  | Unstructured (Some d) _ => match dget "namespace" d with Some ns => Some [ns] | None => None end
  | Typed None _ | Typed (Some None) _ | Unstructured None _ | ExplicitKey _ | Tombstone _ _ | Other => None
  end.
(** _informers_map.py:74-76, index.py:18 *)
Definition informer_indexers : dict string (index_func pyobj pystr) := [("namespace", meta_namespace_index_func)].
(** shared_informer.py:34-36: the key function is the deletion handling one *)
Definition istep := sstep (N:=string) (V:=pystr) store_key.
