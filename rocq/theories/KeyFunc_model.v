(** Model of the key functions: aiok8s/cache/store.py:24-34, aiok8s/api/meta.py
    (accessors), aiok8s/cache/controller.py:107-110,
    aiok8s/controller/_cache_reader.py:29-32, aiok8s/controller/reconcile.py:18-20
    and the group/version/kind accessor, aiok8s/api/meta.py:162-165.

    Attributes and dictionary entries read here hold a string or None.  An object
    whose metadata is anything but a metadata object (or dictionary) or None is
    not modelled. *)
From Verif Require Import Base.
From Coq Require Import Strings.String Strings.Ascii.
From stdpp Require Import strings.
Local Open Scope string_scope.

(** a Python string or None *)
Notation pystr := (option string).

(** [rest] stands for whatever else the object holds *)
Inductive pyobj :=
| ExplicitKey (s : string)                                 (* store.py:24 *)
| Typed (metadata : option (option (pystr * pystr))) (rest : string)  (* attribute metadata: missing, None, or (namespace, name) *)
| Unstructured (metadata : option (dict string pystr)) (rest : string) (* a dictionary, with or without entry "metadata" *)
| Tombstone (key : pystr) (o : pyobj)                      (* delta_fifo.py:266, DeletedFinalStateUnknown *)
| Other.                                                   (* any other object without metadata, such as a plain str *)

Inductive key_res := Key (k : pystr) | NotObjectError | AttributeError | KeyError.

(** f"{x}" *)
Definition fmt (x : pystr) : string := match x with Some s => s | None => "None" end.
(** truth of a string or None *)
Definition truthy (x : pystr) : bool := match x with Some (String _ _) => true | _ => false end.

(** store.py:32-34, once namespace and name are read *)
Definition join_key (ns name : pystr) : pystr := if truthy ns then Some (fmt ns ++ "/" ++ fmt name) else name.

(** store.py:28-34 with meta.py:37-43, 99-109 and 124-134.  The name of a
    dictionary is only read after the namespace. *)
Definition meta_namespace_key_func (o : pyobj) : key_res :=
  match o with
  | ExplicitKey s => Key (Some s)
  | Typed None _ | Tombstone _ _ | Other | Unstructured None _ => NotObjectError
  | Typed (Some None) _ => AttributeError
  | Typed (Some (Some (ns, name))) _ => Key (join_key ns name)
  | Unstructured (Some d) _ =>
      match dget "namespace" d with
      | None => KeyError
      | Some ns => match dget "name" d with None => KeyError | Some name => Key (join_key ns name) end
      end
  end.

(** controller.py:107-110 *)
Definition deletion_handling_key (o : pyobj) : key_res :=
  match o with Tombstone k _ => Key k | _ => meta_namespace_key_func o end.
(** as the stores use it: any exception becomes StoreKeyError (store.py:55-90) *)
Definition store_key (o : pyobj) : option pystr := match deletion_handling_key o with Key k => Some k | _ => None end.

(** reconcile.py:18-20 *)
Record nsname := NsName { nn_namespace : pystr; nn_name : pystr }.
(** _cache_reader.py:29-32 *)
Definition object_key_to_store_key (n : nsname) : pystr :=
  if truthy (nn_namespace n) then Some (fmt (nn_namespace n) ++ "/" ++ fmt (nn_name n)) else nn_name n.

(** str.split("/") *)
Fixpoint split_slash (s : string) : list string :=
  match s with
  | EmptyString => [EmptyString]
  | String c s => if Ascii.eqb c "/" then EmptyString :: split_slash s
                  else match split_slash s with
                       | [] => [String c EmptyString]
                       | x :: xs => String c x :: xs
                       end
  end.
(** meta.py:162-165, 170-175; [None]: ValueError from unpacking *)
Definition group_version (api_version : string) : option (string * string) :=
  match split_slash api_version with [g; v] => Some (g, v) | _ => None end.
Definition group_version_kind (api_version kind : string) : option (string * string * string) :=
  match group_version api_version with Some (g, v) => Some (g, v, kind) | None => None end.
