(** Model of aiok8s/api/meta.py on the objects themselves: what the accessors
    read and write is held in a heap of dictionaries and typed objects, with the
    readers that go through them: aiok8s/cache/store.py:28-34 (keys),
    aiok8s/cache/index.py:21-23, aiok8s/cache/reflector.py:57-60 (the list),
    reflector.py:179 (group, version and kind) and
    aiok8s/cache/testing/fake_controller_source.py:51-62, 66-73.

    A typed object is any object that is no dictionary, list, str or None; its
    attributes are plain (the generated client classes check some assignments,
    none of them that of resource_version).  Numbers are not modelled. *)
From Verif Require Import Base KeyFunc_model.
From Coq Require Import Strings.String Strings.Ascii.
From stdpp Require Import strings.
Local Open Scope string_scope.

(** a Python value: None, a str, an ExplicitKey (store.py:24), or an object in the heap *)
Inductive pv := VNone | VStr (s : string) | VKey (s : string) | VRef (a : nat).
#[global] Instance pv_eq_dec : EqDecision pv.
Proof. solve_decision. Defined.
(** a dictionary, a typed object with its attributes, a list *)
Inductive cell := HDict (d : dict string pv) | HObj (d : dict string pv) | HList (l : list pv).
Notation heap := (dict nat cell).

Inductive perr := KeyErr | AttrErr | TypeErr | ValueErr | NotObject | NotList.
Inductive res (X : Type) := MOk (x : X) | MErr (e : perr).
Arguments MOk {X} x.
Arguments MErr {X} e.
Definition rbind {X Y} (f : X → res Y) (r : res X) : res Y := match r with MOk x => f x | MErr e => MErr e end.

(** the object a value refers to *)
Definition at_ (h : heap) (v : pv) : option cell := match v with VRef a => dget a h | _ => None end.
(** isinstance(v, dict) *)
Definition is_dict (h : heap) (v : pv) : bool := match at_ h v with Some (HDict _) => true | _ => false end.

(** v[k] for a string k: only dictionaries take one *)
Definition getitem (h : heap) (v : pv) (k : string) : res pv :=
  match at_ h v with
  | Some (HDict d) => match dget k d with Some x => MOk x | None => MErr KeyErr end
  | _ => MErr TypeErr
  end.
(** v.k, for the attributes read in meta.py; no dictionary, list, str or None has one of these,
    but a dictionary has a method items, which extract_list does not reach *)
Definition getattr (h : heap) (v : pv) (k : string) : res pv :=
  match at_ h v with
  | Some (HObj d) => match dget k d with Some x => MOk x | None => MErr AttrErr end
  | _ => MErr AttrErr
  end.
(** v[k] = x and v.k = x *)
Definition setitem (h : heap) (v : pv) (k : string) (x : pv) : heap * res unit :=
  match v, at_ h v with
  | VRef a, Some (HDict d) => (dset a (HDict (dset k x d)) h, MOk tt)
  | _, _ => (h, MErr TypeErr)
  end.
Definition setattr (h : heap) (v : pv) (k : string) (x : pv) : heap * res unit :=
  match v, at_ h v with
  | VRef a, Some (HObj d) => (dset a (HObj (dset k x d)) h, MOk tt)
  | _, _ => (h, MErr AttrErr)
  end.

(** an accessor: of the class for dictionaries or of that for typed objects, with its _metadata
    (meta.py:73-75, 86-88, 99-101, 124-126) *)
Record acc := Acc { a_dict : bool; a_meta : pv }.
#[global] Instance acc_eq_dec : EqDecision acc.
Proof. solve_decision. Defined.
Definition wrap (h : heap) (v : pv) : res acc :=
  if is_dict h v then rbind (λ m, MOk (Acc true m)) (getitem h v "metadata")
  else rbind (λ m, MOk (Acc false m)) (getattr h v "metadata").
(** except (AttributeError, KeyError): raise e *)
Definition or_raise {X} (e : perr) (r : res X) : res X :=
  match r with MErr AttrErr | MErr KeyErr => MErr e | _ => r end.
(** meta.py:28-34 and 37-43 *)
Definition list_accessor (h : heap) (v : pv) : res acc := or_raise NotList (wrap h v).
Definition accessor (h : heap) (v : pv) : res acc := or_raise NotObject (wrap h v).

(** the properties, meta.py:77-83, 90-96, 103-121 and 128-146 *)
Inductive field := FNamespace | FName | FUid | FVersion.
#[global] Instance field_eq_dec : EqDecision field.
Proof. solve_decision. Defined.
Definition attr_name (f : field) : string :=
  match f with FNamespace => "namespace" | FName => "name" | FUid => "uid" | FVersion => "resource_version" end.
Definition entry_name (f : field) : string :=
  match f with FNamespace => "namespace" | FName => "name" | FUid => "uid" | FVersion => "resourceVersion" end.
Definition a_get (h : heap) (a : acc) (f : field) : res pv :=
  if a_dict a then getitem h (a_meta a) (entry_name f) else getattr h (a_meta a) (attr_name f).
Definition a_set_version (h : heap) (a : acc) (x : pv) : heap * res unit :=
  if a_dict a then setitem h (a_meta a) "resourceVersion" x else setattr h (a_meta a) "resource_version" x.

(** meta.py:52-55 and 58-62 *)
Definition extract_list (h : heap) (v : pv) : res pv := if is_dict h v then getitem h v "items" else getattr h v "items".
Definition set_list (h : heap) (v : pv) (x : pv) : heap * res unit :=
  if is_dict h v then setitem h v "items" x else setattr h v "items" x.

(** meta.py:46-49, 149-175: api_version is read and split first, then kind.  Only a str can be split. *)
Definition type_field (h : heap) (v : pv) (entry attr : string) : res pv := if is_dict h v then getitem h v entry else getattr h v attr.
Definition gvk (h : heap) (v : pv) : res (string * string * pv) :=
  rbind (λ x, match x with
              | VStr s | VKey s => match group_version s with
                                   | Some (g, ver) => rbind (λ k, MOk (g, ver, k)) (type_field h v "kind" "kind")
                                   | None => MErr ValueErr
                                   end
              | _ => MErr AttrErr
              end) (type_field h v "apiVersion" "api_version").

(** reflector.py:57-60: the version and the items of a list *)
Definition read_list (h : heap) (v : pv) : res (pv * pv) :=
  rbind (λ a, rbind (λ rv, rbind (λ l, MOk (rv, l)) (extract_list h v)) (a_get h a FVersion)) (list_accessor h v).

(** an address not in use *)
Definition free_address (h : heap) : nat := S (foldr Nat.max 0 (dkeys h)).
Definition alloc (h : heap) (c : cell) : heap * pv := (dset (free_address h) c h, VRef (free_address h)).
(** fake_controller_source.py:66-73, 102-108: the list object around the list of copies [items];
    the three calls do not raise (C105_fake_list) *)
Definition fake_list (h : heap) (items version : pv) : heap * pv :=
  let '(h1, m) := alloc h (HObj []) in
  let '(h2, l) := alloc h1 (HObj [("metadata", m)]) in
  let '(h3, _) := set_list h2 l items in
  match list_accessor h3 l with
  | MOk a => ((a_set_version h3 a version).1, l)
  | MErr _ => (h3, l)
  end.

(** fake_controller_source.py:52-57: the beginning of change, up to the key of the object;
    [changes]: the objects in _changes; [version]: str(len(_changes) + 1) *)
Definition change_start (h : heap) (changes : list pv) (version v : pv) : heap * list pv * res (pv * pv * pv) :=
  match accessor h v with
  | MErr e => (h, changes, MErr e)
  | MOk a =>
      match a_set_version h a version with
      | (h', MErr e) => (h', changes, MErr e)
      | (h', MOk _) =>
          (h', (changes ++ [v])%list,
           rbind (λ ns, rbind (λ n, rbind (λ u, MOk (ns, n, u)) (a_get h' a FUid)) (a_get h' a FName)) (a_get h' a FNamespace))
      end
  end.

(** index.py:21-23 *)
Definition namespace_index (h : heap) (v : pv) : res (list pv) :=
  rbind (λ a, rbind (λ ns, MOk [ns]) (a_get h a FNamespace)) (accessor h v).

Section key.
  (** str() of the objects in the heap *)
  Context (repr : heap → nat → string).
  Definition show (h : heap) (v : pv) : string :=
    match v with VNone => "None" | VStr s | VKey s => s | VRef a => repr h a end.
  (** truth: None, "" and empty dictionaries and lists are false *)
  Definition truth (h : heap) (v : pv) : bool :=
    match v with
    | VNone => false
    | VStr s | VKey s => match s with EmptyString => false | _ => true end
    | VRef a => match dget a h with Some (HDict []) | Some (HList []) => false | _ => true end
    end.
  (** store.py:28-34 *)
  Definition key_func (h : heap) (v : pv) : res pv :=
    match v with
    | VKey s => MOk (VStr s)
    | _ => rbind (λ a, rbind (λ ns,
             if truth h ns then rbind (λ n, MOk (VStr (show h ns ++ "/" ++ show h n))) (a_get h a FName)
             else a_get h a FName) (a_get h a FNamespace)) (accessor h v)
    end.
End key.
