(** Vocabulary for C105. *)
From Verif Require Import Base KeyFunc_model Meta_model.
From Coq Require Import Strings.String Strings.Ascii.
From stdpp Require Import strings.
Local Open Scope string_scope.

(** [v] is a dictionary with this entry; an object with this attribute *)
Definition entry (h : heap) (v : pv) (k : string) (x : pv) : Prop := ∃ a d, v = VRef a ∧ dget a h = Some (HDict d) ∧ dget k d = Some x.
Definition attr (h : heap) (v : pv) (k : string) (x : pv) : Prop := ∃ a d, v = VRef a ∧ dget a h = Some (HObj d) ∧ dget k d = Some x.
Definition dictionary (h : heap) (v : pv) : Prop := ∃ a d, v = VRef a ∧ dget a h = Some (HDict d).
Definition typed (h : heap) (v : pv) : Prop := ∃ a d, v = VRef a ∧ dget a h = Some (HObj d).
(** the metadata of [v] *)
Definition has_meta (h : heap) (v m : pv) : Prop := entry h v "metadata" m ∨ attr h v "metadata" m.
(** the metadata has the field, under the name it has in objects like [v] *)
Definition has_field (h : heap) (isd : bool) (m : pv) (f : field) (x : pv) : Prop :=
  if isd then entry h m (entry_name f) x else attr h m (attr_name f) x.

(** a str or None *)
Definition of_str (x : pystr) : pv := match x with Some s => VStr s | None => VNone end.
(** the metadata dictionary has this namespace entry or none, and this name entry or none *)
Definition str_entry (d : dict string pv) (dm : dict string pystr) (k : string) : Prop := dget k d = of_str <$> dget k dm.

(** [v] is an object as KeyFunc_model.v has them *)
Inductive looks (h : heap) : pv → pyobj → Prop :=
| lk_explicit s : looks h (VKey s) (ExplicitKey s)
| lk_str s : looks h (VStr s) Other
| lk_none : looks h VNone Other
| lk_typed_bare a d x : dget a h = Some (HObj d) → dget "metadata" d = None → looks h (VRef a) (Typed None x)
| lk_typed_none a d x : dget a h = Some (HObj d) → dget "metadata" d = Some VNone → looks h (VRef a) (Typed (Some None) x)
| lk_typed a d m dm ns n x : dget a h = Some (HObj d) → dget "metadata" d = Some (VRef m) → dget m h = Some (HObj dm) →
    dget "namespace" dm = Some (of_str ns) → dget "name" dm = Some (of_str n) → looks h (VRef a) (Typed (Some (Some (ns, n))) x)
| lk_dict_bare a d x : dget a h = Some (HDict d) → dget "metadata" d = None → looks h (VRef a) (Unstructured None x)
| lk_dict a d m dm dm' x : dget a h = Some (HDict d) → dget "metadata" d = Some (VRef m) → dget m h = Some (HDict dm) →
    str_entry dm dm' "namespace" → str_entry dm dm' "name" → looks h (VRef a) (Unstructured (Some dm') x).
(** a tombstone (delta_fifo.py:266-268) is a named tuple without metadata *)
Definition same_key (r : res pv) (k : key_res) : Prop :=
  match k with
  | Key k => r = MOk (of_str k)
  | NotObjectError => r = MErr NotObject
  | AttributeError => r = MErr AttrErr
  | KeyError => r = MErr KeyErr
  end.

(** a dictionary and a typed object with the same metadata, each in its own spelling *)
Definition alike (h : heap) (v w : pv) : Prop :=
  ∃ mv mw, entry h v "metadata" mv ∧ attr h w "metadata" mw ∧ dictionary h mv ∧ typed h mw ∧
    ∀ f x, entry h mv (entry_name f) x ↔ attr h mw (attr_name f) x.
