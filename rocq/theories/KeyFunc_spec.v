(** Vocabulary for C36 and C41. *)
From Verif Require Import Base KeyFunc_model.
From Coq Require Import Strings.String Strings.Ascii.
From stdpp Require Import strings.
Local Open Scope string_scope.

(** the object is a typed or unstructured object with this namespace and name *)
Definition named (o : pyobj) (ns name : pystr) : Prop :=
  (∃ x, o = Typed (Some (Some (ns, name))) x) ∨
  ∃ d x, o = Unstructured (Some d) x ∧ dget "namespace" d = Some ns ∧ dget "name" d = Some name.
(** the character occurs in the string *)
Fixpoint occurs (c : ascii) (s : string) : Prop :=
  match s with EmptyString => False | String c' s => c = c' ∨ occurs c s end.
Definition no_slash (s : string) : Prop := ¬ occurs "/"%char s.
(** cluster-scoped: namespace missing or empty *)
Definition same_namespace (a b : pystr) : Prop := default "" a = default "" b.
