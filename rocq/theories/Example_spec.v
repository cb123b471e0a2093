(** What example.py tells about an object. *)
From Verif Require Import Base KeyFunc_model KeyFunc_spec DeltaFifo_model Reflector_model World_model System_model Example_model.
From Coq Require Import Strings.String.
From stdpp Require Import strings.
Local Open Scope nat_scope.
(** the object is in a namespace, and its name has no '/' *)
Definition pod_like (o : pyobj) : Prop := ∃ ns name, named o (Some ns) (Some name) ∧ ns ≠ ""%string ∧ no_slash name.
(** the server has only such objects *)
Definition only_pods (l : zlabel) : Prop :=
  match l with
  | ZWorld (WChange e) => pod_like (e_obj e)
  | ZWorld (WInput (IList items _)) => ∀ o, o ∈ items → pod_like o
  | _ => True
  end.
(** all that is printed for the request from [n] on is [v] *)
Definition always_tells (pr : nat → list printed) (r : nsname) (v : option (dobj pystr pyobj)) (n : nat) : Prop :=
  ∀ m j v', n ≤ m → (j, r, v') ∈ pr m → v' = v.
