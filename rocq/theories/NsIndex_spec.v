(** Vocabulary for C78. *)
From Verif Require Import Base KeyFunc_model KeyFunc_spec Store_model.

(** the objects a call stores *)
Definition puts {K O V N} (c : sop K O V N) : list O :=
  match c with SAdd o | SUpdate o => [o] | SReplace l => l | _ => [] end.
(** an API object: with a namespace (perhaps none) and a name *)
Definition api_object (o : pyobj) : Prop := ∃ ns name, named o ns name.
Definition only_api_objects {V N} (h : list (sop pystr pyobj V N * sres pystr pyobj V N)) : Prop :=
  ∀ c r o, (c, r) ∈ h → o ∈ puts c → api_object o.
