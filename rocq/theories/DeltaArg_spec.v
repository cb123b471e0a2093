(** What it means that a program passes no Deltas lists as objects to a DeltaFIFO. *)
From Verif Require Import Base DeltaFifo_model DeltaArg_model.

Section spec.
  Context {K O : Type}.
  (** not a Deltas list *)
  Definition no_list (o : dobj K (arg K O)) : Prop := ∀ ds, o ≠ DObj (ADeltas ds).
  (** the objects a call makes the queue look at; for add_if_not_present, which takes
      a list, the newest object in it *)
  Definition known_objs (kn : option (known K (arg K O))) (o : dobj K (arg K O)) : Prop :=
    match kn with None => False | Some kn => ∃ k, kn_get kn k = LFound o end.
  Definition gives (c : dop K (arg K O)) (o : dobj K (arg K O)) : Prop :=
    match c with
    | DAdd o' | DUpdate o' | DDelete _ o' => o = o'
    | DReplace kn l => o ∈ l
    | DResync kn => known_objs kn o
    | DAddIfNotPresent ds => ∃ t, last ds = Some (t, o)
    | _ => False
    end.
  (** no call of the history passed a list as an object, to be kept *)
  Definition listless (h : list (dop K (arg K O) * dres K (arg K O))) : Prop := ∀ c r o, (c, r) ∈ h → gives c o → no_list o.
End spec.
