(** Specification of the store: an abstract map computed from the history, and
    index queries recomputed from that map. *)
From Verif Require Import Base Store_model.

Section spec.
  Context {K O V N : Type} `{EqDecision K} (keyf : O → option K).
  Notation event := (sop K O V N * sres K O V N)%type.

  (** the last object of the list with key [k] *)
  Fixpoint last_keyed (k : K) (l : list O) : option O :=
    match l with
    | [] => None
    | o :: l => match last_keyed k l with
                | Some o' => Some o'
                | None => if decide (keyf o = Some k) then Some o else None
                end
    end.
  (** the content under key [k], newest call first.  A call whose key function
      failed counts for nothing, a delete counts if it returned. *)
  Fixpoint content (k : K) (h : list event) : option O :=
    match h with
    | [] => None
    | e :: h =>
        match e with
        | (_, SStoreKeyError _) => content k h
        | (SAdd o, _) | (SUpdate o, _) => if decide (keyf o = Some k) then Some o else content k h
        | (SDelete o, SNone) => if decide (keyf o = Some k) then None else content k h
        | (SReplace l, _) => last_keyed k l
        | _ => content k h
        end
    end.

  (** index functions that never fail and return distinct values *)
  Definition good_indexers (fs : dict N (index_func O V)) : Prop :=
    dwf fs ∧ ∀ n f, (n, f) ∈ fs → ∀ o, ∃ vs, f o = Some vs ∧ NoDup vs.
  (** [o] has index value [v] *)
  Definition has_value (f : index_func O V) (o : O) (v : V) : Prop := ∃ vs, f o = Some vs ∧ v ∈ vs.
End spec.
