(** Specification of the store by reference: what each object contains and which
    object each key holds, from the history alone (newest call first). *)
From Verif Require Import Base Store_model Store_spec Alias_model.

Section spec.
  Context {K R O V N : Type} `{EqDecision K} `{EqDecision R}.
  Context (keyf : O → option K) (fs : dict N (index_func O V)) (hp : R → O).
  Notation event := (aop K R O V N * sres K R V N)%type.

  (** the contents of object [r] *)
  Fixpoint value (h : list event) (r : R) : O :=
    match h with
    | [] => hp r
    | (AEdit r' o, _) :: h => if decide (r = r') then o else value h r
    | _ :: h => value h r
    end.
  (** the object under key [k]: keys are those the objects had when stored *)
  Fixpoint holder (k : K) (h : list event) : option R :=
    match h with
    | [] => None
    | (AEdit _ _, _) :: h => holder k h
    | (ACall _, SStoreKeyError _) :: h => holder k h
    | (ACall (SAdd r), _) :: h | (ACall (SUpdate r), _) :: h => if decide (keyf (value h r) = Some k) then Some r else holder k h
    | (ACall (SDelete r), SNone) :: h => if decide (keyf (value h r) = Some k) then None else holder k h
    | (ACall (SReplace l), _) :: h => last_keyed (λ r, keyf (value h r)) k l
    | _ :: h => holder k h
    end.
  (** every edit since the last [replace] was of an object outside the store, or
      left its index values alone *)
  Fixpoint careful (h : list event) : Prop :=
    match h with
    | [] => True
    | (AEdit r o, _) :: h =>
        ((∀ k, holder k h ≠ Some r) ∨ ∀ n f, (n, f) ∈ fs → f o = f (value h r)) ∧ careful h
    | (ACall (SReplace _), SNone) :: _ => True
    | _ :: h => careful h
    end.
  (** the objects ever given to the store *)
  Fixpoint given (h : list event) : list R :=
    match h with
    | [] => []
    | (ACall (SAdd r), _) :: h | (ACall (SUpdate r), _) :: h => r :: given h
    | (ACall (SReplace l), _) :: h => l ++ given h
    | _ :: h => given h
    end.
  (** the objects ever edited *)
  Fixpoint edited (h : list event) : list R :=
    match h with [] => [] | (AEdit r _, _) :: h => r :: edited h | _ :: h => edited h end.
  (** no call of [h'], which follows [h], replaces the content or stores an
      object under key [k] ([h'] is oldest first, [h] newest first) *)
  Fixpoint spared (k : K) (h h' : list event) : Prop :=
    match h' with
    | [] => True
    | e :: h' =>
        match e.1 with
        | ACall (SAdd r) | ACall (SUpdate r) => keyf (value h r) ≠ Some k
        | ACall (SReplace _) => False
        | _ => True
        end ∧ spared k (e :: h) h'
    end.
End spec.
