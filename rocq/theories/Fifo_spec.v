(** Specification of the FIFO: for each key the object stored under it,
    computed from the history alone (newest call first). *)
From Verif Require Import Base Fifo_model.

Section spec.
  Context {K O : Type} `{EqDecision K} (keyf : O → option K).
  Notation hist := (list (fop K O * fres K O)).

  (** the last object of [l] whose key is [k] *)
  Definition last_with_key (k : K) (l : list O) : option O :=
    last (filter (λ o, keyf o = Some k) l).

  (** does the callback ask for the object to be put back? *)
  Definition put_back (p : O → outcome) (o : O) : Prop := ∃ c, p o = PRequeue c.
  #[global] Instance put_back_dec p o : Decision (put_back p o).
  Proof.
    unfold put_back. destruct (p o) as [|c|]; [right|left|right].
    - by intros [? ?].
    - by exists c.
    - by intros [? ?].
  Defined.

  Fixpoint stored (k : K) (h_newest_first : hist) : option O :=
    match h_newest_first with
    | [] => None
    | (c, r) :: h =>
        match c, r with
        | (FAdd o | FUpdate o), FNone => if decide (keyf o = Some k) then Some o else stored k h
        | FAddIfNotPresent o, FNone =>
            if decide (keyf o = Some k)
            then match stored k h with Some o' => Some o' | None => Some o end else stored k h
        | FDelete o, FNone => if decide (keyf o = Some k) then None else stored k h
        | FReplace l, FNone => last_with_key k l
        | FPop p, (FItem o | FProcessError o) =>
            if decide (keyf o = Some k)
            then (if decide (put_back p o) then Some o else None) else stored k h
        | _, _ => stored k h
        end
    end.

  (** the call hands object [o] to the consumer *)
  Definition hands_out (o : O) (e : fop K O * fres K O) : Prop :=
    ∃ p, e = (FPop p, FItem o) ∨ e = (FPop p, FProcessError o).
  (** the call stores something under [k] *)
  Definition stores (k : K) (e : fop K O * fres K O) : Prop :=
    match e with
    | (FAdd o, FNone) | (FUpdate o, FNone) | (FAddIfNotPresent o, FNone) => keyf o = Some k
    | (FReplace l, FNone) => ∃ o, o ∈ l ∧ keyf o = Some k
    | (FPop p, FItem o) | (FPop p, FProcessError o) => keyf o = Some k ∧ put_back p o
    | _ => False
    end.
  (** the call deletes [k] *)
  Definition deletes (k : K) (e : fop K O * fres K O) : Prop :=
    ∃ o, e = (FDelete o, FNone) ∧ keyf o = Some k.
  (** the keys occurring in a list of objects, each once *)
  Definition distinct_keys (l : list O) : list K := remove_dups (omap keyf l).
  (** the call hands out, or deletes, an object with key [k] *)
  Definition disposes (k : K) (e : fop K O * fres K O) : Prop :=
    deletes k e ∨ ∃ o, hands_out o e ∧ keyf o = Some k.
  (** the call counts as populating the queue (fifo.py sets [_populated]):
      every storing or deleting call whose key function did not raise *)
  Definition populates (e : fop K O * fres K O) : Prop :=
    match e.1 with
    | FAdd o | FUpdate o | FDelete o | FAddIfNotPresent o => is_Some (keyf o)
    | FReplace l => ∀ o, o ∈ l → is_Some (keyf o)
    | _ => False
    end.
  Definition is_replace (e : fop K O * fres K O) : Prop := ∃ l, e = (FReplace l, FNone).
  (** the call found nothing to hand out *)
  Definition found_nothing (e : fop K O * fres K O) : Prop :=
    ∃ p, e = (FPop p, FBlocked) ∨ e = (FPop p, FClosedError).
  (** what [pop] answers for an object that is not put back *)
  Definition plain_answer (p : O → outcome) (o : O) : fres K O :=
    match p o with PFail => FProcessError o | _ => FItem o end.
End spec.
