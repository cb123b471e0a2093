(** Specification: the queue by reference read as a queue of values, and programs that
    keep their hands off the lists they have given away. *)
From Verif Require Import Base DeltaFifo_model DeltaRef_model.

Section spec.
  Context {K O : Type} `{EqDecision K} (keyf : O → option K).
  Notation rst := (rst K O).
  Notation event := (rop K O * rres K O)%type.

  (** the values *)
  Definition values (s : rst) : dfifo K O :=
    DFIFO ((λ p, (p.1, contents s p.2)) <$> r_items s) (r_queue s) (r_populated s) (r_count s) (r_closed s)
          ((λ p, (p.1, contents s p.2)) <$> r_busy s).
  Definition answer_value (s : rst) (x : rres K O) : dres K O :=
    match x with
    | RRes x => x
    | RPopped r => DPopped (contents s r) | RItem r => DItem (contents s r) | RProcessError r => DProcessError (contents s r)
    | RDeltas r => DDeltas (contents s <$> r)
    | RMade _ => DNone
    end.
  (** the call on values; [None] for what callers do by themselves *)
  Definition call_value (s : rst) (c : rop K O) : option (dop K O) :=
    match c with RCall c => Some c | RPut r => Some (DAddIfNotPresent (contents s r)) | RNew _ | REdit _ _ => None end.

  (** a history by reference as one of values *)
  Fixpoint read (s : rst) (h : list event) : list (dop K O * dres K O) :=
    match h with
    | [] => []
    | (c, x) :: h => let s' := (rstep keyf s c).1 in
        match call_value s c with Some c' => (c', answer_value s' x) :: read s' h | None => read s' h end
    end.

  (** pending, or in the hands of the callback *)
  Definition held (s : rst) (r : nat) : Prop := (∃ k, dget k (r_items s) = Some r) ∨ (∃ k, r_busy s = Some (k, r)).
  (** no list was changed while it was held *)
  Definition careful (h : list event) : Prop := ∀ h1 r ds x h2, h = h1 ++ (REdit r ds, x) :: h2 → ∀ m, exec (rstep keyf) rst_init h1 m → ¬ held m r.

  (** what the program knows: it has the list [r] *)
  Definition given (h : list event) (r : nat) : Prop := ∃ c x, (c, x) ∈ h ∧ (x = RMade r ∨ x = RPopped r ∨ x = RDeltas (Some r)).
  (** it has handed it (back) to the queue: by add_if_not_present, or a RequeueError *)
  Definition handed (h : list event) (r : nat) : Prop :=
    (∃ x, (RPut r, x) ∈ h) ∨ (∃ cause x, (RCall (DFinish (DRequeue cause)), x) ∈ h ∧ (x = RItem r ∨ x = RProcessError r)).
  (** its callback for the list is over *)
  Definition finished (h : list event) (r : nat) : Prop := ∃ c x, (c, x) ∈ h ∧ (x = RItem r ∨ x = RProcessError r).
  (** it changes only lists it has, never handed to the queue, and is not processing *)
  Definition polite (h : list event) : Prop := ∀ h1 r ds x h2, h = h1 ++ (REdit r ds, x) :: h2 →
    given h1 r ∧ ¬ handed h1 r ∧ ((∃ c, (c, RPopped r) ∈ h1) → finished h1 r).
  (** what get_by_key shows *)
  Definition shows (s : rst) (k : K) : dres K O := let '(s', x) := rstep keyf s (RCall (DGetByKey k)) in answer_value s' x.
End spec.
