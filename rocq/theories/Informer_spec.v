(** Specification of the informer, one key at a time: what is left to do for a
    key, what the store will hold afterwards, and the life cycle of an object in
    the handler's eyes. *)
From Verif Require Import Base DeltaFifo_model DeltaFifo_spec Store_model Store_spec Reflector_model Reflector_spec Informer_model.

Section spec.
  Context {K O V N : Type} `{EqDecision K} (keyf : O → option K).
  Notation dobj := (dobj K O).
  Notation delta := (delta K O).
  Notation notif := (notif K O).
  Notation inf := (inf K O V N).
  Notation event := (iop K O * ires K O)%type.

  (** the changes end in a deletion *)
  Definition ends_deleted (p : list delta) : bool := match last p with Some d => is_deletion d | None => false end.
  (** what remains of content [c] after the changes *)
  Definition settle (c : option dobj) (p : list delta) : option dobj :=
    match last p with Some d => if is_deletion d then None else Some d.2 | None => c end.
  (** what replace(l) leads to for key [k] with pending changes [p] and content [c] *)
  Definition replaced (k : K) (l : list O) (p : list delta) (c : option dobj) : option dobj :=
    match last_keyed keyf k l with
    | Some o => if ends_deleted p then None else Some (DObj o)
    | None => match c with Some _ => None | None => settle None p end
    end.
  (** neither a listed key is pending deletion nor an unlisted and unstored key pending *)
  Definition calm (k : K) (l : list O) (p : list delta) (c : option dobj) : Prop :=
    match last_keyed keyf k l with
    | Some _ => ends_deleted p = false
    | None => c = None → p = [] ∨ ends_deleted p = true
    end.

  (** the handler callbacks of a history *)
  Definition callbacks (h : list event) : list notif :=
    omap (λ e : event, match e.2 with ICallback n => Some n | _ => None end) h.
  Definition notif_obj (n : notif) : dobj := match n with NAdd o _ | NUpdate _ o _ | NDelete o => o end.
  (** callbacks for key [k]: cycles of add, updates and delete, each update
      carrying the object delivered before; and the object the handler was last given *)
  Inductive life (k : K) : list notif → option dobj → Prop :=
  | life_start : life k [] None
  | life_add l o b : has_key keyf k o → life k l None → life k (l ++ [NAdd o b]) (Some o)
  | life_update l old new b : has_key keyf k new → life k l (Some old) → life k (l ++ [NUpdate old new b]) (Some new)
  | life_delete l o old : has_key keyf k o → life k l (Some old) → life k (l ++ [NDelete o]) None
  | life_other l n c : ¬ has_key keyf k (notif_obj n) → life k l c → life k (l ++ [n]) c.
  (** an object was handed to the handler and stored *)
  Definition delivered (o : dobj) (l : list notif) : Prop := ∃ n, n ∈ l ∧ (n = NAdd o true ∨ ∃ old, n = NUpdate old o true).

  (** a handler's callback raised, or the loop was cancelled in it *)
  Definition fails (c : iop K O) : Prop := match c with PRaise _ | PCancel => True | _ => False end.
  (** steps of the process loop without failures *)
  Definition processing (c : iop K O) : Prop := c = PPop ∨ c = PDelta ∨ c = PDone.
  (** no change pending, none being processed *)
  Definition drained (s : inf) : Prop := d_items (i_q s) = [] ∧ d_busy (i_q s) = None.
  (** no handler asked for its deltas to be queued again *)
  Definition no_requeue (h : list event) : Prop := ∀ e cause, e ∈ h → e.1 ≠ PRaise (Some cause).
  (** reads, and calls that queue nothing, before the first list *)
  Definition idle (c : iop K O) : Prop :=
    match c with QResync | QHasSynced | QGetByKey _ | QClose | PPop | PDelta | PRaise _ | PDone | PCancel | SLook _ => True | _ => False end.
End spec.

(** relists happen only when, for every key, the pending changes permit it *)
Section relist.
  Context {K O V N : Type} `{EqDecision K} (keyf : O → option K).
  Definition calm_list (s : inf K O V N) (l : list O) : Prop :=
    ∀ k, calm keyf k l (default [] (dget k (d_items (i_q s)))) (dget k (s_items (i_st s))).
End relist.
