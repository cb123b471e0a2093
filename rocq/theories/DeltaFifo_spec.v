(** Specification of the DeltaFIFO, one key at a time, from the history alone:
    no queue, no dictionary, no counter. *)
From Verif Require Import Base DeltaFifo_model.

Section spec.
  Context {K O : Type} `{EqDecision K} (keyf : O → option K).
  Notation delta := (delta K O).
  Notation dobj := (dobj K O).
  Notation event := (dop K O * dres K O)%type.

  Definition is_deletion (d : delta) : bool := match d.1 with DtDeleted => true | _ => false end.
  Definition is_sync (d : delta) : bool := match d.1 with DtSync => true | _ => false end.

  (** how a new change joins the pending changes of its key: a Sync behind a
      pending deletion is ignored; of two adjacent deletions one survives, the
      older one unless it is only a marker; otherwise it is appended *)
  Definition absorb (pending : list delta) (e : delta) : list delta :=
    match last pending with
    | Some b =>
        if is_deletion b && is_sync e then pending
        else if is_deletion b && is_deletion e
        then removelast pending ++ [if is_tomb b.2 then e else b]
        else pending ++ [e]
    | None => [e]
    end.

  (** the objects before the first one without a key *)
  Fixpoint keyed_prefix (l : list dobj) : list dobj :=
    match l with
    | [] => []
    | o :: l => match key_of keyf o with Some _ => o :: keyed_prefix l | None => [] end
    end.
  Definition has_key (k : K) (o : dobj) : Prop := key_of keyf o = Some k.
  #[global] Instance has_key_dec k o : Decision (has_key k o).
  Proof. unfold has_key. apply _. Defined.
  Definition known_to (kn : option (known K O)) (k : K) : Prop :=
    match kn with None => False | Some kn => kn_get kn k ≠ LMissing end.
  #[global] Instance known_to_dec kn k : Decision (known_to kn k).
  Proof.
    destruct kn as [kn|]; simpl; [|apply _].
    destruct (kn_get kn k) as [o| |]; [left|right|left]; congruence.
  Defined.
  (** the known objects, in the order of the key list, up to one without a key *)
  Definition found_objs (kn : known K O) : list dobj :=
    keyed_prefix (omap (λ k, lookup_obj (kn_get kn k)) (kn_keys kn)).

  (** the changes a call offers for key [k] whose pending changes are [p] *)
  Definition offers (k : K) (p : list delta) (c : dop K O) : list delta :=
    match c with
    | DAdd o => if decide (has_key k o) then [(DtAdded, o)] else []
    | DUpdate o => if decide (has_key k o) then [(DtUpdated, o)] else []
    | DDelete kn o =>
        if decide (has_key k o ∧ (p ≠ [] ∨ known_to kn k)) then [(DtDeleted, o)] else []
    | DReplace kn l =>
        ((λ o, (DtSync, o)) <$> filter (has_key k) (keyed_prefix l)) ++
        (if decide (length (keyed_prefix l) = length l ∧ k ∉ omap (key_of keyf) l) then
           match kn with
           | None => match last p with Some d => [(DtDeleted, DTomb k (Some d.2))] | None => [] end
           | Some kn => (λ k, (DtDeleted, DTomb k (lookup_obj (kn_get kn k)))) <$> filter (.= k) (kn_keys kn)
           end
         else [])
    | DResync (Some kn) =>
        if decide (p = []) then (λ o, (DtSync, o)) <$> take 1 (filter (has_key k) (found_objs kn)) else []
    | _ => []
    end.

  (** the key of a list of deltas is that of its newest object *)
  Definition deltas_key (ds : list delta) : option K := d ← last ds; key_of keyf d.2.

  (** one key: everything offered so far, deltas whose processing ended without
      a requeue, deltas being processed, deltas pending *)
  Record kst := KSt { k_offered : list delta; k_done : list delta; k_proc : list delta; k_pend : list delta }.
  Definition kst0 : kst := KSt [] [] [] [].
  Definition kevent (k : K) (st : kst) (e : event) : kst :=
    match e with
    | (_, DLockWait) => st
    | (DPop, DPopped ds) =>
        if decide (deltas_key ds = Some k) then KSt (k_offered st) (k_done st) (k_pend st) [] else st
    | (DFinish out, _) =>
        match k_proc st, out with
        | [], _ => st
        | ds, DRequeue _ => KSt (k_offered st) (k_done st) [] ds
        | ds, _ => KSt (k_offered st) (k_done st ++ ds) [] (k_pend st)
        end
    | (DAddIfNotPresent ds, _) =>
        if decide (deltas_key ds = Some k ∧ k_pend st = [])
        then KSt (k_offered st ++ ds) (k_done st) (k_proc st) ds else st
    | (c, _) => let l := offers k (k_pend st) c in
        KSt (k_offered st ++ l) (k_done st) (k_proc st) (foldl absorb (k_pend st) l)
    end.
  Definition replay (k : K) (h : list event) : kst := foldl (kevent k) kst0 h.

  (** [merged E L]: [L] is [E] where a deletion directly after a deletion was
      merged with it and a Sync directly after a deletion was ignored *)
  Inductive merged : list delta → list delta → Prop :=
  | merged_nil : merged [] []
  | merged_keep E L e : merged E L → merged (E ++ [e]) (L ++ [e])
  | merged_delete E L b e : merged E (L ++ [b]) → is_deletion b = true → is_deletion e = true →
      merged (E ++ [e]) (L ++ [if is_tomb b.2 then e else b])
  | merged_sync E L b e : merged E (L ++ [b]) → is_deletion b = true → is_sync e = true →
      merged (E ++ [e]) (L ++ [b]).

  (** no two adjacent deletions, one key *)
  Definition tidy (k : K) (ds : list delta) : Prop :=
    ds ≠ [] ∧ (∀ d, d ∈ ds → has_key k d.2) ∧
    ∀ l1 a b l2, ds = l1 ++ a :: b :: l2 → ¬ (is_deletion a = true ∧ is_deletion b = true).
  (** histories in which only tidy lists are put back by hand *)
  Definition tidy_puts (h : list event) : Prop :=
    ∀ ds r, (DAddIfNotPresent ds, r) ∈ h → ∃ k, tidy k ds.
  (** the call hands the deltas of key [k] to the callback *)
  Definition pops (k : K) (e : event) : Prop := ∃ ds, e = (DPop, DPopped ds) ∧ deltas_key ds = Some k.
  (** Added and Updated deltas *)
  Definition is_plain (d : delta) : bool := match d.1 with DtAdded | DtUpdated => true | _ => false end.
  (** calls that cannot put anything into an empty queue *)
  Definition inert (c : dop K O) : Prop :=
    match c with
    | DList | DListKeys | DGet _ | DGetByKey _ | DHasSynced | DIsClosed | DPop | DFinish _ | DClose => True
    | DResync (Some kn) => kn_keys kn = []
    | DResync None => True
    | _ => False
    end.
  Definition known_keys (kn : option (known K O)) : list K := match kn with None => [] | Some kn => kn_keys kn end.
  (** the keys concerned by a first [replace]: the listed ones and the known
      ones that are not listed *)
  Definition batch (kn : option (known K O)) (l : list dobj) : list K :=
    omap (key_of keyf) l ++ filter (λ k, k ∉ omap (key_of keyf) l) (known_keys kn).
  (** what get_by_key shows, no deltas being the empty list *)
  Definition pending_of (ds : option (list delta)) : list delta := default [] ds.
End spec.
Arguments kst : clear implicits.
