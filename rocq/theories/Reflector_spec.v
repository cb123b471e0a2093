(** Specification of the reflector: what an event is worth, which version is
    the synced one according to the history alone, and a server. *)
From Verif Require Import Base KeyFunc_model Reflector_model Store_model Store_spec.

Section events.
  Context {O RV : Type}.
  Implicit Types (g : rcfg O RV) (e : event O).
  Notation entry := (rinput O RV * list (routput O RV))%type.

  (** the object has the expected type, and its group, version and kind can be read and are the expected ones *)
  Definition expected_type g (o : O) : Prop := c_typed g = true → c_isinstance g o = true.
  Definition readable_gvk g (o : O) : Prop :=
    ∀ want, c_gvk g = Some want → ∃ a k got, c_api g o = Some a ∧ c_kind g o = Some k ∧ group_version_kind a k = Some got.
  Definition expected_gvk g (o : O) : Prop :=
    ∀ want, c_gvk g = Some want → ∃ a k, c_api g o = Some a ∧ c_kind g o = Some k ∧ group_version_kind a k = Some want.
  (** accepted, with this resource version *)
  Definition accepted g e (rv : RV) : Prop :=
    e_type e ≠ EvError ∧ expected_type g (e_obj e) ∧ expected_gvk g (e_obj e) ∧ c_has_meta g (e_obj e) = true ∧ c_rv g (e_obj e) = Some rv.
  (** ends the watch *)
  Definition broken g e : Prop :=
    e_type e = EvError ∨
    expected_type g (e_obj e) ∧
      (¬ readable_gvk g (e_obj e) ∨ expected_gvk g (e_obj e) ∧ c_has_meta g (e_obj e) = true ∧ c_rv g (e_obj e) = None).

  (** ** The history, newest entry first *)
  (** a resync failed since the last list *)
  Fixpoint resync_failed (h : list entry) : Prop :=
    match h with
    | [] => False
    | (IList _ _, _ :: _) :: _ => False
    | (IResync _, [CResync false]) :: _ => True
    | _ :: h => resync_failed h
    end.
  (** and since then an event was handled or a watch opened: the error comes before the next event *)
  Fixpoint error_first (h : list entry) : Prop :=
    match h with
    | [] => False
    | (IList _ _, _ :: _) :: _ => False
    | (IResync _, [CResync false]) :: _ => False
    | ((IEvent _, _) | (IWatch, _ :: _)) :: h => resync_failed h
    | _ :: h => error_first h
    end.
  (** a watch is open and its stream has not ended *)
  Fixpoint watching g (h : list entry) : Prop :=
    match h with
    | [] => False
    | (IWatch, _ :: _) :: _ => True
    | ((IClose _ | IStreamRaises | ICancel), _) :: _ => False
    | (ISeeError, _) :: h => watching g h ∧ ¬ resync_failed h
    | (IEvent e, _) :: h => watching g h ∧ ¬ error_first h ∧ ¬ broken g e
    | _ :: h => watching g h
    end.
  (** the version of the last accepted event, or of the last successful list, or none *)
  Inductive synced g : list entry → option RV → Prop :=
  | synced_start : synced g [] None
  | synced_list items rv h : synced g ((IList items rv, [CReplace items rv true]) :: h) (Some rv)
  | synced_event e rv out h : watching g h → ¬ error_first h → accepted g e rv → synced g ((IEvent e, out) :: h) (Some rv)
  | synced_event_ignored e out h v : ¬ (watching g h ∧ ¬ error_first h ∧ ∃ rv, accepted g e rv) →
      synced g h v → synced g ((IEvent e, out) :: h) v
  | synced_other i out h v : (∀ e, i ≠ IEvent e) → (∀ items rv, (i, out) ≠ (IList items rv, [CReplace items rv true])) →
      synced g h v → synced g ((i, out) :: h) v.

  (** the store call an event stands for *)
  Definition event_call e (ok : bool) : list (routput O RV) :=
    match e_type e with
    | EvAdded => [CAdd (e_obj e) ok]
    | EvModified => [CUpdate (e_obj e) ok]
    | EvDeleted => [CDelete (e_obj e) ok]
    | _ => []
    end.
  (** the effect of a call on the store *)
  Definition call_effect {S} (q : sops O RV S) (s : S) (c : routput O RV) : S :=
    match c with
    | CReplace l rv _ => (so_replace q s l rv).1
    | CAdd o _ => (so_add q s o).1
    | CUpdate o _ => (so_update q s o).1
    | CDelete o _ => (so_delete q s o).1
    | CResync _ => (so_resync q s).1
    | CWatch _ | CLast _ => s
    end.
  Definition call_ok {S} (q : sops O RV S) (s : S) (c : routput O RV) : Prop :=
    match c with
    | CReplace l rv ok => (so_replace q s l rv).2 = ok
    | CAdd o ok => (so_add q s o).2 = ok
    | CUpdate o ok => (so_update q s o).2 = ok
    | CDelete o ok => (so_delete q s o).2 = ok
    | CResync ok => (so_resync q s).2 = ok
    | CWatch _ | CLast _ => True
    end.
End events.

(** ** A server: the sequence of changes so far; versions count changes *)
Section server.
  Context {K O : Type} `{EqDecision K} (keyf : O → option K).
  Notation changes := (list (event O)).

  (** the object under key [k] after the changes, newest first *)
  Fixpoint after_changes (k : K) (cs : changes) : option O :=
    match cs with
    | [] => None
    | e :: cs =>
        if decide (keyf (e_obj e) = Some k)
        then match e_type e with EvAdded | EvModified => Some (e_obj e) | EvDeleted => None | _ => after_changes k cs end
        else after_changes k cs
    end.
  Definition server_at (cs : changes) (v : nat) (k : K) : option O := after_changes k (reverse (take v cs)).
  (** a change the server may make: its object carries the new version *)
  Definition good_change (g : rcfg O nat) (cs : changes) (e : event O) : Prop :=
    (e_type e = EvAdded ∨ e_type e = EvModified ∨ e_type e = EvDeleted) ∧ is_Some (keyf (e_obj e)) ∧ accepted g e (S (length cs)).
  (** an answer to a list request: the content at some version, in any order *)
  Definition good_list (cs : changes) (items : list O) (v : nat) : Prop :=
    v ≤ length cs ∧ (∀ o, o ∈ items → is_Some (keyf o)) ∧ ∀ k, last_keyed keyf k items = server_at cs v k.
End server.
