(** Specification of the fake API source: C69. *)
From Verif Require Import Base FakeSource_model.

Section spec.
  Context {K V : Type} `{EqDecision K} (keyof : nat → K).
  Notation copy := (copy K V).

  (** contents, as a function of the identity *)
  Definition contents : Type := K → option (V * nat).
  Definition apply_event (e : ety * copy) (m : contents) : contents := λ k,
    if decide (k = cp_key e.2) then match e.1 with EAdded | EModified => Some (cp_cell e.2) | EDeleted => None | EOther => m k end else m k.
  Fixpoint replay (es : list (ety * copy)) (m : contents) : contents := match es with [] => m | e :: es => replay es (apply_event e m) end.
  (** what a list says *)
  Fixpoint listed (cs : list copy) : contents := λ k, match cs with [] => None | c :: cs => if decide (k = cp_key c) then Some (cp_cell c) else listed cs k end.
  (** the changes of a history, each with the version it got *)
  Fixpoint log_from (n : nat) (h : list (fop V * fres K V)) : list (ety * copy) :=
    match h with
    | [] => []
    | (FChange ty r v _, _) :: h => (ty, Copy (keyof r) (v, S n)) :: log_from (S n) h
    | _ :: h => log_from n h
    end.
  Definition log h := log_from 0 h.
  (** the objects passed to change *)
  Definition objects (h : list (fop V * fres K V)) : list nat := omap (λ x, match x.1 with FChange _ r _ _ => Some r | _ => None end) h.
  (** every change reached the watchers *)
  Definition all_seen (h : list (fop V * fres K V)) : Prop := ∀ ty r v d res, (FChange ty r v d, res) ∈ h → d = false ∧ res = FDone.
  (** no change was hidden from the watchers on purpose; failed ones may be there *)
  Definition none_dropped (h : list (fop V * fres K V)) : Prop := ∀ ty r v d res, (FChange ty r v d, res) ∈ h → d = false.
  (** only additions, modifications and deletions, as by add, modify, delete (33-49) *)
  Definition no_other (h : list (fop V * fres K V)) : Prop := ∀ r v d res, (FChange EOther r v d, res) ∉ h.
  (** the number of changes *)
  Definition version (h : list (fop V * fres K V)) : nat := length (objects h).
  (** a watcher's stream, read now *)
  Definition read (s : fsrc K V) (w : list (wevent K V)) : list (ety * copy) :=
    omap (λ e, match e with WCopy ty c => Some (ty, c) | WRef ty r => (λ c, (ty, c)) <$> deref keyof (f_heap s) r end) w.
End spec.
