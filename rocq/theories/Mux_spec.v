(** Specification of a broadcaster: what each watcher is to receive. *)
From Verif Require Import Base Mux_model.
From Coq Require Import ZArith.

Section spec.
  Context {E : Type}.
  Notation trace := (list (mlabel E)).

  (** the requests accepted, in order *)
  Definition accepted (tr : trace) : list (request E) := omap (λ l, match l with MSubmit r => Some r | _ => None end) tr.
  (** the events before the first shutdown *)
  Fixpoint events (rs : list (request E)) : list E :=
    match rs with [] => [] | REvent e :: rs => e :: events rs | RWatch _ :: rs => events rs | RShutdown :: _ => [] end.
  (** what is due to the [i]-th watcher, if it is registered: its queued events and all events accepted later *)
  Fixpoint expected (i : nat) (rs : list (request E)) : option (list E) :=
    match rs with
    | [] => None
    | REvent _ :: rs => expected i rs
    | RShutdown :: _ => None
    | RWatch pre :: rs => match i with O => Some (default [] pre ++ events rs) | S i => expected i rs end
    end.
  (** the size of its buffer *)
  Fixpoint capacity (len : Z) (i : nat) (rs : list (request E)) : Z :=
    match rs with
    | [] => 0
    | RWatch pre :: rs => match i with O => match pre with None => len | Some es => Z.max len (Z.of_nat (length es) + 1) end | S i => capacity len i rs end
    | _ :: rs => capacity len i rs
    end.

  (** what a watcher returned to its callers; what was taken from its buffer *)
  Definition received (i : nat) (tr : trace) : list E := omap (λ l, match l with MReturn j e => if bool_decide (j = i) then Some e else None | _ => None end) tr.
  Definition taken (i : nat) (tr : trace) : list E :=
    omap (λ l, match l with MReturn j e | MLose j e => if bool_decide (j = i) then Some e else None | _ => None end) tr.
  (** a call of the watcher's __anext__ was cancelled *)
  Definition no_cancel (i : nat) (tr : trace) : Prop := MCancel i ∉ tr.
  Definition not_stopped (i : nat) (tr : trace) : Prop := MStop i ∉ tr.

  (** the requests handled by the loop, with the watchers that missed an event *)
  Definition handled (tr : trace) : list (request E * list nat) := omap (λ l, match l with MTake r ms => Some (r, ms) | _ => None end) tr.
  (** what was put, or is being put, into the buffer of the [i]-th watcher *)
  Definition due_step (i : nat) (st : nat * option (list E)) (h : request E * list nat) : nat * option (list E) :=
    let '(n, o) := st in
    match h with
    | (RWatch pre, _) => (S n, if bool_decide (n = i) then Some (default [] pre) else o)
    | (REvent e, ms) => (n, if bool_decide (i ∈ ms) then o else (λ es, es ++ [e]) <$> o)
    | (RShutdown, _) => (n, o)
    end.
  Definition due (i : nat) (hs : list (request E * list nat)) : option (list E) := (foldl (due_step i) (0, None) hs).2.

  (** calls of __anext__ that left a get task behind *)
  Definition leaves (i : nat) (tr : trace) : nat := length (omap (λ l, match l with MCancel j | MEnd j => if bool_decide (j = i) then Some tt else None | _ => None end) tr).

  (** calls of __anext__ that were made; that returned *)
  Definition calls (i : nat) (tr : trace) : nat := length (omap (λ l, match l with MNext j => if bool_decide (j = i) then Some tt else None | _ => None end) tr).
  (** everything accepted was handled, or the loop ended *)
  Definition quiet (s : mux E) : Prop := (m_phase s = MIdle ∧ m_incoming s = []) ∨ m_phase s = MEnded.

  Context (len : Z) (mode : behavior).
  (** steps of the loop *)
  Definition loop_label (l : mlabel E) : Prop := match l with MTake _ _ | MPut _ _ | MSkip _ | MJoined _ => True | _ => False end.
  Definition can_go (s : mux E) : Prop := ∃ l s', mstep len mode s l s' ∧ loop_label l.
  (** the loop waits for watcher [i] *)
  Definition blocked (i : nat) (s : mux E) : Prop := ∃ w e ids j, m_phase s = MDist e (i :: ids) j ∧ m_ws s !! i = Some w ∧ mw_stopped w = false ∧
    (j = false ∧ mfull w = true ∨ j = true ∧ 0 < mw_unfinished w).
End spec.
