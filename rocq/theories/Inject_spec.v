(** What the history of a set of managers, controllers and sources says. *)
From Verif Require Import Base Inject_model.
Implicit Types ls : list ilabel.

(** the sources of the watches of controller [c], in order *)
Definition watches_of (c : nat) ls : list nat := omap (λ l, match l with IWatch c' k => if decide (c = c') then Some k else None | _ => None end) ls.
(** the sources that call [r] of its start started, in order *)
Definition sources_of (c r : nat) ls : list nat :=
  omap (λ l, match l with ISource c' r' k _ => if decide (c = c' ∧ r = r') then Some k else None | _ => None end) ls.
(** the manager that controller [c] was given to last *)
Definition manager_of (c : nat) ls : option nat :=
  last (omap (λ l, match l with INewCtl c' m | IAdd m c' => if decide (c = c') then Some m else None | _ => None end) ls).
(** [m] is the only manager *)
Definition only_manager (m : nat) ls : Prop := ∀ l, l ∈ ls → match l with INewCtl _ m' | IAdd m' _ => m' = m | _ => True end.
