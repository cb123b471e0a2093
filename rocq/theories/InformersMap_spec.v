(** Specification of the informer cache: C67, C68, C74. *)
From Verif Require Import Base InformersMap_model.
From Coq Require Import QArith.
Local Open Scope nat_scope.

Section spec.
  Context {G : Type} `{EqDecision G}.
  Implicit Types (tr : list (ilabel G)) (g : G).

  (** informers created for g *)
  Definition created g tr : nat := countb (λ l, match l with IAdd _ g' true => bool_decide (g' = g) | _ => false end) tr.
  (** call r asks for g, whatever it has come to *)
  Definition asks_for g (p : gphase G) : Prop :=
    match p with GLook g' | GFound g' _ _ | GWait g' _ | GDone g' _ _ => g' = g | GCancelled => False end.
  (** call r returned (started, informer) *)
  Definition returned (r : nat) g (id : nat) (started : bool) (s : imap G) : Prop := im_gets s !! r = Some (GDone g id started).
  (** runs of g's informer, and starts of the cache *)
  Definition begins g tr : nat := countb (λ l, match l with IBegin g' => bool_decide (g' = g) | _ => false end) tr.
  Definition starts tr : nat := countb (λ l, match l with IStart => true | _ => false end) tr.
End spec.
(** within 10 percent of the configured period *)
Definition near (resync p : Q) : Prop := (resync * (9 # 10) <= p)%Q ∧ (p <= resync * (11 # 10))%Q.
