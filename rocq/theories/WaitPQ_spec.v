(** Specification of the delay heap: a list of (item, deadline) pairs in order
    of insertion, one pair per item. *)
From Verif Require Import Base WaitPQ_model.
From Coq Require Import ZArith.
Open Scope Z_scope.

Section spec.
  Context {A : Type} `{EqDecision A}.
  Notation smap := (list (A * Z)).

  (** [m] with its (first) pair of least deadline singled out *)
  Definition first_least (m m1 m2 : smap) (d : A) (p : Z) : Prop :=
    m = m1 ++ (d, p) :: m2 ∧ Forall (λ e, p < e.2) m1 ∧ Forall (λ e, p ≤ e.2) m2.

  Inductive pspec : smap → pqop A → smap → pqres A → Prop :=
  (** a new item is recorded at the end *)
  | ps_insert_new m d p : d ∉ m.*1 → pspec m (PInsert d p) (m ++ [(d, p)]) QNone
  (** a later or equal deadline changes nothing *)
  | ps_insert_later m d p p0 : (d, p0) ∈ m → p0 ≤ p → pspec m (PInsert d p) m QNone
  (** an earlier deadline replaces the old one and goes to the end *)
  | ps_insert_earlier m m1 m2 d p p0 : m = m1 ++ (d, p0) :: m2 → p < p0 →
      pspec m (PInsert d p) (m1 ++ m2 ++ [(d, p)]) QNone
  | ps_peek m m1 m2 d p : first_least m m1 m2 d p → pspec m PPeek m (QPrio p)
  | ps_peek_empty : pspec [] PPeek [] QKeyError
  | ps_pop m m1 m2 d p : first_least m m1 m2 d p → pspec m PPop (m1 ++ m2) (QData d)
  | ps_pop_empty : pspec [] PPop [] QKeyError
  | ps_len m : pspec m PLen m (QLen (length m)).

  Inductive pspecs : smap → list (pqop A * pqres A) → smap → Prop :=
  | pss_nil m : pspecs m [] m
  | pss_snoc m h m1 o r m2 : pspecs m h m1 → pspec m1 o m2 r → pspecs m (h ++ [(o, r)]) m2.

  (** deadlines requested for [d] since it was last popped, from the history *)
  Fixpoint requests (d : A) (h_newest_first : list (pqop A * pqres A)) : list Z :=
    match h_newest_first with
    | [] => []
    | (PInsert d' p, _) :: h => if decide (d' = d) then p :: requests d h else requests d h
    | (PPop, QData d') :: h => if decide (d' = d) then [] else requests d h
    | _ :: h => requests d h
    end.
  Definition least_of (p : Z) (l : list Z) : Prop := p ∈ l ∧ Forall (λ p', p ≤ p') l.
End spec.
