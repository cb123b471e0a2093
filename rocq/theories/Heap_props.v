(** Property of the delay heap as heapq lays it out: C95. *)
From Verif Require Import Base WaitPQ_model WaitPQ_spec Heap_model Heap_spec Heap_proofs.
From Coq Require Import ZArith.
Local Open Scope nat_scope.

Section heapq.
  Context {E K : Type} (lt : E → E → option bool) (key : E → K) (HO : orders lt key).
  (** C95: heappush adds the element and keeps the heap order, *)
  Theorem C95_push e h : heap_ordered lt h → NoDup (key <$> (e :: h)) → ∃ h', hpush lt e h = Some h' ∧ heap_ordered lt h' ∧ h' ≡ₚ e :: h.
  Proof. exact (hpush_ok lt key HO e h). Qed.
  (** heappop answers the first element, which is the least, removes it alone and keeps the heap order *)
  Theorem C95_pop h : heap_ordered lt h → NoDup (key <$> h) → h ≠ [] →
    ∃ x h', hpop lt h = Some (x, h') ∧ head h = Some x ∧ heap_ordered lt h' ∧ h ≡ₚ x :: h' ∧ ∀ y, y ∈ h' → lt y x = Some false.
  Proof. exact (hpop_ok lt key HO h). Qed.
End heapq.
Section props.
  Context {A : Type} `{EqDecision A}.
  (** the order of the entries is such an order *)
  Theorem C95_entries_ordered : orders (list_lt (A:=A)) (λ e, e.1.2).
  Proof. exact list_lt_orders. Qed.
  (** so the delay queue never compares two items, and answers as it does with a sorted list, *)
  Theorem C95_same_answers (h : list (pqop A * hres A)) s : exec hstep pq_init h s →
    ∃ (h' : list (pqop A * pqres A)) t, h = (λ e, (e.1, HOk e.2)) <$> h' ∧ exec pqstep pq_init h' t.
  Proof. exact (same_as_sorted h s). Qed.
  (** that is, as a map from items to deadlines (C08) *)
  Theorem C95_refines_map (h : list (pqop A * hres A)) s : exec hstep pq_init h s →
    ∃ (h' : list (pqop A * pqres A)) m, h = (λ e, (e.1, HOk e.2)) <$> h' ∧ NoDup m.*1 ∧ pspecs [] h' m.
  Proof. exact (heap_refines h s). Qed.
  (** its list has the heap order at any time, although entries are changed in place *)
  Theorem C95_heap_kept (h : list (pqop A * hres A)) s : exec hstep pq_init h s → heap_ordered list_lt (pq_heap s) ∧ NoDup ((λ e, e.1.2) <$> pq_heap s).
  Proof. exact (heap_kept h s). Qed.
End props.

(** cases *)
Example C95_case : ∃ s, exec hstep pq_init heap_demo s.
Proof. exact heap_demo_runs. Qed.
Example C95_case_layout : ∃ s, exec hstep pq_init (take 7 heap_demo) s ∧
  (λ e, e.1) <$> pq_heap s = [(10%Z, 5); (30%Z, 2); (20%Z, 3); (50%Z, 0); (40%Z, 4); (40%Z, 1); (30%Z, 6)].
Proof. exact heap_demo_layout. Qed.

Print Assumptions C95_push.
Print Assumptions C95_pop.
Print Assumptions C95_entries_ordered.
Print Assumptions C95_same_answers.
Print Assumptions C95_refines_map.
Print Assumptions C95_heap_kept.
