(** Property C08, and the heap part of C12: the delay heap
    (aiok8s/workqueue/delaying_queue.py, class _WaitForPriorityQueue). *)
From Verif Require Import Base WaitPQ_model WaitPQ_spec WaitPQ_proofs.
From Coq Require Import ZArith.
Open Scope Z_scope.

Section props.
  Context {A : Type} `{EqDecision A}.

  (** C08: every sequence of calls is answered as by the abstract map ... *)
  Theorem C08_heap_refines_map (h : list (pqop A * pqres A)) s :
    exec pqstep pq_init h s → ∃ m, NoDup m.*1 ∧ pspecs [] h m.
  Proof. exact (heap_refines_map h s). Qed.
  (** ... whose answers are determined. *)
  Theorem C08_map_answers_determined (m : list (A * Z)) o m1 r1 m2 r2 :
    NoDup m.*1 → pspec m o m1 r1 → pspec m o m2 r2 → m1 = m2 ∧ r1 = r2.
  Proof. exact (pspec_det m o m1 r1 m2 r2). Qed.
  (** in particular, after any history, pop and peek answer with a least
      deadline and only an empty heap raises *)
  Theorem C08_pop_and_peek (h : list (pqop A * pqres A)) s :
    exec pqstep pq_init h s → ∃ m, pspecs [] h m ∧
      (pqstep s PLen).2 = QLen (length m) ∧
      (m = [] ∧ (pqstep s PPop).2 = QKeyError ∧ (pqstep s PPeek).2 = QKeyError ∨
       ∃ d p, (pqstep s PPop).2 = QData d ∧ (pqstep s PPeek).2 = QPrio p ∧
         (d, p) ∈ m ∧ ∀ d' p', (d', p') ∈ m → p ≤ p').
  Proof. exact (pop_and_peek h s). Qed.

  (** C12: the deadline kept for an item is the least one requested since the
      item was last popped, and an item is kept iff there is such a request. *)
  Theorem C12_deadline_is_least_requested (h : list (pqop A * pqres A)) m :
    pspecs [] h m → ∀ d, (d ∉ m.*1 ↔ requests d (reverse h) = []) ∧
      ∀ p, (d, p) ∈ m ↔ least_of p (requests d (reverse h)).
  Proof. exact (deadline_is_least h m). Qed.
End props.

Definition pq_demo : list (pqop nat * pqres nat) :=
  [(PPop, QKeyError); (PInsert 1 50, QNone); (PInsert 2 30, QNone); (PInsert 1 20, QNone);
   (PInsert 2 40, QNone); (PInsert 3 20, QNone); (PLen, QLen 3); (PPeek, QPrio 20);
   (PPop, QData 1); (PPop, QData 3); (PInsert 1 30, QNone); (PPop, QData 2); (PPop, QData 1);
   (PPeek, QKeyError); (PLen, QLen 0)]%nat%Z.
Example C08_case : ∃ s, exec pqstep pq_init pq_demo s.
Proof. eexists. apply exec_check. vm_compute. reflexivity. Qed.
Example C12_case : requests 1%nat (reverse (take 5 pq_demo)) = [20; 50] ∧ least_of 20 [20; 50].
Proof. split; [done|]. split; [set_solver|]. repeat constructor; lia. Qed.

Print Assumptions C08_heap_refines_map.
Print Assumptions C08_map_answers_determined.
Print Assumptions C08_pop_and_peek.
Print Assumptions C12_deadline_is_least_requested.
