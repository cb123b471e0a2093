(** C101: the DeltaFIFO by reference. *)
From Verif Require Import Base DeltaFifo_model DeltaRef_model DeltaRef_spec DeltaRef_proofs.

Section C101.
  Context {K O : Type} `{EqDecision K} (keyf : O → option K).
  Notation rst := (rst K O).
  Notation rstep := (rstep keyf).

  (** if no list is changed while the queue holds it, the queue is the one of values:
      the same calls with the same answers *)
  Theorem C101_careful h (s : rst) : exec rstep rst_init h s → careful keyf h → exec (dstep keyf) dfifo_init (read keyf rst_init h) (values s).
  Proof. exact (λ He Hc, proj1 (careful_values keyf h s He Hc)). Qed.
  (** so it is for programs that change only lists they were given or made, did not hand to
      the queue, and are not processing *)
  Theorem C101_polite h (s : rst) : exec rstep rst_init h s → polite h → careful keyf h ∧ exec (dstep keyf) dfifo_init (read keyf rst_init h) (values s).
  Proof. exact (λ He Hp, conj (polite_careful keyf h s He Hp) (polite_values keyf h s He Hp)). Qed.
  (** whatever was changed before: after an add or update of a key, no list that the program
      had is the one pending *)
  Theorem C101_own h (s : rst) c o k : exec rstep rst_init h s → c = DAdd o ∨ c = DUpdate o → key_of keyf o = Some k → (rstep s (RCall c)).2 ≠ RRes DLockWait →
    ∀ r ds, given h r → shows keyf (rstep (rstep s (RCall c)).1 (REdit r ds)).1 k = shows keyf (rstep s (RCall c)).1 k.
  Proof. exact (own_list keyf h s c o k). Qed.
End C101.

(** a callback that empties its list and asks for a requeue: list fails, and the next callback gets an empty list *)
Theorem C101_emptied_refuted : ∃ h s, h.*1 = emptied ∧ exec (rstep rkey) rst_init h s ∧ given (take 2 h) 0 ∧
  (rstep rkey s (RCall DListKeys)).2 = RRes (DKeys [1]) ∧ (rstep rkey s (RCall DList)).2 = RRes DAttributeError ∧ shows rkey s 1 = DDeltas (Some []) ∧
  (let '(s', x) := rstep rkey s (RCall DPop) in answer_value s' x) = DPopped [].
Proof. exact emptied_refuted. Qed.
(** a list changed after add_if_not_present: pending under a key that is not its own *)
Theorem C101_changed_refuted : ∃ h s, h.*1 = changed ∧ exec (rstep rkey) rst_init h s ∧ given (take 1 h) 0 ∧
  (rstep rkey s (RCall DListKeys)).2 = RRes (DKeys [1]) ∧ shows rkey s 1 = DDeltas (Some [(DtAdded, ro 2)]).
Proof. exact changed_refuted. Qed.
(** a polite program that changes three lists *)
Theorem C101_case : ∃ h s, h.*1 = politely ∧ exec (rstep rkey) rst_init h s ∧ polite h ∧
  read rkey rst_init h = [(DAddIfNotPresent [(DtAdded, ro 1)], DNone); (DUpdate (ro 1), DNone); (DGetByKey 1, DDeltas (Some [(DtAdded, ro 1); (DtUpdated, ro 1)]));
    (DPop, DPopped [(DtAdded, ro 1); (DtUpdated, ro 1)]); (DFinish DOk, DItem [(DtAdded, ro 1); (DtUpdated, ro 1)])].
Proof. exact politely_case. Qed.

Print Assumptions C101_careful.
Print Assumptions C101_polite.
Print Assumptions C101_own.
Print Assumptions C101_emptied_refuted.
Print Assumptions C101_changed_refuted.
Print Assumptions C101_case.
