(** Properties of leader election: C59-C61. *)
From Verif Require Import Base LeaderElection_model LeaderElection_spec LeaderElection_proofs LeaderElection_proofs2.
From Coq Require Import ZArith.

(** C59: construction succeeds exactly for consistent configurations *)
Theorem C59_check c : lec_check c = None ↔ consistent c.
Proof. exact (check_ok c). Qed.

(** C60: there are never more leaders than there were deletions of the lock object, *)
Theorem C60_bounded a cs tr w : reach lstep (world_init a cs) tr w → leaders w ≤ deletes tr.
Proof. exact (leaders_deletes a cs tr w). Qed.
(** and two leaders at a time mean that it was deleted after the first acquired it and before the second did *)
Theorem C60_two_deleted a cs tr w i j : reach lstep (world_init a cs) tr w → leads i w → leads j w → i ≠ j →
  ∃ tr1 tr2 tr3 r k k', tr = tr1 ++ LServe k (RCreate r) true :: tr2 ++ LDelete :: tr3 ∧ (k = i ∧ k' = j ∨ k = j ∧ k' = i) ∧ ∃ r', LServe k' (RCreate r') true ∈ tr3.
Proof. exact (two_leaders_deleted a cs tr w i j). Qed.
(** each leader created the object itself, after a deletion *)
Theorem C60_leader_created a cs tr w i : reach lstep (world_init a cs) tr w → leads i w → ∃ r, LServe i (RCreate r) true ∈ tr.
Proof. exact (leader_created a cs tr w i). Qed.
Theorem C60_created_after_deletion a cs tr1 c tr2 w : reach lstep (world_init a cs) (tr1 ++ c :: tr2) w → is_create c = true → LDelete ∈ tr1.
Proof. exact (before_create a cs tr1 c tr2 w). Qed.
(** with deletions there can be two *)
Theorem C60_two_leaders_refuted : ∃ w, reach lstep (world_init (Some AnnNone) [c1; c2]) two_trace w ∧ leads 0 w ∧ leads 1 w.
Proof. exact two_leaders. Qed.
(** when run has ended, on_started_leading is over too, unless on_stopped_leading raised or the wait for it was cancelled, *)
Theorem C60_ended_not_leading a cs tr w i x : reach lstep (world_init a cs) tr w → run_ended i x w → x ≠ Some CallbackError → x ≠ Some Cancelled → ¬ leads i w.
Proof. exact (ended_not_leading a cs tr w i x). Qed.
(** in which case it may still run *)
Theorem C60_ended_leading_refuted : ∃ w, reach lstep (world_init (Some AnnNone) [c1]) raise_trace w ∧ run_ended 0 (Some CallbackError) w ∧ leads 0 w.
Proof. exact ended_leading. Qed.

(** C61 (refuted): a leader whose record is at the server, and who is answered, stops *)
Theorem C61_healthy_refuted : ∃ w w', reach lstep (world_init (Some AnnNone) [c1]) one_trace w ∧ leads 0 w ∧ holds 0 w ∧
  reach lstep w one_trace' w' ∧ holds 0 w' ∧ run_ended 0 (Some AttributeError) w' ∧ leaders w' = 0.
Proof. exact healthy_stops. Qed.
(** always: the first answer with a record stops any leader, *)
Theorem C61_answered_stops a cs tr w i now t w' : reach lstep (world_init a cs) tr w → renewing i w →
  (∃ rv r, w_cm w = Some (CMap rv (AnnKey (RawObj r)))) → lstep w (LGet i now t false) w' → stopping i (Some AttributeError) w'.
Proof. exact (answered_stops a cs tr w i now t w'). Qed.
(** no elector ever renews a lease, *)
Theorem C61_never_renews a cs tr w l : reach lstep (world_init a cs) tr w → l ∈ tr → is_update l = false.
Proof. exact (never_updates a cs tr w l). Qed.
(** nor takes over one, however old it is, *)
Theorem C61_no_takeover a cs tr w i now t fault w' : reach lstep (world_init a cs) tr w → acquiring i w →
  (∃ rv r, w_cm w = Some (CMap rv (AnnKey (RawObj r)))) → lstep w (LGet i now t fault) w' → run_ended i (Some UnboundLocalError) w'.
Proof. exact (no_takeover a cs tr w i now t fault w'). Qed.
(** nobody leads unless the object was deleted, *)
Theorem C61_nobody_leads a cs tr w : reach lstep (world_init a cs) tr w → LDelete ∉ tr → leaders w = 0.
Proof. exact (no_deletion_nobody a cs tr w). Qed.
(** run never returns normally, *)
Theorem C61_run_raises a cs tr w i x : reach lstep (world_init a cs) tr w → run_ended i x w → is_Some x.
Proof. exact (ended_raises a cs tr w i x). Qed.
(** is_leader always raises, *)
Theorem C61_is_leader_raises c a : is_leader c a = inl AttributeError.
Proof. exact (leader_raises c a). Qed.
(** and a leader that does not reach the server leads on for ever: the deadline is not used *)
Theorem C61_unreachable_leads w i : renewing i w → leads i w → ∀ n : nat, ∃ tr w', reach lstep w tr w' ∧ length tr = 2 * n ∧
  (∀ l, l ∈ tr → l = LGet i 0 0 true ∨ l = LTick i) ∧ leads i w' ∧ renewing i w'.
Proof. exact (unreachable_leads w i). Qed.

(** cases *)
Example C59_case : lec_check lec_case = None ∧ lec_check (Lec (QArith_base.Qmake 15 1) (QArith_base.Qmake 10 1) (QArith_base.Qmake 9 1) true true true) = Some ERenew.
Proof. exact lec_case_ok. Qed.
Example C61_case : ∃ w, reach lstep (world_init None [c1]) miss_trace w ∧ run_ended 0 (Some UnboundLocalError) w ∧ leaders w = 0.
Proof. exact missing_raises. Qed.

Print Assumptions C59_check.
Print Assumptions C60_bounded.
Print Assumptions C60_two_deleted.
Print Assumptions C60_leader_created.
Print Assumptions C60_created_after_deletion.
Print Assumptions C60_two_leaders_refuted.
Print Assumptions C60_ended_not_leading.
Print Assumptions C60_ended_leading_refuted.
Print Assumptions C61_healthy_refuted.
Print Assumptions C61_answered_stops.
Print Assumptions C61_never_renews.
Print Assumptions C61_no_takeover.
Print Assumptions C61_nobody_leads.
Print Assumptions C61_run_raises.
Print Assumptions C61_is_leader_raises.
Print Assumptions C61_unreachable_leads.
