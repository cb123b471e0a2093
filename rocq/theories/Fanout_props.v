(** Property of the handlers of a shared informer together: C94. *)
From Verif Require Import Base Listener_model Fanout_model Fanout_spec Fanout_proofs.

Section props.
  Context {N : Type}.
  Implicit Types (s : fan N) (tr : list (flabel N)).
  Notation fstep := (fstep (N:=N)).
  Notation init := (fan_init (N:=N)).

  (** C94: every handler is given what it is to be given, once each and in order: the objects there were when it was
      registered, then every notification, those of a resync only if it was syncing *)
  Theorem C94_in_order i tr s : reach fstep init tr s → calls i tr `prefix_of` expected i tr.
  Proof. exact (calls_prefix i tr s). Qed.
  (** if all callbacks end and nothing new arrives, it stops after a bounded number of steps *)
  Theorem C94_ends s : ∃ b, ∀ tr s', reach fstep s tr s' → (∀ l, l ∈ tr → ¬ arrives l) → length tr ≤ b.
  Proof. exact (ends s). Qed.
  (** and then every handler was given everything, and the lock is free *)
  Theorem C94_delivered tr s : reach fstep init tr s → (∀ l s', fstep s l s' → arrives l) → f_job s = [] ∧ ∀ i, calls i tr = expected i tr.
  Proof. exact (delivered tr s). Qed.
  (** notifications for all are distributed no faster than the slowest handler is called *)
  Theorem C94_waits_for i tr0 s0 tr s : reach fstep init tr0 s0 → f_job s0 = [] → i < length (f_ls s0) → reach fstep s0 tr s →
    for_all tr ≤ length (calls i tr) + 4.
  Proof. exact (waits_for i tr0 s0 tr s). Qed.
  (** so that, resyncs apart, the numbers of calls of two handlers differ by at most eight *)
  Theorem C94_lockstep i j tr0 s0 tr s : reach fstep init tr0 s0 → f_job s0 = [] → i < length (f_ls s0) → j < length (f_ls s0) → reach fstep s0 tr s →
    (∀ n, FDistribute n true ∉ tr) → length (calls j tr) ≤ length (calls i tr) + 8.
  Proof. exact (lockstep i j tr0 s0 tr s). Qed.
End props.
(** a handler that does not return keeps the others from being called: only its return, or a check for resyncs, is possible *)
Theorem C94_isolation_refuted : ∃ tr (s : fan nat), reach fstep fan_init tr s ∧ expected 1 tr = [1; 2; 3] ∧ calls 1 tr = [1; 2] ∧ calls 0 tr = [1] ∧
  ∀ l s', fstep s l s' → returns 0 l ∨ ∃ due, l = FResync due.
Proof. exact isolation_refuted. Qed.

(** cases: a resync for the second of two handlers, then a third handler *)
Example C94_case : reach fstep fan_init sync_tr (Fan [rest_l; rest_l; rest_l] [1; 2] []) ∧
  calls 0 sync_tr = [] ∧ calls 1 sync_tr = [7] ∧ calls 2 sync_tr = [8] ∧ expected 0 sync_tr = [] ∧ expected 1 sync_tr = [7] ∧ expected 2 sync_tr = [8].
Proof. exact (conj sync_runs sync_case). Qed.
Example C94_case_stuck : reach fstep fan_init stuck_tr stuck_s.
Proof. exact stuck_runs. Qed.

Print Assumptions C94_in_order.
Print Assumptions C94_ends.
Print Assumptions C94_delivered.
Print Assumptions C94_waits_for.
Print Assumptions C94_lockstep.
Print Assumptions C94_isolation_refuted.
