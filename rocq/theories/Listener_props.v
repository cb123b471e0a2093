(** Properties of a shared informer's listener: C45, C46. *)
From Verif Require Import Base Listener_model Listener_spec Listener_proofs.

Section props.
  Context {N : Type}.
  Notation lis := (lis N).
  Notation lstep := (lstep (N:=N)).
  Notation init := (lis_init (N:=N)).

  (** C45: the handler is given the accepted notifications once each, in order *)
  Theorem C45_handled_in_order ls (s : lis) : reach lstep init ls s → handled_of ls `prefix_of` accepted_of ls.
  Proof. exact (handled_prefix ls s). Qed.
  (** without a stop request, once no task can go on, all of them were handled and no caller of _add waits *)
  Theorem C45_all_handled ls (s : lis) : reach lstep init ls s → LStop ∉ ls → (∀ l s', lstep s l s' → ¬ task_step l) →
    handled_of ls = accepted_of ls ∧ l_adder s = AIdle.
  Proof. exact (all_handled ls s). Qed.
  (** and the tasks cannot go on forever without a new notification *)
  Theorem C45_tasks_terminate (s : lis) : ∃ b, ∀ ls s', reach lstep s ls s' → (∀ l, l ∈ ls → task_step l) → length ls ≤ b.
  Proof. exact (tasks_terminate s). Qed.
  (** after a stop request both tasks end, *)
  Theorem C45_stops ls (s : lis) : reach lstep init ls s → LStop ∈ ls → (∀ l s', lstep s l s' → ¬ task_step l) → l_pump s = PStopped ∧ l_run s = RStopped.
  Proof. exact (stops ls s). Qed.

  (** C46: while a callback runs at most two calls of _add, besides one already waiting, return *)
  Theorem C46_at_most_two ls (s : lis) n ls' s' : reach lstep init ls s → l_run s = RHandling n → reach lstep s ls' s' →
    (∀ l, l ∈ ls' → ¬ callback_ends l) → returned_of ls' ≤ 2 + match l_adder s with AJoining => 1 | _ => 0 end.
  Proof. exact (stall ls s n ls' s'). Qed.
End props.
(** but a caller of _add may wait for ever then *)
Theorem C45_stop_hangs_refuted : ∃ s, reach lstep lis_init stop_ls s ∧ l_adder s = AJoining ∧ ∀ ls s', reach lstep s ls s' → LAddCancel ∉ ls → l_adder s' = AJoining.
Proof. exact stop_hangs. Qed.
(** the caller of _add can only be released by the end of the callback *)
Theorem C46_stall_refuted : ∃ ls (s : lis nat), reach lstep lis_init ls s ∧ handled_of ls = [1] ∧ accepted_of ls = [1; 2; 3; 4] ∧ l_adder s = AJoining ∧
  ∀ l s', lstep s l s' → callback_ends l ∨ ¬ task_step l.
Proof. exact stall_refuted. Qed.

(** cases *)
Example C45_case : reach lstep lis_init stall_ls stall_s ∧ handled_of stall_ls = [1] ∧ accepted_of stall_ls = [1; 2; 3; 4].
Proof. exact (conj stall_runs (conj eq_refl eq_refl)). Qed.

Print Assumptions C45_handled_in_order.
Print Assumptions C45_all_handled.
Print Assumptions C45_tasks_terminate.
Print Assumptions C45_stops.
Print Assumptions C45_stop_hangs_refuted.
Print Assumptions C46_at_most_two.
Print Assumptions C46_stall_refuted.
