(** Tasks that are left, and tasks that were asked to stop. *)
From Verif Require Import Base ManagerStop_model.
(** the tasks manager.start made, at any depth: [live s w] if w is not done *)
Inductive anytask := ACache | ACtl (k : nat) | ALeaf (w : leafid).
Definition live (s : tree) (a : anytask) : Prop :=
  match a with
  | ACache => ∃ c, t_cache s = Some c ∧ ∀ r, c ≠ CEnd r
  | ACtl k => ∃ c, t_ctls s !! k = Some c ∧ ∀ r, k_phase c ≠ KEnd r
  | ALeaf w => ∃ b, get_leaf s w = Some (LRun b)
  end.
(** the call of manager.start has ended *)
Definition over (s : tree) (r : ending) : Prop := t_main s = MEnd r.
(** an informer or worker that is running and was not asked to stop *)
Definition unasked (s : tree) (w : leafid) : Prop := get_leaf s w = Some (LRun false).
(** it ended by itself *)
Definition own_end (l : tlabel) (w : leafid) : Prop := ∃ r, l = TOwn w r.
(** a step of the tasks, not a cancellation from outside *)
Definition inside (l : tlabel) : Prop := l ≠ TCancel.
(** no step of the tasks is left *)
Definition settled (s : tree) : Prop := ∀ l s', tstep s l s' → ¬ inside l.
(** no informer and no worker has ended by itself in a run *)
Definition none_failed (ls : list tlabel) : Prop := ∀ w r, TOwn w r ∉ ls.
(** manager.start waits for its tasks *)
Definition gathering (s : tree) : Prop := ∃ g, t_main s = MGather g ∧ g_out g = None.
