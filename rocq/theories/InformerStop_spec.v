(** The end of an informer, read off a state or a run. *)
From Verif Require Import Base Listener_model InformerStop_model.
Section spec.
  Context {N : Type}.
  Implicit Types (s : ist N) (l : ilab N).
  (** the environment neither registers another handler nor cancels run again *)
  Definition calm l : Prop := l ≠ IHandler ∧ l ≠ ICancelAgain.
  (** a step of one of the tasks, not a cancellation or call from outside *)
  Definition own_step l : Prop := match l with IHandler | ICancel | ICancelAgain | IACancel | IWaitCancel => False | _ => True end.
  Definition settled s : Prop := ∀ l s', istep s l s' → ¬ own_step l.
  (** the tasks of a listener have ended, if they were made *)
  Definition listener_over (x : bool * lis N) : Prop := x.1 = true → l_pump x.2 = PStopped ∧ l_run x.2 = RStopped.
  (** run, the reflector's task, the processor's task, those of the listeners and the calls of add_event_handler have ended *)
  Definition all_over s : Prop :=
    i_run s = REnd ∧ (i_refl s = FNone ∨ i_refl s = FEnd) ∧ (i_proc s = QNone ∨ i_proc s = QEnd) ∧ Forall listener_over (i_lis s) ∧ i_adder s = None ∧ i_waiting s = 0.
  (** the j-th handler is in a callback *)
  Definition in_callback s (j : nat) : Prop := ∃ x n, i_lis s !! j = Some (true, x) ∧ l_run x = RHandling n.
  Definition callback_returns (j : nat) l : Prop := l = ILis j LReturn ∨ l = ILis j LRaise.
End spec.
