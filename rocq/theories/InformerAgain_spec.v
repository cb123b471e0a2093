(** The end of an informer that is cancelled twice, read off a state or a run. *)
From Verif Require Import Base Listener_model InformerStop_model InformerStop_spec InformerAgain_model.
Section spec.
  Context {N : Type}.
  Implicit Types (s : cst N) (l : clab N).
  (** run has ended *)
  Definition run_over s : Prop := i_run (c_st s) = REnd.
  (** run, the processor's task and those of the listeners have ended *)
  Definition tasks_over s : Prop := run_over s ∧ i_proc (c_st s) = QEnd ∧ Forall listener_over (i_lis (c_st s)).
  (** no task can go on *)
  Definition still s : Prop := ∀ l s', cstep s l s' → l = CAgain.
  (** the processor is waiting for the tasks of the listeners *)
  Definition gathering s : Prop := c_mode s = CNo ∧ i_run (c_st s) = RProc ∧ i_proc (c_st s) = QGather.
  (** the processor has not been run after its event was set *)
  Definition not_woken s : Prop := c_mode s = CNo ∧ i_run (c_st s) = RProc ∧ i_proc (c_st s) = QWait.
  Definition not_begun s : Prop := c_mode s = CNo ∧ i_run (c_st s) = RProc ∧ i_proc (c_st s) = QNew.
  (** a task of the j-th listener has neither ended nor is in a callback *)
  Definition idle_task s (j : nat) : Prop := ∃ x, i_lis (c_st s) !! j = Some (true, x) ∧
    (l_pump x ≠ PStopped ∨ (l_run x ≠ RStopped ∧ ∀ n, l_run x ≠ RHandling n)).
  (** the j-th handler is in a callback *)
  Definition calling s (j : nat) : Prop := in_callback (c_st s) j.
End spec.
