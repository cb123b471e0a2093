(** Model of _SharedIndexInformer.run (aiok8s/cache/shared_informer.py:134-159)
    cancelled once more while it waits for the processor task in line 159, on top
    of InformerStop_model.v, which has everything up to there.

    - Cancelling a task that awaits another cancels the other.  So the processor
      task is cancelled where it is (268-278):
      before or in 269, it ends, and no task of a listener has been made;
      in 274, it ends, and the listeners are not told to stop;
      in 278, gather cancels the tasks of the listeners, and ends with the first
      of them that ends cancelled, or when all have ended.
      (275 is never waited in: the processor alone uses the lock by then.)
    - A cancelled [_pop] ends and sets _stop_next (359-361), [_run] ends where it
      is (395-396), unless it is in a callback of the handler, which the
      cancellation is thrown into.  The callback may take its time, then return,
      raise, or let the cancellation through.
    - The get and put tasks that a cancelled _pop or _run leaves behind (327, 331,
      373) take no part in anything after.
    - No handler can be added by then (C83), so calls of add_event_handler are left out
      after the second cancellation.  The end of the processor task and the end of
      run, which awaits it, are one step. *)
From Verif Require Import Base Listener_model InformerStop_model.

Section again.
  Context {N : Type}.

  (** where the second cancellation met the processor *)
  Inductive cmode :=
  | CNo                       (* not cancelled a second time in 159 *)
  | CUnstarted                (* in 269 *)
  | CLeft                     (* in 274 *)
  | CGather (gone : bool)     (* in 278; gone: a task of a listener ended cancelled *)
  | CGathered                 (* and gather has ended *)
  | CDone.                    (* the processor had ended *)
  Record cst := CS { c_st : ist N; c_mode : cmode }.
  Definition cs_init : cst := CS is_init CNo.

  (** the tasks of a listener, cancelled *)
  Definition cancel_lis (x : bool * lis N) : bool * lis N :=
    (x.1, Lis (l_adder x.2) (l_addq x.2) (l_stop x.2) PStopped (l_pend x.2) (l_nextq x.2)
            (match l_run x.2 with RHandling n => RHandling n | _ => RStopped end)).
  (** one of them ends at once *)
  Definition cancellable (x : bool * lis N) : bool :=
    match l_pump x.2 with PStopped => match l_run x.2 with RHandling _ | RStopped => false | _ => true end | _ => true end.
  Definition ended (s : ist N) : ist N := with_run REnd (with_proc QEnd s).

  Inductive clab := CBase (l : ilab N) | CAgain | CThrough (j : nat) | CEnd.
  Inductive cstep (s : cst) : clab → cst → Prop :=
  | c_base l t : c_mode s = CNo → istep (c_st s) l t → cstep s (CBase l) (CS t CNo)
  (** the second cancellation *)
  | c_unstarted : c_mode s = CNo → i_run (c_st s) = RProc → i_proc (c_st s) = QNew → cstep s CAgain (CS (ended (c_st s)) CUnstarted)
  | c_left : c_mode s = CNo → i_run (c_st s) = RProc → i_proc (c_st s) = QWait → cstep s CAgain (CS (ended (c_st s)) CLeft)
  | c_gather : c_mode s = CNo → i_run (c_st s) = RProc → i_proc (c_st s) = QGather →
      cstep s CAgain (CS (with_lis (cancel_lis <$> i_lis (c_st s)) (c_st s)) (CGather (existsb cancellable (i_lis (c_st s)))))
  | c_done : c_mode s = CNo → i_run (c_st s) = RProc → i_proc (c_st s) = QEnd → cstep s CAgain (CS (ended (c_st s)) CDone)
  (** a third changes nothing *)
  | c_more g : c_mode s = CGather g → cstep s CAgain s
  (** the end of gather *)
  | c_end g : c_mode s = CGather g → g = true ∨ Forall lis_ended (i_lis (c_st s)) → cstep s CEnd (CS (ended (c_st s)) CGathered)
  (** a callback lets the cancellation through *)
  | c_through m j x n : (c_mode s = CGathered ∧ m = CGathered) ∨ ((∃ g, c_mode s = CGather g) ∧ m = CGather true) →
      i_lis (c_st s) !! j = Some (true, x) → l_run x = RHandling n →
      cstep s (CThrough j) (CS (with_lis (<[j:=(true, Lis (l_adder x) (l_addq x) (l_stop x) (l_pump x) (l_pend x) (l_nextq x) RStopped)]> (i_lis (c_st s))) (c_st s)) m)
  (** the tasks of the listeners *)
  | c_task j l ls' x : c_mode s ≠ CNo → i_lis (c_st s) !! j = Some (true, x) → of_tasks l = true → lis_step j l (i_lis (c_st s)) ls' →
      cstep s (CBase (ILis j l)) (CS (with_lis ls' (c_st s)) (c_mode s)).
End again.
Arguments cmode : clear implicits.
Arguments cst : clear implicits.
Arguments clab : clear implicits.
