(** Model of cancellation on the Python versions before 3.8 (setup.py:23-27 names 3.6 and 3.7, tox.ini:3
    tests 3.6): there asyncio.CancelledError is a subclass of Exception.

    Only one handler of the package differs: the "except Exception" of
    aiok8s/controller/controller.py:95-96 (every other one around an await re-raises
    CancelledError first).  It is entered when a worker is cancelled in do.reconcile (107) or in
    add_rate_limited or add_after (111, 116, 119): _process_next_work_item then returns None (after
    queue.done, 98), the worker sleeps (71) and goes on. *)
From Verif Require Import Base WorkQueue_model DelayQueue_model RateLimit_model Controller_model.
From Verif Require ManagerStop_model.

Section worker.
  (** [old]: before 3.8 *)
  Context {A : Type} `{EqDecision A} (is_request : A → bool) (old : bool).

  Definition cancelled_in (p : wphase A) : wphase A :=
    match p with
    | WRun x | WPut x _ => WFinish x (if old then RNothing else RCancelled)
    | _ => cancelled p
    end.
  Inductive vstep (s : kstate A) : klabel A → kstate A → Prop :=
  | v_same l s' : (∀ i, l ≠ KCancel i) → kstep is_request s l s' → vstep s l s'
  | v_cancel i p : k_ws s !! i = Some p → vstep s (KCancel i) (set_w i (cancelled_in p) s).
End worker.

Import ManagerStop_model.
(** The tasks of a manager on those versions: a worker that is asked to stop may go on. *)
Inductive olabel := OT (l : tlabel) | OIgnore (k i : nat).
Inductive ostep (s : tree) : olabel → tree → Prop :=
| o_same l s' : tstep s l s' → ostep s (OT l) s'
| o_ignore k i c : t_ctls s !! k = Some c → k_workers c !! i = Some (LRun true) →
    ostep s (OIgnore k i) (with_ctl k (Ctl (k_phase c) (<[i:=LRun false]> (k_workers c)) (k_shut c)) s).
