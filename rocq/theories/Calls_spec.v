(** Specification for C87: the calls that a schedule has begun and those it has
    ended, read off the labels of the schedule, and the calls that are still
    under way in a state. *)
From Verif Require Import Base WorkQueue_model WorkQueueSched_model Fifo_model FifoSched_model
  DeltaFifo_model DeltaFifoSched_model WaitPQ_model DelayQueue_model.
From Coq Require Import ZArith.

(** work queue: the caller of [get] *)
Section wq.
  Context {A : Type}.
  Definition get_begun (l : slabel A) : list nat := match l with LGet t _ => [t] | _ => [] end.
  Definition get_ended (l : slabel A) : list nat :=
    match l with
    | LGet t RBlocked | LRun t RBlocked => []
    | LGet t _ | LRun t _ | LCancelWaiting t | LCancelNotified t => [t]
    | LCall _ _ => []
    end.
  Definition in_get (s : sched A) : list nat := s_waiting s ++ s_notified s.
End wq.

(** FIFO: the caller of any method *)
Section fifo.
  Context {K O T : Type}.
  Definition call_begun (l : flabel K O T) : list T := match l with YCall t _ _ => [t] | _ => [] end.
  Definition call_ended (l : flabel K O T) : list T :=
    match l with
    | YCall t _ FBlocked | YResume t FBlocked => []
    | YCall t _ _ | YResume t _ | YCancel t => [t]
    end.
  Definition in_call (y : fsys K O T) : list T := (y_waiting y).*1 ++ (y_woken y).*1.
End fifo.

(** DeltaFIFO: the caller of any method; a [pop] whose callback runs has not
    ended *)
Section delta.
  Context {K O T : Type}.
  Definition dcall_begun (l : zlabel K O T) : list T := match l with ZCall t _ _ | ZQueue t _ => [t] | _ => [] end.
  Definition dcall_ended (l : zlabel K O T) : list T :=
    match l with
    | ZCall t _ (DBlocked | DPopped _) | ZGo t _ (DBlocked | DPopped _) | ZQueue t _ => []
    | ZCall t _ _ | ZGo t _ _ | ZFinish t _ _ | ZCancel t => [t]
    end.
  Definition in_dcall (z : zsys K O T) : list T := z_waiting z ++ (z_ready z).*1 ++ option_list (z_holder z).
End delta.

(** delaying queue: the [put]s that [add_after] with a positive delay starts *)
Section delay.
  Context {A : Type}.
  Definition puts_begun (l : dlabel A) : nat := match l with DAddAfter _ d _ => if (d <=? 0)%Z then 0 else 1 | _ => 0 end.
  Definition puts_ended (l : dlabel A) : nat := match l with DPut | DPutCancel => 1 | _ => 0 end.
End delay.
