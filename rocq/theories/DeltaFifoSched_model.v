(** Tasks calling one DeltaFIFO under an event loop (aiok8s/cache/delta_fifo.py:140-178).

    A task in [Condition.wait] (line 146) has released the lock; [notify_all]
    makes every waiter want the lock again, to run the loop of [pop] from its
    start.  A task inside [async with self._cond] suspends while holding the
    lock only at [await process(item)] (line 154).  A task that wants the lock
    runs at some moment when it is free, in no particular order (asyncio.Lock is
    first-come first-served, which is one of these orders).  The event loop may
    cancel a suspended task at any time and may never run some tasks. *)
From Verif Require Import Base DeltaFifo_model.

Section sched.
  Context {K O T : Type} `{EqDecision K} (keyf : O → option K).

  Record zsys := ZSys {
    z_q : dfifo K O;
    z_waiting : list T;              (* suspended in Condition.wait, not notified *)
    z_ready : list (T * dop K O);    (* want the lock, to perform that call *)
    z_holder : option T              (* its callback runs; it holds the lock *)
  }.
  Definition zsys_init : zsys := ZSys dfifo_init [] [] None.

  Inductive zlabel :=
  | ZCall (t : T) (c : dop K O) (r : dres K O)   (* t starts a call and proceeds at once *)
  | ZQueue (t : T) (c : dop K O)                 (* t starts a call and has to queue for the lock *)
  | ZGo (t : T) (c : dop K O) (r : dres K O)     (* t obtained the lock *)
  | ZFinish (t : T) (out : doutcome) (r : dres K O)
  | ZCancel (t : T).

  (** the effect of one turn of task [t] *)
  Definition zturn (t : T) (s' : dfifo K O) (r : dres K O) (notify : bool)
      (waiting : list T) (ready : list (T * dop K O)) (holder : option T) : zsys :=
    let ready := if notify then ready ++ ((λ t, (t, DPop)) <$> waiting) else ready in
    let waiting := if notify then [] else waiting in
    match r with
    | DBlocked => ZSys s' (waiting ++ [t]) ready holder
    | DPopped _ => ZSys s' waiting ready (Some t)
    | _ => ZSys s' waiting ready holder
    end.

  (** the label [ZFinish] is the only way to end a callback *)
  Definition starts (c : dop K O) : bool := match c with DFinish _ => false | _ => true end.

  Inductive ztrans : zsys → zlabel → zsys → Prop :=
  | zt_call z t c s' r n : starts c = true →
      dcall keyf (z_q z) c = (s', r, n) → r ≠ DLockWait →
      ztrans z (ZCall t c r) (zturn t s' r n (z_waiting z) (z_ready z) (z_holder z))
  | zt_queue z t c : starts c = true → needs_lock c = true →
      ztrans z (ZQueue t c) (ZSys (z_q z) (z_waiting z) (z_ready z ++ [(t, c)]) (z_holder z))
  | zt_go z t c r1 r2 s' r n :
      z_ready z = r1 ++ (t, c) :: r2 → z_holder z = None →
      dcall keyf (z_q z) c = (s', r, n) →
      ztrans z (ZGo t c r) (zturn t s' r n (z_waiting z) (r1 ++ r2) (z_holder z))
  | zt_finish z t out s' r n :
      z_holder z = Some t → dcall keyf (z_q z) (DFinish out) = (s', r, n) →
      ztrans z (ZFinish t out r) (zturn t s' r n (z_waiting z) (z_ready z) None)
  | zt_cancel_waiting z t w1 w2 :
      z_waiting z = w1 ++ t :: w2 →
      ztrans z (ZCancel t) (ZSys (z_q z) (w1 ++ w2) (z_ready z) (z_holder z))
  | zt_cancel_ready z t c r1 r2 :
      z_ready z = r1 ++ (t, c) :: r2 →
      ztrans z (ZCancel t) (ZSys (z_q z) (z_waiting z) (r1 ++ r2) (z_holder z)).

  (** somebody closed the queue *)
  Definition zcloses (l : zlabel) : Prop := ∃ t, l = ZCall t DClose DNone ∨ l = ZGo t DClose DNone.
End sched.
Arguments zsys : clear implicits.
Arguments zlabel : clear implicits.
