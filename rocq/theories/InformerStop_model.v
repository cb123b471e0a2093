(** Model of the end of a shared informer: _SharedIndexInformer.run and
    add_event_handler (aiok8s/cache/shared_informer.py:85-159) with the locks they take,
    _SharedProcessor._add_listener, _distribute and _run (248-278), cache/controller.py:47-86, on top of
    the tasks of the listeners (Listener_model.v).

    - One call of run.  The reflector's run is a task that may end by itself and ends
      after it was asked to (its finally clauses only wait for tasks it has cancelled,
      reflector.py:109-111, 244-248).
    - A notification is any [N]; which ones are made of a delta, and for which listeners,
      is in Informer_model.v, so here they are arbitrary (labels IDist, IGet).
      [i_store] has the notification of an addition for each object of the indexer.
    - A lock's holder follows from the phases: _started_lock is held by [i_adder],
      _block_deltas by [i_adder] or run, _listeners_lock by run (260-266) or the
      processor (275-278).  Waiting for the FIFO's lock in close is one step, pop's wait is [RPop].
    - A cancellation is delivered before the task does anything else, so a cancelled
      wait and the statements up to the next wait are one step.
    - Cancelling run again while it waits for the processor task (159) is in InformerAgain_model.v. *)
From Verif Require Import Base Listener_model.

Section stop.
  Context {N : Type}.

  (** run, 134-159; cache/controller.py:47-86 *)
  Inductive rphase :=
  | RLock                                        (* 146 *)
  | RPop                                         (* controller.py:81, pop waits; or the sleep in 64 *)
  | RBlock                                       (* 177, waits for _block_deltas *)
  | RDist                                        (* 260, waits for _listeners_lock *)
  | RAdd (n : N) (js : list nat) (called : bool) (* 261-266: listeners to notify; the first one's _add has been called *)
  | RClose                                       (* controller.py:67 *)
  | RRefl                                        (* controller.py:70 *)
  | RStLock                                      (* 156 *)
  | RProc                                        (* 159 *)
  | REnd.
  Inductive reflt := FNone | FRun (asked : bool) | FEnd.
  (** _SharedProcessor._run *)
  Inductive pphase := QNone | QNew (* 269 *) | QWait (* 274 *) | QLock (* 275 *) | QGather (* 278 *) | QEnd.
  (** a call of add_event_handler that has _started_lock *)
  Inductive aphase :=
  | ABlock                                       (* 129 *)
  | AReg                                         (* 130 *)
  | AAll (j : nat) (ns : list N) (called : bool). (* 131-132 *)
  Record ist := IS {
    i_run : rphase;
    i_refl : reflt;
    i_proc : pphase;
    i_stopped : bool;                 (* _stopped, and processor_stop_event is set *)
    i_lis : list (bool * lis N);      (* _listeners; its tasks have been made *)
    i_store : list N;
    i_waiting : nat;                  (* calls of add_event_handler that wait in 88 *)
    i_adder : option aphase
  }.
  Definition is_init : ist := IS RLock FNone QNone false [] [] 0 None.

  Inductive ilab :=
  | IRun | IItem | IGet (st : list N) | IDist (n : N) (js : list nat) | IDelta (st : list N) | IPopped
  | ICall (j : nat) | IAdded (j : nat)
  | ICancel | ICancelAgain | IClose | IReflOwn | IReflEnd | IReflJoined | IStopped | IProcJoined
  | IProcStart | IProcWake | IProcStop | IProcEnd
  | IHandler | ILock | ILockDone | IBlock | IReg | IACall (n : N) | IAAdded | IADone | IACancel | IWaitCancel
  | ILis (j : nat) (l : llabel N).

  Definition with_lis (ls : list (bool * lis N)) (s : ist) : ist := IS (i_run s) (i_refl s) (i_proc s) (i_stopped s) ls (i_store s) (i_waiting s) (i_adder s).
  Definition with_run (r : rphase) (s : ist) : ist := IS r (i_refl s) (i_proc s) (i_stopped s) (i_lis s) (i_store s) (i_waiting s) (i_adder s).
  Definition with_adder (a : option aphase) (s : ist) : ist := IS (i_run s) (i_refl s) (i_proc s) (i_stopped s) (i_lis s) (i_store s) (i_waiting s) a.
  Definition with_proc (q : pphase) (s : ist) : ist := IS (i_run s) (i_refl s) q (i_stopped s) (i_lis s) (i_store s) (i_waiting s) (i_adder s).
  Definition with_refl (f : reflt) (s : ist) : ist := IS (i_run s) f (i_proc s) (i_stopped s) (i_lis s) (i_store s) (i_waiting s) (i_adder s).
  Definition with_waiting (w : nat) (s : ist) : ist := IS (i_run s) (i_refl s) (i_proc s) (i_stopped s) (i_lis s) (i_store s) w (i_adder s).
  Definition with_store (st : list N) (s : ist) : ist := IS (i_run s) (i_refl s) (i_proc s) (i_stopped s) (i_lis s) st (i_waiting s) (i_adder s).

  (** the locks *)
  Definition block_free (s : ist) : bool :=
    match i_run s with RDist | RAdd _ _ _ => false | _ => true end && match i_adder s with Some AReg | Some (AAll _ _ _) => false | _ => true end.
  Definition lis_free (s : ist) : bool := match i_run s with RAdd _ _ _ => false | _ => true end && match i_proc s with QGather => false | _ => true end.

  (** a step of a listener of which j is the index *)
  Definition lis_step (j : nat) (l : llabel N) (ls ls' : list (bool * lis N)) : Prop :=
    ∃ b x x', ls !! j = Some (b, x) ∧ lstep x l x' ∧ ls' = <[j:=(b, x')]> ls.
  (** a caller of _add that is cancelled, Listener_model.v *)
  Definition drop_call (x : bool * lis N) : bool * lis N := (x.1, Lis AIdle (l_addq x.2) (l_stop x.2) (l_pump x.2) (l_pend x.2) (l_nextq x.2) (l_run x.2)).
  Definition stop_lis (x : bool * lis N) : bool * lis N := (x.1, Lis (l_adder x.2) (l_addq x.2) true (l_pump x.2) (l_pend x.2) (l_nextq x.2) (l_run x.2)).
  Definition lis_ended (x : bool * lis N) : Prop := x.1 = true → l_pump x.2 = PStopped ∧ l_run x.2 = RStopped.
  (** steps of the two tasks of a listener, and of a call of _add *)
  Definition of_tasks (l : llabel N) : bool :=
    match l with LStartPump | LGet | LPutNext | LWake | LNextJoined | LStartRun | LFetch | LCall _ | LReturn | LRaise | LSlept | LRunStop => true | _ => false end.
  Definition of_call (l : llabel N) : bool := match l with LPut _ | LJoined => true | _ => false end.
  (** _started, set with the task of the processor (149-152) *)
  Definition started (s : ist) : bool := match i_proc s with QNone => false | _ => true end.
  (** _listeners_started *)
  Definition listeners_started (s : ist) : bool := match i_proc s with QNone | QNew => false | _ => true end.

  Inductive istep (s : ist) : ilab → ist → Prop :=
  (** 146-154, controller.py:47-63 *)
  | s_run : i_run s = RLock → i_adder s = None →
      istep s IRun (IS RPop (FRun false) QNew (i_stopped s) (i_lis s) (i_store s) (i_waiting s) (i_adder s))
  (** the process loop, handle_deltas 176-202 *)
  | s_item : i_run s = RPop → istep s IItem (with_run RBlock s)
  | s_get st : i_run s = RBlock → block_free s = true → istep s (IGet st) (with_store st (with_run RDist s))
  | s_dist n js : i_run s = RDist → lis_free s = true → Forall (λ j, j < length (i_lis s)) js → istep s (IDist n js) (with_run (RAdd n js false) s)
  | s_call n j js ls' : i_run s = RAdd n (j :: js) false → lis_step j (LAdd n) (i_lis s) ls' → istep s (ICall j) (with_run (RAdd n (j :: js) true) (with_lis ls' s))
  | s_added n j js b x : i_run s = RAdd n (j :: js) true → i_lis s !! j = Some (b, x) → l_adder x = AIdle → istep s (IAdded j) (with_run (RAdd n js false) s)
  | s_delta n st : i_run s = RAdd n [] false → istep s (IDelta st) (with_store st (with_run RDist s))
  | s_popped : (∃ n, i_run s = RAdd n [] false) ∨ i_run s = RDist → istep s IPopped (with_run RPop s)
  (** run is cancelled: before it started anything; in the process loop, controller.py:65-67 *)
  | s_cancel0 : i_run s = RLock → istep s ICancel (with_run REnd s)
  | s_cancel : i_run s = RPop ∨ i_run s = RBlock ∨ i_run s = RDist ∨ (∃ n, i_run s = RAdd n [] false) →
      istep s ICancel (with_run RClose (with_refl (match i_refl s with FRun _ => FRun true | f => f end) s))
  | s_cancel_add n j js c : i_run s = RAdd n (j :: js) c →
      istep s ICancel (with_run RClose (with_refl (match i_refl s with FRun _ => FRun true | f => f end) (with_lis (alter drop_call j (i_lis s)) s)))
  (** and once more: controller.py:67-70; 156 *)
  | s_again_close : i_run s = RClose → istep s ICancelAgain (with_run RRefl s)
  | s_again_refl : i_run s = RRefl → istep s ICancelAgain s
  | s_again_lock : i_run s = RStLock → istep s ICancelAgain (with_run REnd s)
  (** controller.py:67-70, 155-159 *)
  | s_close : i_run s = RClose → istep s IClose (with_run RRefl s)
  | s_refl_own : i_refl s = FRun false → istep s IReflOwn (with_refl FEnd s)
  | s_refl_end : i_refl s = FRun true → istep s IReflEnd (with_refl FEnd s)
  | s_refl_joined : i_run s = RRefl → i_refl s = FEnd → istep s IReflJoined (with_run RStLock s)
  | s_stopped : i_run s = RStLock → i_adder s = None →
      istep s IStopped (IS RProc (i_refl s) (i_proc s) true (i_lis s) (i_store s) (i_waiting s) (i_adder s))
  | s_proc_joined : i_run s = RProc → i_proc s = QEnd → istep s IProcJoined (with_run REnd s)
  (** _SharedProcessor._run *)
  | s_proc_start : i_proc s = QNew → lis_free s = true → istep s IProcStart (with_proc QWait (with_lis ((λ x, (true, x.2)) <$> i_lis s) s))
  | s_proc_wake : i_proc s = QWait → i_stopped s = true → istep s IProcWake (with_proc QLock s)
  | s_proc_stop : i_proc s = QLock → lis_free s = true → istep s IProcStop (with_proc QGather (with_lis (stop_lis <$> i_lis s) s))
  | s_proc_end : i_proc s = QGather → Forall lis_ended (i_lis s) → istep s IProcEnd (with_proc QEnd s)
  (** add_event_handler *)
  | s_handler : istep s IHandler (with_waiting (S (i_waiting s)) s)
  (** 88-95; 125-127 *)
  | s_lock_done w : i_waiting s = S w → i_adder s = None → i_stopped s = true ∨ started s = false →
      istep s ILockDone (with_waiting w (if i_stopped s then s else with_lis (i_lis s ++ [(false, lis_init)]) s))
  | s_lock w : i_waiting s = S w → i_adder s = None → i_stopped s = false → started s = true → istep s ILock (with_waiting w (with_adder (Some ABlock) s))
  (** 129-132, 248-257 *)
  | s_block : i_adder s = Some ABlock → block_free s = true → istep s IBlock (with_adder (Some AReg) s)
  | s_reg : i_adder s = Some AReg → lis_free s = true →
      istep s IReg (with_adder (Some (AAll (length (i_lis s)) (i_store s) false)) (with_lis (i_lis s ++ [(listeners_started s, lis_init)]) s))
  | s_acall j n ns ls' : i_adder s = Some (AAll j (n :: ns) false) → lis_step j (LAdd n) (i_lis s) ls' → istep s (IACall n) (with_adder (Some (AAll j (n :: ns) true)) (with_lis ls' s))
  | s_aadded j n ns b x : i_adder s = Some (AAll j (n :: ns) true) → i_lis s !! j = Some (b, x) → l_adder x = AIdle → istep s IAAdded (with_adder (Some (AAll j ns false)) s)
  | s_adone j : i_adder s = Some (AAll j [] false) → istep s IADone (with_adder None s)
  (** its caller is cancelled *)
  | s_acancel a : i_adder s = Some a → istep s IACancel (with_adder None (match a with AAll j _ _ => with_lis (alter drop_call j (i_lis s)) s | _ => s end))
  | s_wait_cancel w : i_waiting s = S w → istep s IWaitCancel (with_waiting w s)
  (** the listeners' tasks, and the calls of _add *)
  | s_task j l ls' x : i_lis s !! j = Some (true, x) → of_tasks l = true → lis_step j l (i_lis s) ls' → istep s (ILis j l) (with_lis ls' s)
  | s_callstep j l ls' : of_call l = true → lis_step j l (i_lis s) ls' → istep s (ILis j l) (with_lis ls' s).
End stop.
Arguments rphase : clear implicits.
Arguments aphase : clear implicits.
Arguments ist : clear implicits.
Arguments ilab : clear implicits.
