(** Model of the tasks inside [Reflector.list_and_watch] and [_watch_handler], aiok8s/cache/reflector.py:64, 78,
    86-111, 143-248, on the event loop of CPython 3.8-3.12: what happens after the list, up to the return of list_and_watch.
    - [w_ready] is the loop's list of callbacks that are ready, which it runs first in, first out: steps of tasks, and
      the callbacks with which asyncio.wait (159) learns that a task has ended.  A transition runs the first of
      them ([WRun]), or is something that comes from outside.
    - asyncio.wait puts a callback on each task; the first callback that runs sets the result of its future, which
      makes the handler ready; callbacks of former waits have no effect, so they carry the number of their wait.
      When the handler runs, [done] has the tasks that ended until then.
    - The queues are unbounded (146) or get one item (64, 78), so no put waits.  A get is as in AsyncQueue_model.v.
    - What get_events (148-152) reads from the watch is left open: each time it goes on it has read some events, and the
      stream may go on, have ended (with async with left), or have raised.  Cancelled while it reads, it leaves async with
      after some time ([WExit]); streams that ignore a cancellation are not modelled.
    - A call of the store (195, 206, 217) acts at one moment, [WStored]; a handler cancelled before that leaves the store
      as it is.  The resync task (66-83) is reduced to its calls of resync (Resync_model.v has it).
    - gather (111, 248) goes on at some time after its tasks have ended.
    [w_put], [w_seen] and [w_calls] record the events put into the queue and looked at in the present watch, and
    the calls of the store and of watch. *)
From Verif Require Import Base Reflector_model.

Section loop.
  Context {O RV St : Type} (g : rcfg O RV) (q : sops O RV St).

  (** the tasks made from get (155, 158) *)
  Inductive wfut := WPending | WWoken (cancelled : bool) | WCancelled.
  Inductive gtask (A : Type) := GNew (cancelled : bool) | GWait (f : wfut) | GDone (a : A) | GGone.
  Arguments GNew {A} _. Arguments GWait {A} _. Arguments GDone {A} _. Arguments GGone {A}.

  (** how far the stream is, and get_events *)
  Inductive sfate := SMore | SEnd | SRaise.
  Inductive reader := RdNew | RdRead | RdHave (es : list (event O)) (f : sfate) | RdExit | RdOver.

  Inductive handle := HRead | HEvent | HError | HDone (n : nat) | HHandler.

  (** line 93; line 159; in a call of the store; line 248, and then; returned to run; cancelled *)
  Inductive wpc := PReady | PWait | PStore (e : event O) (rv : RV) | PClosing (why : rinput O RV) | PReturned | PCancelled.

  Record wstate := W {
    w_pc : wpc;
    w_ready : list handle;
    w_wait : nat;                          (* the number of the last wait *)
    w_fired : bool;                        (* its future is done *)
    w_cancel : bool;                       (* the handler was cancelled there *)
    w_reader : reader;                     (* 148-154 *)
    w_queue : list (option (event O));     (* 146; None: the end *)
    w_event : gtask (option (event O));    (* 158 *)
    w_error : gtask unit;                  (* 155 *)
    w_errq : bool;                         (* 64 *)
    w_resync : bool;                       (* the resync task has not ended *)
    w_count : nat;                         (* 145 *)
    w_last : option RV; w_opt : option RV; w_store : St;
    w_put : list (event O); w_seen : list (event O); w_calls : list (routput O RV)
  }.

  Definition set_pc (p : wpc) (s : wstate) : wstate := W p (w_ready s) (w_wait s) (w_fired s) (w_cancel s) (w_reader s) (w_queue s) (w_event s) (w_error s) (w_errq s) (w_resync s) (w_count s) (w_last s) (w_opt s) (w_store s) (w_put s) (w_seen s) (w_calls s).
  Definition set_ready (r : list handle) (s : wstate) : wstate := W (w_pc s) r (w_wait s) (w_fired s) (w_cancel s) (w_reader s) (w_queue s) (w_event s) (w_error s) (w_errq s) (w_resync s) (w_count s) (w_last s) (w_opt s) (w_store s) (w_put s) (w_seen s) (w_calls s).
  Definition set_fired (b : bool) (s : wstate) : wstate := W (w_pc s) (w_ready s) (w_wait s) b (w_cancel s) (w_reader s) (w_queue s) (w_event s) (w_error s) (w_errq s) (w_resync s) (w_count s) (w_last s) (w_opt s) (w_store s) (w_put s) (w_seen s) (w_calls s).
  Definition set_cancel (b : bool) (s : wstate) : wstate := W (w_pc s) (w_ready s) (w_wait s) (w_fired s) b (w_reader s) (w_queue s) (w_event s) (w_error s) (w_errq s) (w_resync s) (w_count s) (w_last s) (w_opt s) (w_store s) (w_put s) (w_seen s) (w_calls s).
  Definition set_reader (x : reader) (s : wstate) : wstate := W (w_pc s) (w_ready s) (w_wait s) (w_fired s) (w_cancel s) x (w_queue s) (w_event s) (w_error s) (w_errq s) (w_resync s) (w_count s) (w_last s) (w_opt s) (w_store s) (w_put s) (w_seen s) (w_calls s).
  Definition set_event (x : gtask (option (event O))) (k : list (option (event O))) (s : wstate) : wstate := W (w_pc s) (w_ready s) (w_wait s) (w_fired s) (w_cancel s) (w_reader s) k x (w_error s) (w_errq s) (w_resync s) (w_count s) (w_last s) (w_opt s) (w_store s) (w_put s) (w_seen s) (w_calls s).
  Definition set_error (x : gtask unit) (b : bool) (s : wstate) : wstate := W (w_pc s) (w_ready s) (w_wait s) (w_fired s) (w_cancel s) (w_reader s) (w_queue s) (w_event s) x b (w_resync s) (w_count s) (w_last s) (w_opt s) (w_store s) (w_put s) (w_seen s) (w_calls s).
  Definition set_resync (b : bool) (s : wstate) : wstate := W (w_pc s) (w_ready s) (w_wait s) (w_fired s) (w_cancel s) (w_reader s) (w_queue s) (w_event s) (w_error s) (w_errq s) b (w_count s) (w_last s) (w_opt s) (w_store s) (w_put s) (w_seen s) (w_calls s).
  Definition set_store (x : St) (cs : list (routput O RV)) (s : wstate) : wstate := W (w_pc s) (w_ready s) (w_wait s) (w_fired s) (w_cancel s) (w_reader s) (w_queue s) (w_event s) (w_error s) (w_errq s) (w_resync s) (w_count s) (w_last s) (w_opt s) x (w_put s) (w_seen s) (w_calls s ++ cs).
  Definition set_put (es : list (event O)) (s : wstate) : wstate := W (w_pc s) (w_ready s) (w_wait s) (w_fired s) (w_cancel s) (w_reader s) (w_queue s) (w_event s) (w_error s) (w_errq s) (w_resync s) (w_count s) (w_last s) (w_opt s) (w_store s) es (w_seen s) (w_calls s).
  Definition set_seen (es : list (event O)) (s : wstate) : wstate := W (w_pc s) (w_ready s) (w_wait s) (w_fired s) (w_cancel s) (w_reader s) (w_queue s) (w_event s) (w_error s) (w_errq s) (w_resync s) (w_count s) (w_last s) (w_opt s) (w_store s) (w_put s) es (w_calls s).
  (** 230-232 *)
  Definition took (rv : RV) (s : wstate) : wstate := W (w_pc s) (w_ready s) (w_wait s) (w_fired s) (w_cancel s) (w_reader s) (w_queue s) (w_event s) (w_error s) (w_errq s) (w_resync s) (S (w_count s)) (Some rv) (Some rv) (w_store s) (w_put s) (w_seen s) (w_calls s).
  Definition push (hs : list handle) (s : wstate) : wstate := set_ready (w_ready s ++ hs) s.

  (** after 57-64, 85-86, with the version listed and what the store holds then *)
  Definition w_init (rv : RV) (x : St) : wstate :=
    W PReady [] 0 true false RdOver [] GGone GGone false true 0 (Some rv) (Some rv) x [] [] [].

  (** task.cancel() on a task made from get *)
  Definition cancel_get {A} (x : gtask A) : gtask A :=
    match x with
    | GNew _ => GNew true
    | GWait WPending => GWait WCancelled
    | GWait (WWoken _) => GWait (WWoken true)
    | _ => x
    end.
  (** it makes the task ready if the future it awaits was pending *)
  Definition roused {A} (h : handle) (x : gtask A) : list handle := match x with GWait WPending => [h] | _ => [] end.
  Definition is_over {A} (x : gtask A) : bool := match x with GDone _ | GGone => true | _ => false end.
  (** put wakes the get *)
  Definition wake_get {A} (x : gtask A) : gtask A := match x with GWait WPending => GWait (WWoken false) | _ => x end.

  (** the callback of wait, if the handler is in it *)
  Definition on_done (s : wstate) : list handle := match w_pc s with PWait => [HDone (w_wait s)] | _ => [] end.

  (** 158-161: the tasks that have ended are noticed at once *)
  Definition begin_wait (s : wstate) : wstate :=
    W PWait (w_ready s ++ HEvent :: if is_over (w_error s) then [HDone (S (w_wait s))] else []) (S (w_wait s)) false false
      (w_reader s) (w_queue s) (GNew false) (w_error s) (w_errq s) (w_resync s) (w_count s) (w_last s) (w_opt s) (w_store s) (w_put s) (w_seen s) (w_calls s).

  (** 244-248 *)
  Definition cancel_reader (x : reader) : reader := match x with RdNew => RdOver | RdRead | RdHave _ _ => RdExit | _ => x end.
  Definition close (why : rinput O RV) (s : wstate) : wstate :=
    W (PClosing why) (w_ready s ++ roused HEvent (w_event s) ++ roused HError (w_error s)) (w_wait s) (w_fired s) (w_cancel s)
      (cancel_reader (w_reader s)) (w_queue s) (cancel_get (w_event s)) (cancel_get (w_error s)) (w_errq s) (w_resync s) (w_count s) (w_last s) (w_opt s) (w_store s) (w_put s) (w_seen s) (w_calls s).

  (** 93, 143-161 *)
  Definition begin_watch (s : wstate) : wstate :=
    begin_wait (W PWait (w_ready s ++ [HRead; HError]) (w_wait s) false false RdNew [] GGone (GNew false) (w_errq s) (w_resync s) 0
      (w_last s) (w_opt s) (w_store s) [] [] (w_calls s ++ [CWatch (w_opt s)])).

  (** 148-152 *)
  Definition run_reader (s : wstate) : wstate :=
    match w_reader s with
    | RdNew => set_reader RdRead s
    | RdHave es f =>
        let items := (Some <$> es) ++ match f with SEnd => [None] | _ => [] end in
        let s1 := set_put (w_put s ++ es) (set_reader match f with SMore => RdRead | _ => RdOver end s) in
        match items with
        | [] => s1
        | _ => push (roused HEvent (w_event s)) (set_event (wake_get (w_event s)) (w_queue s ++ items) s1)
        end
    | _ => s
    end.

  (** the get of 158 *)
  Definition run_event (s : wstate) : wstate :=
    match w_event s with
    | GNew false | GWait (WWoken false) =>
        match w_queue s with
        | [] => set_event (GWait WPending) [] s
        | x :: k => push (on_done s) (set_event (GDone x) k s)
        end
    | GNew true | GWait (WWoken true) | GWait WCancelled => push (on_done s) (set_event GGone (w_queue s) s)
    | _ => s
    end.

  (** the get of 155 *)
  Definition run_error (s : wstate) : wstate :=
    match w_error s with
    | GNew false | GWait (WWoken false) =>
        if w_errq s then push (on_done s) (set_error (GDone tt) false s) else set_error (GWait WPending) false s
    | GNew true | GWait (WWoken true) | GWait WCancelled => push (on_done s) (set_error GGone (w_errq s) s)
    | _ => s
    end.

  Definition stores (t : etype) : bool := match t with EvAdded | EvModified | EvDeleted => true | _ => false end.

  (** 162-243; [short]: the watch took less than a second *)
  Definition run_handler (short : bool) (s : wstate) : option wstate :=
    match w_pc s with
    | PWait =>
        if w_cancel s then Some (close ICancel s)
        else match w_error s, w_event s with
             | GDone _, _ => Some (close ISeeError s)
             | _, GDone None => Some (close (IClose short) s)
             | _, GDone (Some e) =>
                 let s := set_seen (w_seen s ++ [e]) s in
                 Some match classify g e with
                      | KRaise => close (IEvent e) s
                      | KSkip => begin_wait s
                      | KTake rv => if stores (e_type e) then set_pc (PStore e rv) s else begin_wait (took rv s)
                      end
             | _, _ => None
             end
    | _ => Some s
    end.

  Inductive wlabel :=
  | WRun (short : bool)                              (* the loop runs what is ready; short: see run_handler *)
  | WWatch (ok : bool)                               (* the call of watch returns, or raises *)
  | WRead (es : list (event O)) (f : sfate)          (* get_events has read these events *)
  | WExit                                            (* get_events has left async with after it was cancelled *)
  | WStored                                          (* the call of the store returns *)
  | WResync                                          (* the resync task calls the store *)
  | WClosed                                          (* gather returns *)
  | WCancel.                                         (* the reflector is cancelled *)

  (** 233-238, 88, 100-108: whether another watch follows *)
  Definition after_close (why : rinput O RV) (s : wstate) : wpc :=
    match why with
    | IClose short => if short && (w_count s =? 0) then PReturned else PReady
    | ICancel => PCancelled
    | _ => PReturned
    end.
  (** 109-111 *)
  Definition leave (p : wpc) (s : wstate) : wstate := set_pc p (match p with PReady => s | _ => set_resync false s end).

  Definition wrun (s : wstate) (l : wlabel) : option wstate :=
    match l, w_pc s with
    | WRun short, _ =>
        match w_ready s with
        | [] => None
        | h :: hs => let s1 := set_ready hs s in
                     match h with
                     | HRead => Some (run_reader s1)
                     | HEvent => Some (run_event s1)
                     | HError => Some (run_error s1)
                     | HDone n => Some (if (n =? w_wait s) && negb (w_fired s) then push [HHandler] (set_fired true s1) else s1)
                     | HHandler => run_handler short s1
                     end
        end
    (** 92-99 *)
    | WWatch true, PReady => Some (begin_watch s)
    | WWatch false, PReady => Some (leave PReturned (set_store (w_store s) [CWatch (w_opt s)] s))
    | WRead es f, _ => match w_reader s with RdRead => Some (push [HRead] (set_reader (RdHave es f) s)) | _ => None end
    | WExit, _ => match w_reader s with RdExit => Some (set_reader RdOver s) | _ => None end
    (** 193-232 *)
    | WStored, PStore e rv => let '(x, cs) := apply_event q e (w_store s) in Some (begin_wait (took rv (set_store x cs s)))
    (** 71-79 *)
    | WResync, (PReady | PWait | PStore _ _ | PClosing _) =>
        if w_resync s then
          let '(x, ok) := so_resync q (w_store s) in
          let s1 := set_store x [CResync ok] s in
          Some (if ok then s1 else push (roused HError (w_error s)) (set_error (wake_get (w_error s)) true (set_resync false s1)))
        else None
    (** 248 *)
    | WClosed, PClosing why =>
        match w_reader s with
        | RdOver => if is_over (w_event s) && is_over (w_error s) then Some (leave (after_close why s) s) else None
        | _ => None
        end
    | WCancel, PReady => Some (leave PCancelled s)
    | WCancel, PWait => Some (set_cancel true (if w_fired s then s else push [HHandler] (set_fired true s)))
    | WCancel, PStore _ _ => Some (close ICancel s)
    | WCancel, PClosing _ => Some (set_pc (PClosing ICancel) s)
    | _, _ => None
    end.
  Definition wstep (s : wstate) (l : wlabel) (s' : wstate) : Prop := wrun s l = Some s'.
End loop.
Arguments gtask : clear implicits.
Arguments GNew {_} _. Arguments GWait {_} _. Arguments GDone {_} _. Arguments GGone {_}.
Arguments reader : clear implicits.
Arguments wpc : clear implicits.
Arguments wstate : clear implicits.
Arguments wlabel : clear implicits.
