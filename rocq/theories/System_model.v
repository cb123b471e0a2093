(** The path from the API server to a reconciler: a server and a reflector
    (World_model.v), a shared informer (SharedInformer_model.v), the listener of one
    of its handlers (Listener_model.v), the handler itself (Source_model.v) and the
    controller with its queue and workers (Controller_model.v), connected as in
    shared_informer.py:134-159 and 239-296, controller/source.py:20-37 and
    controller/controller.py:59-76.

    - The informer may have any number of handlers, registered at any time; [i]
      is the position of the one considered.
    - The notifications for the handler are passed to its listener's [_add] in the
      order of its log ([z_fed] counts them).  In reality the informer waits in
      [_distribute] for [_add] to return; here it may run ahead.  So this model has
      more runs than the code, which is harmless for properties of all runs; it
      waits in SystemWait_model.v.
    - The reflector works while the informer runs (shared_informer.py:151-159).  Its
      store calls wait while the queue's lock is held by [pop].
    - The listener is stopped, and a caller of its [_add] cancelled, only after the
      informer's stop.
    - The handler's calls of queue.add are separate steps ([ZAdd]), in order; the
      callback ends after the last.
    - The other users of the queue are in [KEnv].  Whatever the reconciler reads is
      not part of the state; it runs from KGet to KRet. *)
From Verif Require Import Base KeyFunc_model DeltaFifo_model Store_model Reflector_model World_model Informer_model InformerWorld_model
  SharedInformer_model Listener_model Source_model Source_spec WorkQueue_model DelayQueue_model Controller_model.
From Coq Require Import ZArith.
Local Open Scope nat_scope.

#[global] Instance nsname_eq_dec : EqDecision nsname.
Proof. solve_decision. Defined.

Section system.
  Context {V N : Type} `{EqDecision V} `{EqDecision N}.
  Context (g : rcfg pyobj nat) (second dflt : Z) (i : nat) (ps : list epred).
  Notation notif := (Informer_model.notif pystr pyobj).
  Notation shared := (shared pystr pyobj V N).
  Notation hstep := (hstep (V:=V) (N:=N) queue_key second dflt).
  Notation kst := (kstep (λ _ : nsname, true)).

  Record sys := Sys {
    z_world : world pyobj;
    z_inf : shared;
    z_fed : nat;              (* notifications passed to the listener *)
    z_lis : lis notif;
    z_adds : list nsname;     (* what is left of the handler's callback: calls of queue.add, *)
    z_raises : bool;          (* then an exception or not *)
    z_ctl : kstate nsname
  }.
  (** [n] workers; the queue is made at time [t] *)
  Definition sys_init (fs : dict N (index_func (dobj pystr pyobj) V)) (t : Z) (n : nat) : sys :=
    Sys world_init (shared_init dflt fs) 0 lis_init [] false (kinit t n).

  Definition running (h : shared) : bool := p_started (h_proc h) && negb (p_stopped (h_proc h)).
  (** the log of the handler's listener *)
  Definition log_of (h : shared) : list notif := match p_ls (h_proc h) !! i with Some l => l_log l | None => [] end.

  Inductive zlabel :=
  | ZWorld (l : wlabel pyobj)                                          (* the server, the network, the reflector *)
  | ZShared (c : hop pystr pyobj) (r : hres pystr pyobj)               (* the informer *)
  | ZLis (l : llabel notif)                                            (* the listener *)
  | ZAdd (x : nsname)                                                  (* the handler *)
  | ZCtl (l : klabel nsname).                                          (* the controller *)

  (** the informer's own steps: the store calls of the reflector belong to [ZWorld] *)
  Definition own (c : hop pystr pyobj) : bool := match c with HInf c => local c | _ => true end.
  Definition by_server (l : wlabel pyobj) : bool := match l with WChange _ => true | _ => false end.
  (** steps of the listener that are not tied to another part *)
  Definition free (h : shared) (l : llabel notif) : bool :=
    match l with
    | LAdd _ | LCall _ | LReturn | LRaise => false
    | LStop | LAddCancel => p_stopped (h_proc h)
    | _ => true
    end.

  Inductive zstep : sys → zlabel → sys → Prop :=
  | z_refl w h f l a b k wl w' s' : running h = true ∨ by_server wl = true → (d_busy (i_q (h_inf h)) = None ∨ storeless wl = true) →
      World_model.wstep queue_key g (inf_sops queue_key) (w, h_inf h) wl (w', s') →
      zstep (Sys w h f l a b k) (ZWorld wl) (Sys w' (Shared s' (h_proc h)) f l a b k)
  | z_informer w h f l a b k c h' r : own c = true → hstep h c = (h', r) →
      zstep (Sys w h f l a b k) (ZShared c r) (Sys w h' f l a b k)
  (** _distribute, shared_informer.py:259-266, and add_event_handler, 129-132 *)
  | z_feed w h f l a b k n l' : log_of h !! f = Some n → lstep l (LAdd n) l' →
      zstep (Sys w h f l a b k) (ZLis (LAdd n)) (Sys w h (f + 1) l' a b k)
  | z_listener w h f l a b k ll l' : free h ll = true → lstep l ll l' →
      zstep (Sys w h f l a b k) (ZLis ll) (Sys w h f l' a b k)
  (** the callback, source.py:45-93 *)
  | z_call w h f l a b k n l' : lstep l (LCall n) l' →
      zstep (Sys w h f l a b k) (ZLis (LCall n)) (Sys w h f l' (o_adds (on_notif ps n)) (o_raised (on_notif ps n)) k)
  | z_add w h f l x a b k k' : kst k (KEnv (DAdd x)) k' →
      zstep (Sys w h f l (x :: a) b k) (ZAdd x) (Sys w h f l a b k')
  | z_end w h f l (b : bool) k l' : lstep l (if b then LRaise else LReturn) l' →
      zstep (Sys w h f l [] b k) (ZLis (if b then LRaise else LReturn)) (Sys w h f l' [] false k)
  | z_worker w h f l a b k kl k' : kst k kl k' →
      zstep (Sys w h f l a b k) (ZCtl kl) (Sys w h f l a b k').
End system.
Arguments sys : clear implicits.
Arguments Sys {V N}.
