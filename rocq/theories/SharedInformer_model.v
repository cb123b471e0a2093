(** Model of _SharedIndexInformer and _SharedProcessor, aiok8s/cache/shared_informer.py:62-296,
    on top of the informer (Informer_model.v: [handle_deltas] (176-202) has the body of the
    informer's process callback, with the distribution to the listeners in place of the
    handler call).

    A listener's log is the sequence of notifications passed to its [_add]; what
    the listener does with them is in Listener_model.v.  [_distribute] is one
    step: during it both _block_deltas and _listeners_lock are held, so no
    listener is added and no other notification distributed; [_should_resync]
    may run meanwhile, but replaces the list of syncing listeners by a new one.
    [handle_deltas] holds _block_deltas while the deltas of one pop are processed, so
    [add_event_handler] of a started informer waits until then: [HLockWait].
    Not modelled: cancellation of the process loop during a distribution, and
    calling [run] twice.
    Times and periods are integers in an arbitrary unit; [second] is one second. *)
From Verif Require Import Base DeltaFifo_model Store_model Informer_model.

(** a listener: 299-310 without the queues *)
Record lst (A : Type) := Lst { l_req : Z; l_period : Z; l_next : Z; l_log : list A }.
Arguments Lst {A}. Arguments l_req {A}. Arguments l_period {A}. Arguments l_next {A}. Arguments l_log {A}.

(** _determine_resync_period, 218-236 *)
Definition determine_resync_period (desired check : Z) : Z :=
  if bool_decide (desired = 0%Z) then 0%Z
  else if bool_decide (check = 0%Z) then 0%Z
  else if bool_decide (desired < check)%Z then check else desired.

(** the processor, 240-246; listeners are numbered in the order of registration *)
Record proc (A : Type) := Proc {
  p_ls : list (lst A);
  p_syncing : list nat;
  p_check : Z;               (* _resync_check_period of the informer *)
  p_started : bool;
  p_stopped : bool
}.
Arguments Proc {A}. Arguments p_ls {A}. Arguments p_syncing {A}. Arguments p_check {A}. Arguments p_started {A}. Arguments p_stopped {A}.

Section processor.
  Context {A : Type} (second default : Z).
  Notation proc := (proc A).
  Definition proc_init : proc := Proc [] [] default false false.

  (** _ProcessListener._should_resync and _determine_next_resync, 404-408 *)
  Definition due (now : Z) (l : lst A) : bool := negb (bool_decide (l_period l = 0%Z)) && bool_decide (l_next l <= now)%Z.
  Definition next_resync (now : Z) (l : lst A) : lst A := Lst (l_req l) (l_period l) (now + l_period l) (l_log l).
  (** _SharedProcessor._should_resync, 280-289 *)
  Definition should_resync (p : proc) (now : Z) : proc * bool :=
    let sync := (imap (λ i l, (i, l)) (p_ls p)) in
    let dues := omap (λ il : nat * lst A, if due now il.2 then Some il.1 else None) sync in
    (Proc ((λ l, if due now l then next_resync now l else l) <$> p_ls p) dues (p_check p) (p_started p) (p_stopped p),
     negb (bool_decide (dues = []))).
  (** _resync_check_period_changed, 291-296 *)
  Definition check_changed (check : Z) (ls : list (lst A)) : list (lst A) :=
    (λ l, Lst (l_req l) (determine_resync_period (l_req l) check) (l_next l) (l_log l)) <$> ls.
  (** add_event_handler, 85-127: the period, then the check period, of a new
      listener; and the listener, to be told [backlog] *)
  Definition register (p : proc) (req : option Z) (now : Z) (backlog : list A) : proc :=
    if p_stopped p then p else
    let r := match req with Some r => r | None => default end in
    let '(r, check, ls) :=
      if bool_decide (r = 0%Z) then (r, p_check p, p_ls p) else
      let r := if bool_decide (r < second)%Z then second else r in
      if bool_decide (r < p_check p)%Z then
        if p_started p then (p_check p, p_check p, p_ls p) else (r, r, check_changed r (p_ls p))
      else (r, p_check p, p_ls p) in
    let period := determine_resync_period r check in
    Proc (ls ++ [Lst r period (now + period) backlog]) (p_syncing p ++ [length ls]) check (p_started p) false.
  (** _distribute, 259-266 *)
  Definition log_add (n : A) (l : lst A) : lst A := Lst (l_req l) (l_period l) (l_next l) (l_log l ++ [n]).
  Definition distribute (p : proc) (n : A) (sync : bool) : proc :=
    Proc (imap (λ i l, if negb sync || bool_decide (i ∈ p_syncing p) then log_add n l else l) (p_ls p))
      (p_syncing p) (p_check p) (p_started p) (p_stopped p).
End processor.

Section shared.
  Context {K O V N : Type} `{EqDecision K} `{EqDecision V} `{EqDecision N} (keyf : O → option K) (second default : Z).
  Notation dobj := (dobj K O).
  Notation notif := (notif K O).

  Record shared := Shared { h_inf : inf K O V N; h_proc : proc notif }.
  Definition shared_init (fs : dict N (index_func dobj V)) : shared := Shared (inf_init fs) (proc_init default).

  Definition is_sync (n : notif) : bool := match n with NAdd _ b | NUpdate _ _ b => b | NDelete _ => false end.

  Inductive hop :=
  | HInf (c : iop K O)                        (* the reflector, the process loop and readers *)
  | HRegister (req : option Z) (now : Z)      (* add_event_handler *)
  | HRun                                      (* 146-149 *)
  | HStop                                     (* 156-157 *)
  | HShouldResync (now : Z).
  Inductive hres := HI (r : ires K O) | HNone | HLockWait | HBool (b : bool).

  (** what can happen in the informer: the handler calls cannot fail, and the
      queue is filled and emptied only while the informer runs (151-159) *)
  Definition allowed (s : shared) (c : iop K O) : bool :=
    match c with
    | SLook _ => true
    | PRaise _ | PCancel => false
    | _ => p_started (h_proc s) && negb (p_stopped (h_proc s))
    end.
  Definition hstep (s : shared) (c : hop) : shared * hres :=
    match c with
    | HInf c =>
        if negb (allowed s c) then (s, HNone) else
        let '(i, r) := istep keyf (h_inf s) c in
        match r with
        | ICallback n => (Shared i (distribute (h_proc s) n (is_sync n)), HI r)
        | _ => (Shared i (h_proc s), HI r)
        end
    | HRegister req now =>
        if p_started (h_proc s) && negb (p_stopped (h_proc s)) then
          match d_busy (i_q (h_inf s)) with
          | Some _ => (s, HLockWait)
          (** 129-132 *)
          | None => (Shared (h_inf s) (register second default (h_proc s) req now ((λ o, NAdd o false) <$> dvals (s_items (i_st (h_inf s))))), HNone)
          end
        else (Shared (h_inf s) (register second default (h_proc s) req now []), HNone)
    | HRun => (Shared (h_inf s) (Proc (p_ls (h_proc s)) (p_syncing (h_proc s)) (p_check (h_proc s)) true (p_stopped (h_proc s))), HNone)
    | HStop => if negb (p_started (h_proc s)) then (s, HNone) else (Shared (h_inf s) (Proc (p_ls (h_proc s)) (p_syncing (h_proc s)) (p_check (h_proc s)) (p_started (h_proc s)) true), HNone)
    | HShouldResync now => let '(p, b) := should_resync (h_proc s) now in (Shared (h_inf s) p, HBool b)
    end.
End shared.
Arguments shared : clear implicits.
Arguments hop : clear implicits.
Arguments hres : clear implicits.
