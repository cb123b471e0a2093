(** An informer (Informer_model.v) whose queue is fed by a reflector connected
    to a server (World_model.v, Reflector_model.v): controller.py:47-70.  The
    reflector and the process loop are separate tasks.  A store call of the
    reflector needs the queue's lock, which [pop] holds during the process
    callback, so such a step waits until no callback runs. *)
From Verif Require Import Base KeyFunc_model DeltaFifo_model Store_model Store_spec Reflector_model Reflector_spec World_model Informer_model.

Section system.
  Context {K O V N : Type} `{EqDecision K} `{EqDecision V} `{EqDecision N} (keyf : O → option K) (g : rcfg O nat).
  Notation inf := (inf K O V N).

  (** steps of the reflector and its environment that do not call the queue *)
  Definition storeless (l : wlabel O) : bool :=
    match l with
    | WChange _ => true
    | WDeliver _ => false
    | WInput (IList _ _ | IEvent _ | IResync _) => false
    | WInput _ => true
    end.
  (** steps of the process loop, handlers failing or not, and of clients *)
  Definition local (c : iop K O) : bool :=
    match c with PPop | PDelta | PDone | PRaise _ | PCancel | QHasSynced | QGetByKey _ | SLook _ => true | _ => false end.

  Inductive ylabel := YWorld (l : wlabel O) | YInf (c : iop K O).
  Inductive ystep : world O * inf → ylabel → world O * inf → Prop :=
  | y_world w s l w' s' : (d_busy (i_q s) = None ∨ storeless l = true) → wstep keyf g (inf_sops keyf) (w, s) l (w', s') →
      ystep (w, s) (YWorld l) (w', s')
  | y_inf w s c s' r : local c = true → istep keyf s c = (s', r) → ystep (w, s) (YInf c) (w, s').
End system.
Arguments ylabel : clear implicits.
