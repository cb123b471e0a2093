(** Specification: what was read from the watch that is open, according to the transitions alone; where the handler is. *)
From Verif Require Import Base Reflector_model WatchLoop_model.

Section spec.
  Context {O RV : Type}.
  (** the events read since the last watch was opened *)
  Definition reads (ls : list (wlabel O)) : list (event O) :=
    foldl (λ es l, match l with WWatch true => [] | WRead es' _ => es ++ es' | _ => es end) [] ls.
  (** the stream that is read has raised *)
  Definition raised (ls : list (wlabel O)) : bool :=
    foldl (λ b l, match l with WWatch true => false | WRead _ SRaise => true | _ => b end) false ls.
  Definition is_run (l : wlabel O) : bool := match l with WRun _ => true | _ => false end.
  (** what does not wait for the server, the next resync or a cancellation *)
  Definition inside (l : wlabel O) : bool := match l with WRun _ | WStored | WExit | WClosed => true | _ => false end.
  (** where Reflector_model has the handler *)
  Definition place (p : wpc O RV) (n : nat) : rpc :=
    match p with PReady => RReady | PWait | PStore _ _ | PClosing _ => RWatching n | PReturned => RIdle | PCancelled => RCancelled end.
  (** the watch is over, with or without another to follow *)
  Definition between (p : wpc O RV) : Prop := p = PReady ∨ p = PReturned ∨ p = PCancelled.
End spec.
