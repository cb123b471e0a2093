(** The path of System_model.v, with the informer waiting for the listener of the handler:
    _distribute, aiok8s/cache/shared_informer.py:259-266, returns after _add of the listener (312-314), and
    add_event_handler gives the objects there are to a late handler's listener (129-132) with
    _block_deltas held, which handle_deltas (177) waits for.

    - Only the handler considered is waited for; the code waits for the others as well, one after the other.
    - Taking the next item from the queue (pop) does not wait; processing it does. *)
From Verif Require Import Base KeyFunc_model DeltaFifo_model Reflector_model Informer_model SharedInformer_model Listener_model Source_model
  WorkQueue_model DelayQueue_model Controller_model System_model.
From Coq Require Import ZArith.
Local Open Scope nat_scope.

Section wait.
  Context {V N : Type} `{EqDecision V} `{EqDecision N}.
  Context (g : rcfg pyobj nat) (second dflt : Z) (i : nat) (ps : list epred).
  (** a call of the listener's _add has not returned, or is still to come *)
  Definition waits (z : sys V N) : bool := bool_decide (z_fed z < length (log_of i (z_inf z))) || match l_adder (z_lis z) with AIdle => false | _ => true end.
  (** steps of the process loop while it has an item: handle_deltas, 176-202, goes on or ends *)
  Definition processes (l : zlabel) : bool := match l with ZShared (HInf (PDelta | PDone)) _ => true | _ => false end.
  Definition bstep (z : sys V N) (l : zlabel) (z' : sys V N) : Prop := zstep g second dflt i ps z l z' ∧ (processes l = true → waits z = false).
End wait.
