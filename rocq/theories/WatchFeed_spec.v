(** Specification: what the store holds and which version was reached last, wherever the reflector is. *)
From Verif Require Import Base Reflector_model WatchLoop_model WatchFeed_model.

Definition stored {O St} (a : fat O St) : St := match a with FIdle x _ => x | FIn _ s => w_store s end.
Definition version {O St} (a : fat O St) : option nat := match a with FIdle _ v => v | FIn _ s => w_last s end.
