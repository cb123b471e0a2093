(** Readings of traces of workers. *)
From Verif Require Import Base WorkQueue_model DelayQueue_model RateLimit_model Controller_model.
Section spec.
  Context {A : Type}.
  (** the items worker [i] took, in order *)
  Definition taken_by (i : nat) (ls : list (klabel A)) : list A :=
    omap (λ l, match l with KGet j (RItem x) _ => if decide (j = i) then Some x else None | _ => None end) ls.
  (** the cancellations of worker [i] *)
  Definition cancels (i : nat) (ls : list (klabel A)) : list unit :=
    omap (λ l, match l with KCancel j => if decide (j = i) then Some () else None | _ => None end) ls.
End spec.
