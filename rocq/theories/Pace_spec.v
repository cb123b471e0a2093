(** The requests of a reflector, read off a trace (oldest first). *)
From Verif Require Import Base KeyFunc_model Reflector_model Pace_model.
From Coq Require Import ZArith.

Section spec.
  Context {O RV : Type}.
  Implicit Types (tr : list (plabel O RV)).
  (** when lists and watches were requested *)
  Definition list_times tr : list Z := omap (λ l, match l with PSendList t => Some t | _ => None end) tr.
  Definition watch_times tr : list Z := omap (λ l, match l with PIn _ _ true t _ => Some t | _ => None end) tr.
  (** the events that arrived and satisfy [acc] *)
  Definition arrived (acc : event O → bool) tr : list (event O) :=
    omap (λ l, match l with PIn (IEvent e) _ _ _ _ => if acc e then Some e else None | _ => None end) tr.
  (** time.time() runs with the event loop's clock, [δ] apart *)
  Definition clocks_agree (δ : Z) tr : Prop := ∀ t w, PPass t w ∈ tr → w = (t + δ)%Z.
  (** the clock after a trace that began at t0 *)
  Definition pclock (t0 : Z) tr : Z := foldl (λ t l, match l with PPass t' _ => t' | _ => t end) t0 tr.
End spec.
