(** Specification of the manager: C71, C75. *)
From Verif Require Import Base InformersMap_model InformersMap_spec Manager_model.

Section spec.
  Context {G : Type} `{EqDecision G}.
  Implicit Types (tr : list (mlabel G)) (l : mlabel G) (g : G).

  (** the runnables added, in order; n controllers were made before *)
  Fixpoint added (n : nat) tr : list nat :=
    match tr with
    | [] => []
    | MNew :: tr => n :: added (S n) tr
    | MAdd k :: tr => k :: added n tr
    | _ :: tr => added n tr
    end.
  (** calls of start *)
  Definition start_calls tr : nat := countb (λ l, match l with MStart => true | _ => false end) tr.
  (** launches that are not followed by an error *)
  Definition good_launches tr : nat := countb (λ l, match l with MLaunch _ _ => true | _ => false end) tr.
  (** how often runnable k was launched *)
  Definition launched (k : nat) tr : nat :=
    sum_list ((λ l, match l with MLaunch _ ks | MRelaunch _ ks => countb (λ k', bool_decide (k' = k)) ks | _ => 0 end) <$> tr).
  (** what happened in the cache *)
  Definition in_cache l : list (ilabel G) :=
    match l with MCache l => [l] | MTask TCache => [IStart] | MGet _ g => [IGet g] | _ => [] end.
  Definition cache_labels tr : list (ilabel G) := tr ≫= in_cache.
  (** an informer for g was made *)
  Definition made g tr : Prop := ∃ r, IAdd r g true ∈ cache_labels tr.
  (** no start, nothing new: only what is under way goes on *)
  Definition goes_on l : Prop :=
    match l with
    | MNew | MAdd _ | MWatch _ _ | MStart | MWait _ _ | MLaunch _ _ | MRelaunch _ _ | MCancel _ | MTask _ | MCache IStart => False
    | _ => True
    end.
End spec.
