(** Specification of the path from the API server to a reconciler: C79. *)
From Verif Require Import Base KeyFunc_model KeyFunc_spec DeltaFifo_model DeltaFifo_spec Store_model Reflector_model World_model Informer_model Informer_spec
  SharedInformer_model SharedInformer_spec Listener_model Source_model Source_spec WorkQueue_model DelayQueue_model Controller_model System_model.
Local Open Scope nat_scope.

Section spec.
  Context {V N : Type} `{EqDecision V} `{EqDecision N}.
  Notation notif := (Informer_model.notif pystr pyobj).
  Notation sys := (sys V N).
  Implicit Types (z : sys) (k : pystr) (n : notif).

  (** what a reader of the cache is given for a key *)
  Definition cached k z : option (dobj pystr pyobj) := match (istep queue_key (h_inf (z_inf z)) (SLook k)).2 with IObj o => o | _ => None end.
  (** the handler has been added to the informer *)
  Definition registered (i : nat) z : Prop := i < length (p_ls (h_proc (z_inf z))).
  Definition stopped z : bool := p_stopped (h_proc (z_inf z)).
  Definition about k n : Prop := has_key queue_key k (notif_obj n).

  (** the listener has the notification and has not passed it to the handler *)
  Inductive held (l : lis notif) n : Prop :=
  | held_adder : l_adder l = APutting n → held l n
  | held_addq : l_addq l = Some n → held l n
  | held_got cur put : l_pump l = PWait cur (Some n) put → held l n
  | held_pend : n ∈ l_pend l → held l n
  | held_cur got : l_pump l = PWait (Some n) got false → held l n
  | held_nextq : l_nextq l = Some n → held l n
  | held_fetched : l_run l = RFetched n → held l n.
  (** the notification for handler [i] has not reached it *)
  Definition under_way (i : nat) z n : Prop := n ∈ drop (z_fed z) (log_of i (z_inf z)) ∨ held (z_lis z) n.
  (** nothing about the key or the request is between the cache and the workers *)
  Definition quiet (i : nat) k (r : nsname) z : Prop :=
    (∀ n, under_way i z n → ¬ about k n) ∧ r ∉ z_adds z ∧ r ∉ wq_dirty (dq_base (k_q (z_ctl z))).

  (** the objects the server gives for key [k] have this namespace and name *)
  Definition well_named k (ns name : pystr) (l : zlabel) : Prop :=
    match l with
    | ZWorld (WChange e) => queue_key (e_obj e) = Some k → named (e_obj e) ns name
    | ZWorld (WInput (IList items _)) => ∀ o, o ∈ items → queue_key o = Some k → named o ns name
    | _ => True
    end.
  (** a change for the key is told to handler [i], if registered, and not as a DeletedFinalStateUnknown *)
  Definition announced (i : nat) k z (l : zlabel) : Prop :=
    ∀ c n, l = ZShared c (HI (ICallback n)) → about k n →
      is_tomb (notif_obj n) = false ∧ (is_sync n = true → registered i z → i ∈ p_syncing (h_proc (z_inf z)) ∨ no_news n).
  (** lists come when the pending changes permit it *)
  Definition calm_lists z (l : zlabel) : Prop :=
    match l with ZWorld (WInput (IList items _)) => calm_list queue_key (h_inf (z_inf z)) items | _ => True end.
  (** no resync checks, and no list after one succeeded *)
  Definition single_list z (l : zlabel) : Prop :=
    match l with
    | ZWorld (WInput (IList _ _)) => r_last (w_refl (z_world z)) = None
    | ZShared (HShouldResync _) _ => False
    | _ => True
    end.

  (** a worker took the request after the last change of what is cached for the key *)
  Definition reconciled_since (step : sys → zlabel → sys → Prop) z0 k (r : nsname) tr z : Prop :=
    ∃ tr1 z1 j t z2 tr2, tr = tr1 ++ ZCtl (KGet j (RItem r) t) :: tr2 ∧ reach step z0 tr1 z1 ∧ step z1 (ZCtl (KGet j (RItem r) t)) z2 ∧ reach step z2 tr2 z ∧
      ∀ a b z', tr2 = a ++ b → reach step z2 a z' → reach step z' b z → cached k z' = cached k z.
End spec.
