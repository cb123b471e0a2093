(** Specification of leader election, over traces and the electors' callbacks. *)
From Verif Require Import Base LeaderElection_model.
From Coq Require Import QArith.

(** the timing rules of the documentation in client-go, with 1.2 as a fraction *)
Definition consistent (c : lec) : Prop :=
  (0 < lec_retry c)%Q ∧ (lec_retry c * (6 # 5) < lec_renew c)%Q ∧ (lec_renew c < lec_lease c)%Q ∧
  lec_started c = true ∧ lec_stopped c = true ∧ lec_lock c = true.

(** the electors whose on_started_leading runs *)
Definition leads (i : nat) (w : world) : Prop := ∃ e, w_es w !! i = Some e ∧ e_task e = true.
Definition leaders (w : world) : nat := countb e_task (w_es w).
(** the config map was created by an elector *)
Definition is_create (l : label) : bool :=
  match l with LServe _ (RCreate _) ok | LOrphan (RCreate _) ok => ok | _ => false end.
Definition creates (tr : list label) : nat := countb is_create tr.
Definition is_delete (l : label) : bool := match l with LDelete => true | _ => false end.
Definition deletes (tr : list label) : nat := countb is_delete tr.
(** a write that is not a creation *)
Definition is_update (l : label) : bool :=
  match l with LServe _ (RUpdate _ _) _ | LOrphan (RUpdate _ _) _ => true | _ => false end.

(** the record of elector i is at the server *)
Definition holds (i : nat) (w : world) : Prop :=
  ∃ e rv r, w_es w !! i = Some e ∧ w_cm w = Some (CMap rv (AnnKey (RawObj r))) ∧ r_holder r = Some (c_id (e_cfg e)).
(** run of elector i has ended *)
Definition run_ended (i : nat) (x : option exn) (w : world) : Prop := ∃ e, w_es w !! i = Some e ∧ e_ph e = EEnded x.
(** elector i asks for the lock object, to renew *)
Definition renewing (i : nat) (w : world) : Prop := ∃ e, w_es w !! i = Some e ∧ e_ph e = EGet Renewing.
Definition stopping (i : nat) (x : option exn) (w : world) : Prop := ∃ e, w_es w !! i = Some e ∧ e_ph e = EStopping x.
(** elector i asks for the lock object, to acquire *)
Definition acquiring (i : nat) (w : world) : Prop := ∃ e, w_es w !! i = Some e ∧ e_ph e = EGet Acquiring.
