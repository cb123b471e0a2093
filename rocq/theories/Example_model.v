(** The program example.py: its reconciler (46-61) in the system of System_model.v, which
    builder.py:20-37 and manager.py put together without predicates and with one worker.

    - reconcile looks the object of the request up in the cache (cache.py:34-39,
      _cache_reader.py:21-32) and prints what it found, or that the object was deleted;
      then it returns Result().  It may wait for the mutex of the informers' map first.
    - By the time it runs the cache is started (C71) and the informer in the map is the
      one that was built (C67), so CacheNotStartedError does not come.
    - [pr n] is what was printed in the state before the n-th transition of a run: by
      which worker, for which request, and what was read from the cache. *)
From Verif Require Import Base KeyFunc_model DeltaFifo_model Store_model Reflector_model World_model Informer_model InformerWorld_model
  SharedInformer_model Listener_model Source_model Source_spec WorkQueue_model DelayQueue_model Controller_model System_model.
From Coq Require Import ZArith QArith Strings.String.
From stdpp Require Import strings.
Local Open Scope nat_scope.

(** pod.metadata.namespace and .name of a typed object *)
Definition meta_of (o : pyobj) : option (pystr * pystr) := match o with Typed (Some (Some m)) _ => Some m | _ => None end.
Section example.
  Context {V N : Type} `{EqDecision V} `{EqDecision N}.
  Notation sys := (sys V N).
  (** 52; [None]: KeyError, 53 *)
  Definition look (r : nsname) (z : sys) : option (dobj pystr pyobj) :=
    match (istep queue_key (h_inf (z_inf z)) (SLook (object_key_to_store_key r))).2 with IObj o => o | _ => None end.
  Definition printed : Type := nat * nsname * option (dobj pystr pyobj).
  (** the line that is printed, 54-60; [ip o] is what pod.status.pod_ip of the object is written as *)
  Definition line (ip : pyobj → string) (r : nsname) (v : option pyobj) : string :=
    match v with
    | None => (fmt (nn_name r) ++ "/" ++ fmt (nn_name r) ++ " deleted")%string
    | Some o => (match meta_of o with Some (ns, name) => fmt ns ++ "/" ++ fmt name | None => "" end ++ ": ip " ++ ip o)%string
    end.
  Record prints (σ : nat → sys) (lb : nat → zlabel) (pr : nat → list printed) : Prop := {
    (** 52-60 *)
    pr_read : ∀ n j r v, (j, r, v) ∈ pr n → k_ws (z_ctl (σ n)) !! j = Some (WRun r) ∧ v = look r (σ n);
    (** 61: nothing is raised, and something was printed before, in the same call *)
    pr_returns : ∀ m j r o sec a, lb m = ZCtl (KRet j r o sec a) → o = OResult false 0 ∧
      ∃ n v, n ≤ m ∧ (j, r, v) ∈ pr n ∧ ∀ n', n ≤ n' ≤ m → k_ws (z_ctl (σ n')) !! j = Some (WRun r)
  }.
End example.
