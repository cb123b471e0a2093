(** Specification of C71 and C75 over infinite runs. *)
From Verif Require Import Base InformersMap_model InformersMap_spec Manager_model Manager_spec.

Section spec.
  Context {G : Type} `{EqDecision G}.

  (** an infinite run: [σ n] is the state before the n-th transition [lb n] *)
  Definition runs (σ : nat → mgr G) (lb : nat → mlabel G) : Prop := ∀ n, mstep (σ n) (lb n) (σ (S n)).
  (** its first n transitions *)
  Definition trace (lb : nat → mlabel G) (n : nat) : list (mlabel G) := lb <$> seq 0 n.

  (** who can be expected to go on: a call of the cache's get; an informer that was scheduled,
      and its first list, which is answered some time; a controller's start; a call of
      start; the event loop's queue of new tasks *)
  Inductive agent := ACall (r : nat) | ABegin (g : G) | ASync (g : G) | ARun (i : nat) | AStart (c : nat) | ALoop.
  Definition by_agent (a : agent) (l : mlabel G) : Prop :=
    match a, l with
    | ACall r, MCache (IRead r') | ACall r, MCache (IAdd r' _ _) | ACall r, MCache (IWake r') => r' = r
    | ABegin g, MCache (IBegin g') | ASync g, MCache (ISync g') => g' = g
    | ARun i, MCLock i' | ARun i, MGet i' _ | ARun i, MGot i' _ | ARun i, MSync i' _ | ARun i, MUp i' => i' = i
    | AStart c, MWait c' _ | AStart c, MLaunch c' _ | AStart c, MRelaunch c' _ => c' = c
    | ALoop, MTask _ => True
    | _, _ => False
    end.
  Definition able (a : agent) (s : mgr G) : Prop := ∃ l s', by_agent a l ∧ mstep s l s'.
  (** nobody who is able to go on again and again is passed over for ever *)
  Definition fair (σ : nat → mgr G) (lb : nat → mlabel G) : Prop :=
    ∀ a n, (∃ m, n ≤ m ∧ by_agent a (lb m)) ∨ ∃ m, n ≤ m ∧ ∀ k, m ≤ k → ¬ able a (σ k).
  (** the cache is not started any more *)
  Definition no_start_from (lb : nat → mlabel G) (n : nat) : Prop := ∀ m, n ≤ m → IStart ∉ in_cache (lb m).
End spec.
Arguments agent : clear implicits.
