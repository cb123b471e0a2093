(** Specification of C80: the path from the API server to a reconciler, over infinite runs. *)
From Verif Require Import Base KeyFunc_model DeltaFifo_model Store_model Reflector_model World_model Informer_model SharedInformer_model Listener_model Source_model
  WorkQueue_model DelayQueue_model Controller_model Controller_live_spec System_model System_spec.
Local Open Scope nat_scope.

Section spec.
  Context {V N : Type} `{EqDecision V} `{EqDecision N}.
  Notation sys := (sys V N).
  Implicit Types (σ : nat → sys) (lb : nat → zlabel).

  (** an infinite run: [σ n] is the state before the n-th transition [lb n] *)
  Definition zruns (step : sys → zlabel → sys → Prop) σ lb : Prop := ∀ n, step (σ n) (lb n) (σ (S n)).
  (** its first transitions *)
  Definition first lb (n : nat) : list zlabel := lb <$> seq 0 n.

  (** what has its own task: the process loop of the informer (in the code it also waits for the other handlers' listeners); [_distribute] with [_add] of the listener; the two tasks that
      [_pop] of the listener waits for, and [_pop]; [_run] of the listener with the handler; the reader of the watch stream *)
  Inductive part := Loop | Feed | GetTask | PutTask | Pump | Runner | Reader.
  (** a transition by which it goes on *)
  Definition acts (p : part) (l : zlabel) : Prop :=
    match p, l with
    | Loop, ZShared (HInf PPop) (HI (IQ (DPopped _))) | Loop, ZShared (HInf PDelta) (HI (ICallback _)) | Loop, ZShared (HInf PDone) (HI (IQ (DItem _))) => True
    | Feed, ZLis (LAdd _ | LPut _ | LJoined) => True
    | GetTask, ZLis LGet => True
    | PutTask, ZLis LPutNext => True
    | Pump, ZLis (LStartPump | LWake | LNextJoined) => True
    | Runner, (ZLis (LStartRun | LFetch | LCall _ | LReturn | LRaise | LSlept) | ZAdd _) => True
    | Reader, ZWorld (WDeliver _) => True
    | _, _ => False
    end.
  (** it goes on again and again, or at times it cannot *)
  Definition just (step : sys → zlabel → sys → Prop) σ lb (p : part) : Prop :=
    ∀ n, ∃ m, n ≤ m ∧ (acts p (lb m) ∨ ∀ l z, acts p l → ¬ step (σ m) l z).
  (** the workers go on *)
  Definition workers_go_on σ lb : Prop :=
    ∀ j n p, k_ws (z_ctl (σ n)) !! j = Some p →
      ∃ m, n ≤ m ∧ ((∃ l, lb m = ZCtl l ∧ moves j l) ∨ k_ws (z_ctl (σ m)) !! j = Some WDead ∨ k_ws (z_ctl (σ m)) !! j = Some WCrashed).

  (** the notifications the handler was called with *)
  Definition calls (tr : list zlabel) : list (Informer_model.notif pystr pyobj) := omap (λ l, match l with ZLis (LCall n) => Some n | _ => None end) tr.
  (** from step [n] on the server does not change, and the watch that is open stays so *)
  Definition server_rests σ lb (n : nat) : Prop :=
    running (z_inf (σ n)) = true ∧ (∃ c, r_pc (w_refl (z_world (σ n))) = RWatching c) ∧ r_failed (w_refl (z_world (σ n))) = false ∧
    ∀ m l, n ≤ m → lb m = ZWorld l → ∃ e, l = WDeliver e.
End spec.
