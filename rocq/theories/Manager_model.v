(** Model of the manager and of the start of its controllers:
    aiok8s/controller/manager.py:25-64, controller.py:25-81 ([new], [watch],
    [start] up to the workers), source.py:29-33 ([Kind.start]), on top of the
    informer cache (InformersMap_model.v).  controller/builder.py is the sequence
    [MNew; MCache (IGet g); ...; MWatch k g].

    - The runnables are controllers, numbered in the order they were made, each with
      the list of kinds it watches.  A runnable of another sort is a controller without
      kinds.  set_fields (37-41) only injects the cache and is left out.
    - asyncio starts tasks in the order they were made: [m_ready] has the tasks not
      begun yet, and only its head begins ([MTask]).
    - The tasks of a start that has launched its runnables are gathered (56); their
      ends and failures, and cancelling them, are not modelled.  gather(None, ...)
      raises TypeError (a start when _started is set).
    - [MCache] is anything else that happens in the cache: requests of others,
      informers that begin or sync, and the cache's start called directly.
    - The workers of a controller that is up are in Controller_model.v. *)
From Verif Require Import Base InformersMap_model.

Section mgr.
  Context {G : Type} `{EqDecision G}.

  (** a call of manager.start *)
  Inductive sphase :=
  | SLock                      (* 50 *)
  | SWait (snap : list G)      (* 62 *)
  | SGather                    (* 56 *)
  | SRaised                    (* 56, TypeError *)
  | SCancelled.
  (** tasks made by ensure_future: cache.start() (61), controller.start() (53) *)
  Inductive mtask := TCache | TRun (k : nat).
  (** a call of controller.start, of controller k *)
  Inductive cphase :=
  | CLock                      (* controller.py:59 *)
  | CLoop (ws : list G)        (* 60: kinds not started yet *)
  | CGet (g : G) (r : nat) (ws : list G)  (* source.py:32: waits for call r of the cache's get *)
  | CSync (snap : list G)      (* 65 *)
  | CUp.                       (* 73-78 *)
  Record crun := CR { c_ctl : nat; c_phase : cphase }.
  Record mgr := MS {
    m_cache : imap G;
    m_started : bool;            (* 30 *)
    m_holder : option nat;       (* 29: the start that has the lock *)
    m_starts : list sphase;
    m_ctls : list (list G);      (* the controllers' _watches *)
    m_runnables : list nat;      (* 28 *)
    m_ready : list mtask;
    m_runs : list crun
  }.
  Definition m_init : mgr := MS im_init false None [] [] [] [] [].

  Inductive mlabel :=
  | MNew | MAdd (k : nat) | MWatch (k : nat) (g : G)
  | MStart | MWait (c : nat) (snap : list G) | MLaunch (c : nat) (ks : list nat) | MRelaunch (c : nat) (ks : list nat) | MCancel (c : nat)
  | MTask (t : mtask)
  | MCLock (i : nat) | MGet (i : nat) (g : G) | MGot (i : nat) (g : G) | MSync (i : nat) (snap : list G) | MUp (i : nat)
  | MCache (l : ilabel G).

  (** has_synced_funcs, _deleg_map.py:29 *)
  Definition kinds (s : imap G) : list G := dkeys (im_infs s).
  (** all(sync_func() for ...), shared_informer.py:44-45 *)
  Definition all_synced (snap : list G) (s : imap G) : bool := forallb (λ g, synced g (im_infs s)) snap.
  (** holds the controller's mutex (controller.py:59-78) *)
  Definition holds (k : nat) (r : crun) : bool := bool_decide (c_ctl r = k) && match c_phase r with CLock | CUp => false | _ => true end.
  Definition ctl_free (k : nat) (s : mgr) : Prop := forallb (λ r, negb (holds k r)) (m_runs s) = true.
  (** the calls of get that belong to controllers *)
  Definition owned (r : nat) (s : mgr) : bool := existsb (λ x, match c_phase x with CGet _ r' _ => bool_decide (r' = r) | _ => false end) (m_runs s).

  Definition with_cache (c : imap G) (s : mgr) : mgr := MS c (m_started s) (m_holder s) (m_starts s) (m_ctls s) (m_runnables s) (m_ready s) (m_runs s).
  Definition set_run (i : nat) (p : cphase) (s : mgr) : mgr :=
    MS (m_cache s) (m_started s) (m_holder s) (m_starts s) (m_ctls s) (m_runnables s) (m_ready s) (alter (λ r, CR (c_ctl r) p) i (m_runs s)).

  Inductive mstep (s : mgr) : mlabel → mgr → Prop :=
  (** controller.py:25-31 *)
  | ms_new : mstep s MNew (MS (m_cache s) (m_started s) (m_holder s) (m_starts s) (m_ctls s ++ [[]]) (m_runnables s ++ [length (m_ctls s)]) (m_ready s) (m_runs s))
  (** manager.py:32-35 *)
  | ms_add k : k < length (m_ctls s) →
      mstep s (MAdd k) (MS (m_cache s) (m_started s) (m_holder s) (m_starts s) (m_ctls s) (m_runnables s ++ [k]) (m_ready s) (m_runs s))
  (** controller.py:47-54 *)
  | ms_watch k g ws : m_ctls s !! k = Some ws → ctl_free k s →
      mstep s (MWatch k g) (MS (m_cache s) (m_started s) (m_holder s) (m_starts s) (<[k:=ws ++ [g]]> (m_ctls s)) (m_runnables s) (m_ready s) (m_runs s))
  (** manager.py:43-50 *)
  | ms_start : mstep s MStart (MS (m_cache s) (m_started s) (m_holder s) (m_starts s ++ [SLock]) (m_ctls s) (m_runnables s) (m_ready s) (m_runs s))
  (** 50-51, 61-62 *)
  | ms_wait c : m_starts s !! c = Some SLock → m_holder s = None → m_started s = false →
      mstep s (MWait c (kinds (m_cache s)))
        (MS (m_cache s) false (Some c) (<[c:=SWait (kinds (m_cache s))]> (m_starts s)) (m_ctls s) (m_runnables s) (m_ready s ++ [TCache]) (m_runs s))
  (** 63-64, 52-56 *)
  | ms_launch c snap : m_starts s !! c = Some (SWait snap) → all_synced snap (m_cache s) = true →
      mstep s (MLaunch c (m_runnables s))
        (MS (m_cache s) true None (<[c:=SGather]> (m_starts s)) (m_ctls s) (m_runnables s) (m_ready s ++ (TRun <$> m_runnables s)) (m_runs s))
  (** 59-60, 52-56 *)
  | ms_relaunch c : m_starts s !! c = Some SLock → m_holder s = None → m_started s = true →
      mstep s (MRelaunch c (m_runnables s))
        (MS (m_cache s) true None (<[c:=SRaised]> (m_starts s)) (m_ctls s) (m_runnables s) (m_ready s ++ (TRun <$> m_runnables s)) (m_runs s))
  | ms_cancel c p : m_starts s !! c = Some p → p = SLock ∨ (∃ snap, p = SWait snap) →
      mstep s (MCancel c)
        (MS (m_cache s) (m_started s) (match p with SWait _ => None | _ => m_holder s end) (<[c:=SCancelled]> (m_starts s)) (m_ctls s) (m_runnables s) (m_ready s) (m_runs s))
  (** cache.py:52-53, _deleg_map.py:25-26, _informers_map.py:38-45 *)
  | ms_cache ready c' : m_ready s = TCache :: ready → imstep (m_cache s) IStart c' →
      mstep s (MTask TCache) (MS c' (m_started s) (m_holder s) (m_starts s) (m_ctls s) (m_runnables s) ready (m_runs s))
  (** controller.py:56-58 *)
  | ms_run k ready : m_ready s = TRun k :: ready →
      mstep s (MTask (TRun k)) (MS (m_cache s) (m_started s) (m_holder s) (m_starts s) (m_ctls s) (m_runnables s) ready (m_runs s ++ [CR k CLock]))
  (** 59 *)
  | ms_clock i k ws : m_runs s !! i = Some (CR k CLock) → m_ctls s !! k = Some ws → ctl_free k s → mstep s (MCLock i) (set_run i (CLoop ws) s)
  (** 60-61, source.py:32, cache.py:44-46 *)
  | ms_get i k g ws c' : m_runs s !! i = Some (CR k (CLoop (g :: ws))) → imstep (m_cache s) (IGet g) c' →
      mstep s (MGet i g) (set_run i (CGet g (length (im_gets (m_cache s))) ws) (with_cache c' s))
  (** source.py:32-33 *)
  | ms_got i k g r ws id st : m_runs s !! i = Some (CR k (CGet g r ws)) → im_gets (m_cache s) !! r = Some (GDone g id st) → mstep s (MGot i g) (set_run i (CLoop ws) s)
  (** 65 *)
  | ms_sync i k : m_runs s !! i = Some (CR k (CLoop [])) → mstep s (MSync i (kinds (m_cache s))) (set_run i (CSync (kinds (m_cache s))) s)
  (** 68-78 *)
  | ms_up i k snap : m_runs s !! i = Some (CR k (CSync snap)) → all_synced snap (m_cache s) = true → mstep s (MUp i) (set_run i CUp s)
  | ms_env l c' : imstep (m_cache s) l c' → (∀ r, l = ICancel r → owned r s = false) → mstep s (MCache l) (with_cache c' s).
End mgr.
Arguments sphase : clear implicits.
Arguments cphase : clear implicits.
Arguments crun : clear implicits.
Arguments mgr : clear implicits.
Arguments mlabel : clear implicits.
