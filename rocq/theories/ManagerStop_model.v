(** Model of the tasks that manager.start leaves behind when it ends:
    aiok8s/controller/manager.py:43-64, controller.py:56-80, _informers_map.py:38-45
    (through _deleg_map.py:25-26 and cache.py:52-53), for one call of start.

    The tree of tasks: the call of manager.start; the task of cache.start() (61) with a
    task per informer (_informers_map.py:40-43); a task per controller (53-56) with a
    task per worker (controller.py:73-76).
    - The waits before a gather (a mutex, the sources' start, wait_for_cache_sync) can
      end at any time; what they wait for is in Manager_model.v.
    - An informer's run and a worker are leaves: asked to stop they end; they may
      also end by themselves, with an exception, an own CancelledError or normally.
      What an informer does when it is asked to stop is in InformerStop_model.v.
    - Task.cancel of a task that waits in a gather goes to the unended children and
      leaves the task waiting for the gather's future; if that future is done
      already, or no child is left to be cancelled, the task is resumed with
      CancelledError (_must_cancel).  A gather without return_exceptions ends with its
      first child that does not return; the other children go on.
    - Leaving an asyncio.Lock and queue.shut_down (which does not wait) are no
      suspensions: a list of tasks made in a mutex is gathered in the same step, and
      line 80 belongs to the end of the controller's start. *)
From Verif Require Import Base.

Inductive ending := Returned | Raised | Cancelled.
(** an informer's run, a worker; [req]: asked to stop *)
Inductive leaf := LRun (req : bool) | LEnd (r : ending).
(** a wait for asyncio.gather *)
Record gath := Gath {
  g_req : bool;              (* _cancel_requested *)
  g_out : option ending;     (* the gather's future *)
  g_must : bool              (* _must_cancel of the task that waits *)
}.
Definition g_new : gath := Gath false None false.
(** cache.start() *)
Inductive ctask := CNew (must : bool) | CGather (g : gath) | CEnd (r : ending).
(** controller.start() *)
Inductive kphase := KNew (must : bool) | KStarting (must : bool) | KGather (g : gath) | KEnd (r : ending).
Record ctl := Ctl { k_phase : kphase; k_workers : list leaf; k_shut : bool (* line 80 was run *) }.
(** manager.start() *)
Inductive mphase := MLock | MWait | MGather (g : gath) | MEnd (r : ending).
Record tree := Tree { t_main : mphase; t_cache : option ctask; t_infs : list leaf; t_ctls : list ctl }.
Definition t_init : tree := Tree MLock None [] [].

Definition leaf_end (l : leaf) : option ending := match l with LEnd r => Some r | _ => None end.
Definition cache_end (c : ctask) : option ending := match c with CEnd r => Some r | _ => None end.
Definition ctl_end (k : ctl) : option ending := match k_phase k with KEnd r => Some r | _ => None end.
(** some child is not done *)
Definition some_live (es : list (option ending)) : bool := existsb (λ e, match e with None => true | _ => false end) es.

(** _GatheringFuture.cancel and Task.cancel *)
Definition cancel_gath (es : list (option ending)) (g : gath) : gath :=
  match g_out g with
  | None => if some_live es then Gath true None (g_must g) else Gath (g_req g) None true
  | Some r => Gath (g_req g) (Some r) true
  end.
(** the children of a gather that is cancelled *)
Definition reaches (g : gath) : bool := match g_out g with None => true | Some _ => false end.
Definition cancel_leaf (l : leaf) : leaf := match l with LRun _ => LRun true | LEnd r => LEnd r end.
Definition cancel_leaves (g : gath) (ls : list leaf) : list leaf := if reaches g then cancel_leaf <$> ls else ls.
Definition cancel_cache (c : ctask) (infs : list leaf) : ctask * list leaf :=
  match c with
  | CNew _ => (CNew true, infs)
  | CGather g => (CGather (cancel_gath (leaf_end <$> infs) g), cancel_leaves g infs)
  | CEnd r => (CEnd r, infs)
  end.
Definition cancel_ctl (k : ctl) : ctl :=
  match k_phase k with
  | KNew _ => Ctl (KNew true) (k_workers k) (k_shut k)
  | KStarting _ => Ctl (KStarting true) (k_workers k) (k_shut k)
  | KGather g => Ctl (KGather (cancel_gath (leaf_end <$> k_workers k) g)) (cancel_leaves g (k_workers k)) (k_shut k)
  | KEnd _ => k
  end.
Definition main_children (s : tree) : list (option ending) := match t_cache s with Some c => [cache_end c] | None => [] end ++ (ctl_end <$> t_ctls s).
Definition cancel_main (s : tree) : tree :=
  match t_main s with
  | MLock | MWait => Tree (MEnd Cancelled) (t_cache s) (t_infs s) (t_ctls s)
  | MGather g =>
      let g' := cancel_gath (main_children s) g in
      if reaches g then
        match t_cache s with
        | Some c => let '(c', infs) := cancel_cache c (t_infs s) in Tree (MGather g') (Some c') infs (cancel_ctl <$> t_ctls s)
        | None => Tree (MGather g') None (t_infs s) (cancel_ctl <$> t_ctls s)
        end
      else Tree (MGather g') (t_cache s) (t_infs s) (t_ctls s)
  | MEnd r => s
  end.
(** a gather's future becomes done *)
Definition gathered (es : list (option ending)) (g : gath) (r : ending) : Prop :=
  (r ≠ Returned ∧ Some r ∈ es) ∨ (Forall (λ e, e = Some Returned) es ∧ r = if g_req g then Cancelled else Returned).
(** and the task that waits for it goes on *)
Definition resumed (g : gath) (r : ending) : ending := if g_must g then Cancelled else r.

Inductive who := WMain | WCache | WCtl (k : nat).
Inductive leafid := WInf (i : nat) | WWorker (k i : nat).
Inductive tlabel :=
| TBegin | TLaunch (m : nat) | TCacheBegin (n : nat) | TCtlBegin (k : nat) | TCtlUp (k n : nat) | TCtlFail (k : nat)
| TOwn (w : leafid) (r : ending)      (* a leaf ends by itself *)
| TStops (w : leafid) (r : ending)    (* a leaf that was asked to stop ends *)
| TDone (w : who) (r : ending) | TResume (w : who) (r : ending)
| TCancel.                            (* manager.start is cancelled *)

Definition get_leaf (s : tree) (w : leafid) : option leaf :=
  match w with WInf i => t_infs s !! i | WWorker k i => c ← t_ctls s !! k; k_workers c !! i end.
Definition end_leaf (w : leafid) (r : ending) (s : tree) : tree :=
  match w with
  | WInf i => Tree (t_main s) (t_cache s) (<[i:=LEnd r]> (t_infs s)) (t_ctls s)
  | WWorker k i => Tree (t_main s) (t_cache s) (t_infs s) (alter (λ c, Ctl (k_phase c) (<[i:=LEnd r]> (k_workers c)) (k_shut c)) k (t_ctls s))
  end.
Definition with_ctl (k : nat) (c : ctl) (s : tree) : tree := Tree (t_main s) (t_cache s) (t_infs s) (<[k:=c]> (t_ctls s)).

Inductive tstep (s : tree) : tlabel → tree → Prop :=
(** manager.py:50, 61 *)
| t_begin : t_main s = MLock → tstep s TBegin (Tree MWait (Some (CNew false)) (t_infs s) (t_ctls s))
(** 62-64, 52-56 *)
| t_launch m : t_main s = MWait → tstep s (TLaunch m) (Tree (MGather g_new) (t_cache s) (t_infs s) (replicate m (Ctl (KNew false) [] false)))
(** _informers_map.py:38-45; a task cancelled before it began never runs *)
| t_cache_begin n : t_cache s = Some (CNew false) → tstep s (TCacheBegin n) (Tree (t_main s) (Some (CGather g_new)) (replicate n (LRun false)) (t_ctls s))
| t_cache_dead : t_cache s = Some (CNew true) → tstep s (TResume WCache Cancelled) (Tree (t_main s) (Some (CEnd Cancelled)) (t_infs s) (t_ctls s))
(** controller.py:56-58 *)
| t_ctl_begin k ws : t_ctls s !! k = Some (Ctl (KNew false) ws false) → tstep s (TCtlBegin k) (with_ctl k (Ctl (KStarting false) ws false) s)
| t_ctl_dead k ws : t_ctls s !! k = Some (Ctl (KNew true) ws false) → tstep s (TResume (WCtl k) Cancelled) (with_ctl k (Ctl (KEnd Cancelled) ws false) s)
(** 59-78 *)
| t_ctl_up k n ws : t_ctls s !! k = Some (Ctl (KStarting false) ws false) → tstep s (TCtlUp k n) (with_ctl k (Ctl (KGather g_new) (replicate n (LRun false)) false) s)
| t_ctl_fail k ws : t_ctls s !! k = Some (Ctl (KStarting false) ws false) → tstep s (TCtlFail k) (with_ctl k (Ctl (KEnd Raised) ws true) s)
| t_ctl_stop k ws : t_ctls s !! k = Some (Ctl (KStarting true) ws false) → tstep s (TResume (WCtl k) Cancelled) (with_ctl k (Ctl (KEnd Cancelled) ws true) s)
| t_own w r : get_leaf s w = Some (LRun false) → tstep s (TOwn w r) (end_leaf w r s)
| t_stops w r : get_leaf s w = Some (LRun true) → tstep s (TStops w r) (end_leaf w r s)
(** manager.py:56 *)
| t_main_done g r : t_main s = MGather g → g_out g = None → gathered (main_children s) g r →
    tstep s (TDone WMain r) (Tree (MGather (Gath (g_req g) (Some r) (g_must g))) (t_cache s) (t_infs s) (t_ctls s))
| t_main_resume g r : t_main s = MGather g → g_out g = Some r →
    tstep s (TResume WMain (resumed g r)) (Tree (MEnd (resumed g r)) (t_cache s) (t_infs s) (t_ctls s))
(** _informers_map.py:45 *)
| t_cache_done g r : t_cache s = Some (CGather g) → g_out g = None → gathered (leaf_end <$> t_infs s) g r →
    tstep s (TDone WCache r) (Tree (t_main s) (Some (CGather (Gath (g_req g) (Some r) (g_must g)))) (t_infs s) (t_ctls s))
| t_cache_resume g r : t_cache s = Some (CGather g) → g_out g = Some r →
    tstep s (TResume WCache (resumed g r)) (Tree (t_main s) (Some (CEnd (resumed g r))) (t_infs s) (t_ctls s))
(** controller.py:78-80 *)
| t_ctl_done k g ws b r : t_ctls s !! k = Some (Ctl (KGather g) ws b) → g_out g = None → gathered (leaf_end <$> ws) g r →
    tstep s (TDone (WCtl k) r) (with_ctl k (Ctl (KGather (Gath (g_req g) (Some r) (g_must g))) ws b) s)
| t_ctl_resume k g ws b r : t_ctls s !! k = Some (Ctl (KGather g) ws b) → g_out g = Some r →
    tstep s (TResume (WCtl k) (resumed g r)) (with_ctl k (Ctl (KEnd (resumed g r)) ws true) s)
| t_cancel : tstep s TCancel (cancel_main s).
