(** Properties C37 to C41 of the reflector.  [h] is any history of inputs
    (lists, watches, events, disconnections, timers) with what the reflector did
    for each, [(r, s)] the state of the reflector and the store it leads to.  The
    spec functions read the history newest first. *)
From Verif Require Import Base KeyFunc_model KeyFunc_spec Reflector_model Store_model Store_spec Reflector_spec Reflector_proofs World_model World_proofs.

Section props.
  Context {O RV S : Type} (g : rcfg O RV) (q : sops O RV S).
  Notation rstep := (rstep g q).
  Notation init s0 := (refl_init, s0).

  (** C37: last_sync_resource_version() is the version of the last accepted event or list *)
  Theorem C37_last_is_synced s0 h r s v : exec rstep (init s0) h (r, s) → (rstep (r, s) ILast).2 = [CLast v] ↔ synced g (reverse h) v.
  Proof. exact (last_is_synced g q s0 h r s v). Qed.
  (** and every watch starts from it *)
  Theorem C37_watch_from_synced s0 h i out x v : exec rstep (init s0) (h ++ [(i, out)]) x → CWatch v ∈ out → synced g (reverse h) v.
  Proof. exact (watch_from_synced g q s0 h i out x v). Qed.

  (** C38: an accepted event becomes its one store call, whether that succeeds or not, and advances the version *)
  Theorem C38_accepted_event s0 h r s e rv : exec rstep (init s0) h (r, s) →
    watching g (reverse h) → ¬ error_first (reverse h) → accepted g e rv →
    ∃ ok, (rstep (r, s) (IEvent e)).2 = event_call e ok ∧ (∀ c, c ∈ event_call (RV:=RV) e ok → call_ok q s c) ∧
      r_last (rstep (r, s) (IEvent e)).1.1 = Some rv.
  Proof. exact (event_accepted g q s0 h r s e rv). Qed.
  (** any other event touches neither the store nor the version *)
  Theorem C38_other_event s0 h r s e : exec rstep (init s0) h (r, s) →
    ¬ (watching g (reverse h) ∧ ¬ error_first (reverse h) ∧ ∃ rv, accepted g e rv) →
    (rstep (r, s) (IEvent e)).2 = [] ∧ (rstep (r, s) (IEvent e)).1.2 = s ∧ r_last (rstep (r, s) (IEvent e)).1.1 = r_last r.
  Proof. exact (event_not_accepted g q s0 h r s e). Qed.
  (** the store is changed by the recorded calls, in this order, and by nothing else *)
  Theorem C38_store_changed_by_calls_only s0 h r s : exec rstep (init s0) h (r, s) → s = foldl (call_effect q) s0 (concat h.*2).
  Proof. exact (store_only_by_calls g q s0 h r s). Qed.

  (** C40: a closed stream, a broken event and a failed resync lead to a new list or a new watch *)
  Theorem C40_stream_end_continues s0 h r s i : exec rstep (init s0) h (r, s) → watching g (reverse h) →
    (∃ short, i = IClose short) ∨ (∃ e, i = IEvent e ∧ broken g e) ∨ (i = ISeeError ∧ resync_failed (reverse h)) →
    will_list g q (rstep (r, s) i).1 ∨ will_watch g q (rstep (r, s) i).1 (r_last r).
  Proof. exact (stream_end_continues g q s0 h r s i). Qed.
  Theorem C40_close_resumes s0 h r s short : exec rstep (init s0) h (r, s) → watching g (reverse h) → ¬ error_first (reverse h) →
    short = false → will_watch g q (rstep (r, s) (IClose short)).1 (r_last r).
  Proof. exact (close_resumes g q s0 h r s short). Qed.
  (** but if the stream raises, no list, watch or event follows, unless a resync fails or the task is cancelled *)
  Theorem C40_stream_exception_hangs s0 h h2 x : exec rstep (init s0) (h ++ (IStreamRaises, []) :: h2) x → watching g (reverse h) →
    ¬ resync_failed (reverse h) → (∀ i out, (i, out) ∈ h2 → i ≠ ICancel ∧ out ≠ [CResync false]) →
    ∀ i out c, (i, out) ∈ h2 → c ∈ out → c = CResync true ∨ ∃ v, c = CLast v.
  Proof. exact (stream_raise_hangs g q s0 h h2 x). Qed.

  (** C41: an event whose apiVersion has no '/' ends the watch instead of being compared *)
  Theorem C41_core_event_ends_watch s0 h r s e want a : exec rstep (init s0) h (r, s) → watching g (reverse h) →
    c_gvk g = Some want → expected_type g (e_obj e) → c_api g (e_obj e) = Some a → no_slash a →
    (rstep (r, s) (IEvent e)).2 = [] ∧ (rstep (r, s) (IEvent e)).1.2 = s ∧ will_list g q (rstep (r, s) (IEvent e)).1.
  Proof. exact (core_event_ends_watch g q s0 h r s e want a). Qed.
End props.

(** C37: connected to a server, the changes between the last list and the synced
    version are applied once each, in order, over any number of watches *)
Theorem C37_exactly_once {K O S : Type} `{EqDecision K} (keyf : O → option K) (g : rcfg O nat) (q : sops O nat S) s0 ls w s v :
  reach (wstep keyf g q) (world_init, s0) ls (w, s) → r_last (w_refl w) = Some v →
  w_base w ≤ v ≤ length (w_changes w) ∧ w_applied w = drop (w_base w) (take v (w_changes w)).
Proof. exact (exactly_once keyf g q s0 ls w s v). Qed.

(** C39: with a plain store the content is the server's state at the synced version *)
Theorem C39_store_is_server_state {K O V N : Type} `{EqDecision K} `{EqDecision V} `{EqDecision N} (keyf : O → option K) (g : rcfg O nat)
    (fs : dict N (index_func O V)) ls w s v k : good_indexers fs →
  reach (wstep keyf g (plain_sops keyf)) (world_init, store_init fs) ls (w, s) → r_last (w_refl w) = Some v →
  (sstep keyf s (SGetByKey k)).2 = SOpt (server_at keyf (w_changes w) v k).
Proof. exact (λ Hfs, store_is_server_state keyf g fs Hfs ls w s v k). Qed.

(** C39: a list with an object that has no key is refused as a whole: the store
    and the synced version stay, and the reflector lists again *)
Theorem C39_unkeyed_list_refused {K O V N : Type} `{EqDecision K} `{EqDecision V} `{EqDecision N} (keyf : O → option K) (g : rcfg O nat)
    (r : refl nat) (s : store K O V N) items v o : r_pc r = RIdle → o ∈ items → keyf o = None →
  rstep g (plain_sops keyf) (r, s) (IList items v) = ((Refl RIdle (r_last r) (r_opt r) ENone, s), [CReplace items v false]).
Proof. exact (unkeyed_list_refused keyf g r s items v o). Qed.

Theorem C40_stream_exception_refuted : ∃ x, exec (rstep ocase_cfg ocase_sops) (refl_init, store_init [])
    [(IList [] 1, [CReplace [] 1 true]); (IWatch, [CWatch (Some 1)]); (IStreamRaises, [])] x ∧
  ∀ h x' c, exec (rstep ocase_cfg ocase_sops) x h x' → (∀ i out, (i, out) ∈ h → i ≠ ICancel) → c ∈ concat h.*2 → c = CResync true ∨ ∃ v, c = CLast v.
Proof. exact stream_exception_refuted. Qed.

(** cases *)
Example C37_case : exec (rstep ocase_cfg ocase_sops) (refl_init, store_init []) ocase_run (ocase_refl, ocase_store).
Proof. exact ocase_runs. Qed.
Example C38_case : watching ocase_cfg (reverse ocase_run) ∧ ¬ resync_failed (reverse ocase_run) ∧ ¬ error_first (reverse ocase_run).
Proof. exact ocase_watching. Qed.
Example C38_case_late : exec (rstep ocase_cfg lcase_sops) (refl_init, store_init []) lcase_run (Refl (RWatching 0) (Some 6) (Some 6) EQueued, store_init []) ∧
  watching ocase_cfg (reverse lcase_run) ∧ resync_failed (reverse lcase_run) ∧ ¬ error_first (reverse lcase_run) ∧
  (rstep ocase_cfg lcase_sops (Refl (RWatching 0) (Some 6) (Some 6) EQueued, store_init []) (IEvent (Event EvAdded (1, 7)))).2 = [CAdd (1, 7) true] ∧
  error_first (reverse (lcase_run ++ [(IEvent (Event EvAdded (1, 7)), [CAdd (1, 7) true])])).
Proof. exact lcase_runs. Qed.
Example C38_case_accepted : accepted ocase_cfg (Event EvAdded (2, 9)) 9.
Proof. by apply ocase_accepted. Qed.
Example C40_case : broken ocase_cfg (Event EvError (1, 1)) ∧ broken ocase_cfg (Event EvAdded (1, 0)).
Proof. exact ocase_broken. Qed.
Example C39_case : ∃ ls, reach (wstep ocase_key ocase_cfg ocase_sops) (world_init, store_init []) ls (wcase_world, Store [(5, (5, 2))] [] []).
Proof. exact wcase_runs. Qed.

Print Assumptions C37_last_is_synced.
Print Assumptions C37_watch_from_synced.
Print Assumptions C37_exactly_once.
Print Assumptions C38_accepted_event.
Print Assumptions C38_other_event.
Print Assumptions C38_store_changed_by_calls_only.
Print Assumptions C39_store_is_server_state.
Print Assumptions C39_unkeyed_list_refused.
Print Assumptions C40_stream_end_continues.
Print Assumptions C40_close_resumes.
Print Assumptions C40_stream_exception_hangs.
Print Assumptions C40_stream_exception_refuted.
Print Assumptions C41_core_event_ends_watch.
