(** C107: the tasks inside [Reflector.list_and_watch] on the event loop: the one that reads the watch, the two that
    get from the queues, the one that resyncs, and the handler. *)
From Verif Require Import Base Reflector_model WatchLoop_model WatchLoop_spec WatchLoop_proofs WatchLoop_proofs2 WatchLoop_proofs3 WatchLoop_proofs4 WatchLoop_proofs5 WatchLoop_proofs6 WatchLoop_proofs7 WatchLoop_proofs8.

(** what they do is what the whole reflector does in Reflector_model for some inputs, with the same calls in the same order,
    so that C37-C41 hold of it *)
Theorem C107_refines {O RV St} (g : rcfg O RV) (q : sops O RV St) x0 h0 rv x ls s :
  exec (rstep g q) (refl_init, x0) h0 (Refl RReady (Some rv) (Some rv) ENone, x) → reach (wstep g q) (w_init rv x) ls s →
  ∃ h r, exec (rstep g q) (refl_init, x0) (h0 ++ h) (r, w_store s) ∧ concat h.*2 = w_calls s ∧
    r_last r = w_last s ∧ r_opt r = w_opt s ∧ r_pc r = place (w_pc s) (w_count s).
Proof. exact (refines g q x0 h0 rv x ls s). Qed.
Print Assumptions C107_refines.

(** the handler looks at the events of a watch in the order in which they were read, each once *)
Theorem C107_order {O RV St} (g : rcfg O RV) (q : sops O RV St) rv x ls s :
  reach (wstep g q) (w_init rv x) ls s → w_seen s `prefix_of` reads ls.
Proof. exact (order g q rv x ls s). Qed.
Print Assumptions C107_order.

(** and another watch is opened only after it has looked at all of them *)
Theorem C107_complete {O RV St} (g : rcfg O RV) (q : sops O RV St) rv x ls s :
  reach (wstep g q) (w_init rv x) ls s → w_pc s = PReady → w_seen s = reads ls.
Proof. exact (complete g q rv x ls s). Qed.
Print Assumptions C107_complete.

(** the loop can always run what is ready *)
Theorem C107_live {O RV St} (g : rcfg O RV) (q : sops O RV St) rv x ls s short :
  reach (wstep g q) (w_init rv x) ls s → w_ready s ≠ [] → ∃ s', wstep g q s (WRun short) s'.
Proof. exact (can_run g q rv x ls s short). Qed.
Print Assumptions C107_live.

(** and comes to rest with what the store and the streams that are left still owe, unless something happens outside *)
Theorem C107_settles {O RV St} (g : rcfg O RV) (q : sops O RV St) rv x ls s :
  reach (wstep g q) (w_init rv x) ls s → ∃ n, ∀ ls2 s2, reach (wstep g q) s ls2 s2 → (∀ l, l ∈ ls2 → inside l = true) → length ls2 ≤ n.
Proof. exact (all_settles g q rv x ls s). Qed.
Print Assumptions C107_settles.

(** the handler waits then, or the watch is over *)
Theorem C107_settled {O RV St} (g : rcfg O RV) (q : sops O RV St) rv x ls s :
  reach (wstep g q) (w_init rv x) ls s → (∀ l s', inside l = true → ¬ wstep g q s l s') → w_ready s = [] ∧ (w_pc s = PWait ∨ between (w_pc s)).
Proof. exact (settled g q rv x ls s). Qed.
Print Assumptions C107_settled.

(** when nothing is ready and the handler waits, it has looked at every event read, no error is left unseen, it was not cancelled,
    and the stream is being read, unless it raised *)
Theorem C107_rest {O RV St} (g : rcfg O RV) (q : sops O RV St) rv x ls s :
  reach (wstep g q) (w_init rv x) ls s → w_ready s = [] → w_pc s = PWait →
  w_seen s = reads ls ∧ w_errq s = false ∧ w_cancel s = false ∧ (w_reader s = RdRead ∨ w_reader s = RdOver ∧ raised ls = true).
Proof. exact (rest_alive g q rv x ls s). Qed.
Print Assumptions C107_rest.

(** until list_and_watch ends or a resync fails, the next resync can happen, over all watches *)
Theorem C107_resyncs {O RV St} (g : rcfg O RV) (q : sops O RV St) rv x ls s :
  reach (wstep g q) (w_init rv x) ls s → CResync false ∉ w_calls s → w_pc s ≠ PReturned → w_pc s ≠ PCancelled → ∃ s', wstep g q s WResync s'.
Proof. exact (ticks g q rv x ls s). Qed.
Print Assumptions C107_resyncs.

(** after a failed resync at most one more call is made of the store or of watch, and the handler does not stay waiting *)
Theorem C107_failed_resync {O RV St} (g : rcfg O RV) (q : sops O RV St) rv x ls s s1 ls2 s2 :
  reach (wstep g q) (w_init rv x) ls s → wstep g q s WResync s1 → w_calls s1 = w_calls s ++ [CResync false] → reach (wstep g q) s1 ls2 s2 →
  (∃ cs, w_calls s2 = w_calls s1 ++ cs ∧ length cs ≤ 1) ∧ (w_ready s2 = [] → w_pc s2 ≠ PWait).
Proof. exact (failed_resync g q rv x ls s s1 ls2 s2). Qed.
Print Assumptions C107_failed_resync.

(** a cancelled reflector makes no more calls but of resync, and when nothing is ready it is leaving the watch or has ended *)
Theorem C107_cancel {O RV St} (g : rcfg O RV) (q : sops O RV St) rv x ls s s1 ls2 s2 :
  reach (wstep g q) (w_init rv x) ls s → wstep g q s WCancel s1 → reach (wstep g q) s1 ls2 s2 →
  (∃ cs, w_calls s2 = w_calls s ++ cs ∧ Forall (λ c, ∃ ok, c = CResync ok) cs) ∧ (w_ready s2 = [] → w_pc s2 = PClosing ICancel ∨ w_pc s2 = PCancelled).
Proof. exact (obeys g q rv x ls s s1 ls2 s2). Qed.
Print Assumptions C107_cancel.

(** no task outlives its watch, and the resync task does not outlive list_and_watch *)
Theorem C107_no_task_left {O RV St} (g : rcfg O RV) (q : sops O RV St) rv x ls s :
  reach (wstep g q) (w_init rv x) ls s → between (w_pc s) →
  is_over (w_event s) = true ∧ is_over (w_error s) = true ∧ w_reader s = RdOver ∧ (w_pc s ≠ PReady → w_resync s = false).
Proof. exact (tasks_over g q rv x ls s). Qed.
Print Assumptions C107_no_task_left.

(** a watch that is left ends as soon as its stream lets go *)
Theorem C107_left {O RV St} (g : rcfg O RV) (q : sops O RV St) rv x ls s why :
  reach (wstep g q) (w_init rv x) ls s → w_ready s = [] → w_pc s = PClosing why → w_reader s = RdExit ∨ ∃ s', wstep g q s WClosed s'.
Proof. exact (rest_closing g q rv x ls s why). Qed.
Print Assumptions C107_left.

(** but if the stream has raised, the handler waits until a resync fails or the reflector is cancelled *)
Theorem C107_hangs {O RV St} (g : rcfg O RV) (q : sops O RV St) (s : wstate O RV St) ls s' :
  w_ready s = [] → w_pc s = PWait → w_reader s = RdOver → reach (wstep g q) s ls s' → WCancel ∉ ls →
  ∃ cs, w_calls s' = w_calls s ++ cs ∧ (CResync false ∉ cs → Forall (λ c, c = CResync true) cs ∧ w_ready s' = [] ∧ w_pc s' = PWait ∧ w_reader s' = RdOver).
Proof. exact (hangs g q s ls s'). Qed.
Print Assumptions C107_hangs.

Theorem C107_goes_on_refuted : ∃ ls s, reach (wstep wcase_cfg calm_ops) w0 ls s ∧
  ∀ ls2 s2, reach (wstep wcase_cfg calm_ops) s ls2 s2 → WCancel ∉ ls2 → w_pc s2 = PWait ∧ ∃ cs, w_calls s2 = w_calls s ++ cs ∧ Forall (λ c, c = CResync true) cs.
Proof. exact raise_refuted. Qed.
Print Assumptions C107_goes_on_refuted.

(** cases *)
Example C107_case : reach (wstep wcase_cfg wcase_ops) w0 wcase_run wcase_end ∧ w_pc wcase_end = PReady ∧ w_calls wcase_end = [CWatch (Some 3); CAdd (2, 4) true] ∧
  w_last wcase_end = Some 4 ∧ w_store wcase_end = [(1, 3); (2, 4)] ∧ w_seen wcase_end = [Event EvAdded (2, 4); Event EvAdded (99, 7)].
Proof. exact wcase_runs. Qed.
Example C107_late_case : reach (wstep wcase_cfg wcase_ops) w0 late_run1 late_at ∧ wstep wcase_cfg wcase_ops late_at WResync late_mid ∧
  w_calls late_mid = w_calls late_at ++ [CResync false] ∧ reach (wstep wcase_cfg wcase_ops) late_mid late_run2 late_end ∧
  w_calls late_end = w_calls late_mid ++ [CAdd (2, 4) true] ∧ w_pc late_end = PReturned.
Proof. exact late_runs. Qed.
Example C107_raise_case : reach (wstep wcase_cfg wcase_ops) w0 raise_run raise_end ∧ w_ready raise_end = [] ∧ w_pc raise_end = PWait ∧ w_reader raise_end = RdOver.
Proof. exact raise_runs. Qed.
