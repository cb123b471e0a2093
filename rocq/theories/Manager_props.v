(** C71, C75. *)
From Verif Require Import Base InformersMap_model InformersMap_spec Manager_model Manager_spec Manager_proofs Manager_proofs2 Manager_proofs3 Manager_proofs4.

(** C71: the launch has every runnable added so far, in order, and comes when the
    informers that were there as the start began to wait are all synced. *)
Theorem C71_launch (G : Type) `{EqDecision G} tr (s : mgr G) c ks s' : reach mstep m_init tr s → mstep s (MLaunch c ks) s' →
  ks = added 0 tr ∧ ∃ tr1 tr2 s1, tr = tr1 ++ MWait c (kinds (m_cache s1)) :: tr2 ∧ reach mstep m_init tr1 s1 ∧ ∀ g, g ∈ kinds (m_cache s1) → synced g (im_infs (m_cache s)) = true.
Proof. exact (launch_spec tr s c ks s'). Qed.
Print Assumptions C71_launch.
(** C71: if start is called once, no runnable is launched more often than it was added. *)
Theorem C71_once (G : Type) `{EqDecision G} tr (s : mgr G) k : reach mstep m_init tr s → start_calls tr ≤ 1 →
  launched k tr ≤ countb (λ k', bool_decide (k' = k)) (added 0 tr).
Proof. exact (launched_le tr s k). Qed.
Print Assumptions C71_once.
(** C71: however often it is called, one launch succeeds; every other comes later,
    launches all the runnables again, and its start raises. *)
Theorem C71_one_good (G : Type) `{EqDecision G} tr (s : mgr G) : reach mstep m_init tr s → good_launches tr ≤ 1.
Proof. exact (launch_once tr s). Qed.
Print Assumptions C71_one_good.
Theorem C71_again_raises (G : Type) `{EqDecision G} tr (s : mgr G) c ks s' : reach mstep m_init tr s → mstep s (MRelaunch c ks) s' →
  ks = added 0 tr ∧ good_launches tr = 1 ∧ m_starts s' !! c = Some SRaised.
Proof. exact (relaunch_spec tr s c ks s'). Qed.
Print Assumptions C71_again_raises.
(** C71: a start that waits can always come to launch, by what is under way alone. *)
Theorem C71_progress (G : Type) `{EqDecision G} tr (s : mgr G) c snap : reach mstep m_init tr s → m_starts s !! c = Some (SWait snap) →
  ∃ ls s1 s', reach mstep s ls s1 ∧ mstep s1 (MLaunch c (m_runnables s)) s' ∧ Forall (λ l, goes_on l ∨ ∃ t, l = MTask t) ls.
Proof. exact (can_launch tr s c snap). Qed.
Print Assumptions C71_progress.
(** C71: "each runnable is started once" fails for two starts. *)
Theorem C71_twice_refuted : ∃ s, reach mstep m_init (built ++ up ++ [MStart; MRelaunch 1 [0]]) s ∧ m_starts s !! 1 = Some SRaised ∧
  launched 0 (built ++ up ++ [MStart; MRelaunch 1 [0]]) = 2 ∧ m_ready s = [TRun 0].
Proof. exact twice_case. Qed.
Print Assumptions C71_twice_refuted.
Example C71_case : reach mstep m_init (built ++ up) up_st.
Proof. exact built_case. Qed.

(** C75: no controller begins before the cache was started. *)
Theorem C75_after_cache (G : Type) `{EqDecision G} tr (s : mgr G) k s' : reach mstep m_init tr s → mstep s (MTask (TRun k)) s' → MTask TCache ∈ tr.
Proof. exact (runs_after_cache tr s k s'). Qed.
Print Assumptions C75_after_cache.
(** C75: so a controller one of whose kinds has no informer when its turn comes never
    gets past it, unless the cache is started again. *)
Theorem C75_unbuilt_hangs (G : Type) `{EqDecision G} tr (s : mgr G) i k g ws : reach mstep m_init tr s → ¬ made g tr → m_runs s !! i = Some (CR k (CLoop (g :: ws))) →
  ∀ ls s', reach mstep s ls s' → IStart ∉ cache_labels ls → MGot i g ∉ ls ∧ MUp i ∉ ls.
Proof. exact (unbuilt_hangs tr s i k g ws). Qed.
Print Assumptions C75_unbuilt_hangs.
(** C75: a new controller that watches kind 7, without the builder's request for it *)
Theorem C75_unbuilt_refuted : ∃ s, reach mstep m_init [MNew; MWatch 0 7; MStart; MWait 0 []; MLaunch 0 [0]; MTask TCache; MTask (TRun 0); MCLock 0] s ∧
  ∀ ls s', reach mstep s ls s' → IStart ∉ cache_labels ls → MUp 0 ∉ ls.
Proof. exact unbuilt_never. Qed.
Print Assumptions C75_unbuilt_refuted.
(** C75: with every informer made before the cache is started, and one for every
    watched kind, each controller can always come up, by what is under way alone. *)
Theorem C75_comes_up (G : Type) `{EqDecision G} tr1 tr2 (s : mgr G) i k ph : reach mstep m_init (tr1 ++ MTask TCache :: tr2) s →
  (∀ g, made g (tr1 ++ MTask TCache :: tr2) → made g tr1) → (∀ k g, MWatch k g ∈ tr1 ++ MTask TCache :: tr2 → made g tr1) → m_runs s !! i = Some (CR k ph) →
  ∃ ls s', reach mstep s ls s' ∧ Forall goes_on ls ∧ m_runs s' !! i = Some (CR k CUp).
Proof. exact (comes_up tr1 tr2 s i k ph). Qed.
Print Assumptions C75_comes_up.
(** C75: the first of these is needed: an informer made after the start keeps every
    controller that waits for it from coming up. *)
Theorem C75_late_blocks (G : Type) `{EqDecision G} tr1 tr2 (s1 s : mgr G) i k snap g : reach mstep m_init tr1 s1 → reach mstep s1 tr2 s → ¬ made g tr1 → IStart ∉ cache_labels tr2 →
  m_runs s !! i = Some (CR k (CSync snap)) → g ∈ snap → ∀ ls s', reach mstep s ls s' → IStart ∉ cache_labels ls → MUp i ∉ ls.
Proof. exact (late_blocks tr1 tr2 s1 s i k snap g). Qed.
Print Assumptions C75_late_blocks.
(** C75: two starts of one controller do not set it up at the same time. *)
Theorem C75_one_setup (G : Type) `{EqDecision G} tr (s : mgr G) k : reach mstep m_init tr s → countb (holds k) (m_runs s) ≤ 1.
Proof. exact (one_holder tr s k). Qed.
Print Assumptions C75_one_setup.
(** a case of C75_comes_up: tr1 is [built] without its last label *)
Example C75_case : reach mstep m_init (built ++ up) up_st ∧ (∀ g, made g built ↔ g = 7) ∧ (∀ k g, MWatch k g ∈ built ++ up → g = 7) ∧ (∀ g, made g (built ++ up) → g = 7).
Proof. exact (conj built_case built_hyps). Qed.
