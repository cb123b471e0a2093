(** C108: a reflector whose watches run as tasks on the event loop, connected to a server. *)
From Verif Require Import Base KeyFunc_model Reflector_model Store_model Store_spec Reflector_spec World_model World_proofs
  WatchLoop_model WatchLoop_spec WatchFeed_model WatchFeed_spec WatchFeed_proofs WatchFeed_proofs2 WatchFeed_proofs3.

(** what happens to the store is what happens in World_model, where the reflector takes one event at a time from the stream *)
Theorem C108_refines {K O St} `{EqDecision K} (keyf : O → option K) (g : rcfg O nat) (q : sops O nat St) x0 ls f :
  reach (fstep keyf g q) (fed_init x0) ls f →
  ∃ wls w, reach (World_model.wstep keyf g q) (world_init, x0) wls (w, stored (f_at f)) ∧ w_changes w = f_changes f ∧ r_last (w_refl w) = version (f_at f).
Proof. exact (feed_refines keyf g q x0 ls f). Qed.
Print Assumptions C108_refines.

(** the changes between the last list and the last version are applied once each and in order, over any number of watches *)
Theorem C108_exactly_once {K O St} `{EqDecision K} (keyf : O → option K) (g : rcfg O nat) (q : sops O nat St) x0 ls cs c b s :
  reach (fstep keyf g q) (fed_init x0) ls (Fed cs c (FIn b s)) →
  ∃ v, w_last s = Some v ∧ b ≤ v ≤ length cs ∧ omap out_event (w_calls s) = drop b (take v cs).
Proof. exact (feed_once keyf g q x0 ls cs c b s). Qed.
Print Assumptions C108_exactly_once.

(** when nothing is ready and the handler waits, everything its stream delivered has been applied *)
Theorem C108_caught_up {K O St} `{EqDecision K} (keyf : O → option K) (g : rcfg O nat) (q : sops O nat St) x0 ls cs c b s :
  reach (fstep keyf g q) (fed_init x0) ls (Fed cs c (FIn b s)) → w_ready s = [] → w_pc s = PWait → w_last s = Some c.
Proof. exact (feed_caught_up keyf g q x0 ls cs c b s). Qed.
Print Assumptions C108_caught_up.

(** and the loop comes to that after a bounded number of steps, or to the end of the watch, if nothing happens outside *)
Theorem C108_settles {K O St} `{EqDecision K} (keyf : O → option K) (g : rcfg O nat) (q : sops O nat St) x0 ls cs c b s :
  reach (fstep keyf g q) (fed_init x0) ls (Fed cs c (FIn b s)) →
  ∃ n, ∀ ls2 f, reach (fstep keyf g q) (Fed cs c (FIn b s)) (FLoop <$> ls2) f → (∀ l, l ∈ ls2 → inside l = true) →
    length ls2 ≤ n ∧ ((∀ l f', inside l = true → ¬ fstep keyf g q f (FLoop l) f') →
      ∃ s', f = Fed cs c (FIn b s') ∧ (w_pc s' = PWait ∧ w_last s' = Some c ∨ between (w_pc s'))).
Proof. exact (feed_settles keyf g q x0 ls cs c b s). Qed.
Print Assumptions C108_settles.

(** a plain store always holds the server's state at the last version *)
Theorem C108_store {K O V N} `{EqDecision K} `{EqDecision V} `{EqDecision N} (keyf : O → option K) (g : rcfg O nat) (fs : dict N (index_func O V)) ls f v k :
  good_indexers fs → reach (fstep keyf g (plain_sops keyf)) (fed_init (store_init fs)) ls f → version (f_at f) = Some v →
  (sstep keyf (stored (f_at f)) (SGetByKey k)).2 = SOpt (server_at keyf (f_changes f) v k).
Proof. exact (λ Hfs, feed_store keyf g fs Hfs ls f v k). Qed.
Print Assumptions C108_store.

(** and the present one when the stream has delivered all changes and nothing is ready *)
Theorem C108_in_sync {K O V N} `{EqDecision K} `{EqDecision V} `{EqDecision N} (keyf : O → option K) (g : rcfg O nat) (fs : dict N (index_func O V)) ls cs b s k :
  good_indexers fs → reach (fstep keyf g (plain_sops keyf)) (fed_init (store_init fs)) ls (Fed cs (length cs) (FIn b s)) → w_ready s = [] → w_pc s = PWait →
  (sstep keyf (w_store s) (SGetByKey k)).2 = SOpt (server_at keyf cs (length cs) k).
Proof. exact (λ Hfs, feed_in_sync keyf g fs Hfs ls cs b s k). Qed.
Print Assumptions C108_in_sync.

(** a list, and a watch that reads two changes, a bookmark and an event of another type in one batch *)
Example C108_case : reach fcase_step (fed_init (store_init [])) fcase_run (Fed fcase_changes 3 (FIn 1 fcase_s4)) ∧
  w_ready fcase_s4 = [] ∧ w_pc fcase_s4 = PWait ∧ w_last fcase_s4 = Some 3 ∧ w_calls fcase_s4 = [CWatch (Some 1); CAdd (2, 2) true; CUpdate (1, 3) true].
Proof. exact fcase_runs_ok. Qed.
