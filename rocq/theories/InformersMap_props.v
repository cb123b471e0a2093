(** C67, C68, C74. *)
From Verif Require Import Base InformersMap_model InformersMap_spec InformersMap_proofs.
From Coq Require Import QArith.
Local Open Scope nat_scope.

(** C67: whatever the interleaving, the calls for a kind that returned all have
    the same informer, and no more than one was made for it. *)
Theorem C67_one_informer (G : Type) `{EqDecision G} tr (s : imap G) r1 r2 g id1 id2 st1 st2 : reach imstep im_init tr s →
  returned r1 g id1 st1 s → returned r2 g id2 st2 s → id1 = id2.
Proof. exact (one_informer tr s r1 r2 g id1 id2 st1 st2). Qed.
Print Assumptions C67_one_informer.
Theorem C67_created_once (G : Type) `{EqDecision G} tr (s : imap G) g : reach imstep im_init tr s → created g tr ≤ 1.
Proof. exact (created_once tr s g). Qed.
Print Assumptions C67_created_once.

(** C67: a call made after the start, for a kind that had no informer, does not
    return unless the cache is started again. *)
Theorem C67_late_hangs (G : Type) `{EqDecision G} tr (s : imap G) g r : reach imstep im_init tr s → IStart ∈ tr → dget g (im_infs s) = None → im_gets s !! r = Some (GLook g) →
  ∀ ls s', reach imstep s ls s' → IStart ∉ ls → ∀ g' id st, ¬ returned r g' id st s'.
Proof. exact (late_hangs tr s g r). Qed.
Print Assumptions C67_late_hangs.

(** C67, the other half: if the kind's informer was made before a start, a waiting
    call can always come to return, without a further start. *)
Theorem C67_known_returns (G : Type) `{EqDecision G} l1 l2 (s : imap G) r0 g r id : reach imstep im_init (l1 ++ IStart :: l2) s → IAdd r0 g true ∈ l1 →
  im_gets s !! r = Some (GWait g id) → ∃ ls s', reach imstep s ls s' ∧ returned r g id true s' ∧ IStart ∉ ls.
Proof. exact (known_returns l1 l2 s r0 g r id). Qed.
Print Assumptions C67_known_returns.

(** C67: "get returns" is false: the cache is started, then get is called. *)
Theorem C67_get_returns_refuted : ∃ (s : imap nat), reach imstep im_init [IStart; IGet 7] s ∧
  ∀ ls s', reach imstep s ls s' → IStart ∉ ls → ∀ g id st, ¬ returned 0 g id st s'.
Proof. exact get_hangs_case. Qed.
Print Assumptions C67_get_returns_refuted.

(** a case: three calls for one kind, one after the start, all return informer 0 *)
Example C67_case : ∃ s, reach imstep im_init three_gets s ∧ returned 0 7 0 false s ∧ returned 1 7 0 false s ∧ returned 2 7 0 true s.
Proof. exact three_gets_case. Qed.
Print Assumptions C67_case.

(** C68: the period is never within 10 percent of the configured one; it lies
    between 0 and 18 percent of it, and any value there comes up. *)
Theorem C68_never_near resync r : (0 < resync)%Q → (0 <= r)%Q → (r < 1)%Q → ¬ near resync (resync_period resync r).
Proof. exact (period_never_near resync r). Qed.
Print Assumptions C68_never_near.
Theorem C68_range resync r : (0 <= resync)%Q → (0 <= r)%Q → (r < 1)%Q → (0 <= resync_period resync r)%Q ∧ (resync_period resync r <= resync * (18 # 100))%Q.
Proof. exact (period_range resync r). Qed.
Print Assumptions C68_range.
Theorem C68_onto resync p : (0 < resync)%Q → (0 <= p)%Q → (p < resync * (18 # 100))%Q → ∃ r, (0 <= r)%Q ∧ (r < 1)%Q ∧ (resync_period resync r == p)%Q.
Proof. exact (period_onto resync p). Qed.
Print Assumptions C68_onto.
(** a case: the default of ten hours (cache.py:18), with the median random value *)
Theorem C68_near_refuted : ∃ r, (0 <= r)%Q ∧ (r < 1)%Q ∧ (resync_period 36000 r == 3240)%Q ∧ ¬ near 36000 (resync_period 36000 r).
Proof. exists (1 # 2). repeat split; [done..|]. by apply period_never_near. Qed.
Print Assumptions C68_near_refuted.

(** C74: a call that found the cache started returns only when the kind's
    informer has synced. *)
Theorem C74_synced (G : Type) `{EqDecision G} (s : imap G) l s' r g id : imstep s l s' → ¬ returned r g id true s → returned r g id true s' → synced g (im_infs s') = true.
Proof. exact (returns_synced s l s' r g id). Qed.
Print Assumptions C74_synced.

(** C74: a call that did not returns at its next step, without waiting, and a read
    through the cache then raises CacheNotStartedError whatever is stored. *)
Theorem C74_not_started (G : Type) `{EqDecision G} tr (s : imap G) r g found s' : reach imstep im_init tr s → im_gets s !! r = Some (GFound g found false) →
  (∃ c s1, imstep s (IAdd r g c) s1) ∧ (∀ c, imstep s (IAdd r g c) s' → ∃ id, returned r g id false s').
Proof. exact (before_start tr s r g found s'). Qed.
Print Assumptions C74_not_started.
Theorem C74_not_started_iff (O : Type) started (found : option O) : cache_get started found = CNotStarted O ↔ started = false.
Proof. by destruct started, found. Qed.
Print Assumptions C74_not_started_iff.

(** C74: no informer is run more often than the cache is started. *)
Theorem C74_runs (G : Type) `{EqDecision G} tr (s : imap G) g : reach imstep im_init tr s → begins g tr ≤ starts tr.
Proof. exact (runs_le tr s g). Qed.
Print Assumptions C74_runs.

(** C74, a limit: has_synced of a later run counts for the whole, so a second
    start makes a synced informer unsynced. *)
Theorem C74_stays_synced_refuted : ∃ (s s' : imap nat), reach imstep im_init [IGet 7; IRead 0; IAdd 0 7 true; IStart; IBegin 7; ISync 7] s ∧ synced 7 (im_infs s) = true ∧
  reach imstep s [IStart; IBegin 7] s' ∧ synced 7 (im_infs s') = false.
Proof. exact unsynced_case. Qed.
Print Assumptions C74_stays_synced_refuted.
