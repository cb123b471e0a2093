(** C69. *)
From Verif Require Import Base FakeSource_model FakeSource_spec FakeSource_proofs.

(** C69: a list, later a watch from the version it gave: whatever happened before, in
    between and since, the events replayed over the list give what a list gives now.
    Changes between the two may have been hidden from the watchers; changes that failed
    and objects passed several times are allowed. *)
Theorem C69_list_watch (K V : Type) `{EqDecision K} (keyof : nat → K) h1 (s1 : fsrc K V) objs v s1' h2 s2 s2' w h3 s :
  exec (fstep keyof) f_init h1 s1 → fstep keyof s1 FList = (s1', FListed objs v) → exec (fstep keyof) s1' h2 s2 →
  fstep keyof s2 (FWatch (Z.of_nat v)) = (s2', FWatching w) → exec (fstep keyof) s2' h3 s → no_other (h2 ++ h3) → none_dropped h3 →
  ∃ evs objs' v' s', f_watchers s !! w = Some evs ∧ fstep keyof s FList = (s', FListed objs' v') ∧
    ∀ k, replay (read keyof s evs) (listed objs) k = listed objs' k.
Proof. exact (list_watch' keyof h1 s1 objs v s1' h2 s2 s2' w h3 s). Qed.
Print Assumptions C69_list_watch.

(** C69: if no object is passed to change twice and all changes since the watch reached the
    watchers, the events are the changes after the version, in order, as they were made. *)
Theorem C69_exact (K V : Type) `{EqDecision K} (keyof : nat → K) h1 (s1 : fsrc K V) h2 s2 s2' w h3 s :
  exec (fstep keyof) f_init h1 s1 → exec (fstep keyof) s1 h2 s2 → fstep keyof s2 (FWatch (Z.of_nat (version h1))) = (s2', FWatching w) →
  exec (fstep keyof) s2' h3 s → NoDup (objects (h1 ++ h2 ++ h3)) → all_seen h3 →
  ∃ evs, f_watchers s !! w = Some evs ∧ read keyof s evs = drop (version h1) (log keyof (h1 ++ h2 ++ h3)).
Proof. exact (exact_version keyof h1 s1 h2 s2 s2' w h3 s). Qed.
Print Assumptions C69_exact.

(** C69, as stated: then the first n events give the contents n versions later. *)
Theorem C69_every_version (K V : Type) `{EqDecision K} (keyof : nat → K) h1 (s1 : fsrc K V) objs v s1' h2 s2 s2' w h3 s :
  exec (fstep keyof) f_init h1 s1 → fstep keyof s1 FList = (s1', FListed objs v) → exec (fstep keyof) s1' h2 s2 →
  fstep keyof s2 (FWatch (Z.of_nat v)) = (s2', FWatching w) → exec (fstep keyof) s2' h3 s →
  no_other h1 → NoDup (objects (h1 ++ h2 ++ h3)) → all_seen h3 →
  ∃ evs, f_watchers s !! w = Some evs ∧
    ∀ n k, replay (take n (read keyof s evs)) (listed objs) k = replay (take (v + n) (log keyof (h1 ++ h2 ++ h3))) (λ _, None) k.
Proof. exact (every_version' keyof h1 s1 objs v s1' h2 s2 s2' w h3 s). Qed.
Print Assumptions C69_every_version.

(** C69: the version of a list is the number of changes, and a watch is refused iff its
    version is beyond that. *)
Theorem C69_version (K V : Type) `{EqDecision K} (keyof : nat → K) h (s : fsrc K V) objs rv :
  exec (fstep keyof) f_init h s → fstep keyof s FList = (s, FListed objs rv) → rv = version h.
Proof. exact (list_version keyof h s objs rv). Qed.
Print Assumptions C69_version.
Theorem C69_watch_outcome (K V : Type) `{EqDecision K} (keyof : nat → K) h (s : fsrc K V) rc : exec (fstep keyof) f_init h s → (0 ≤ rc)%Z →
  (fstep keyof s (FWatch rc)).2 = if (Z.of_nat (version h) <? rc)%Z then FFuture else FWatching (length (f_watchers s)).
Proof. exact (watch_outcome keyof h s rc). Qed.
Print Assumptions C69_watch_outcome.

(** C69: "at every later version" is false when an object is edited and passed again: an
    object is added as 10, then modified to 20; of a watch from 0 the first event
    already has 20 and version 2. *)
Theorem C69_reuse_refuted : ∃ s evs, exec (fstep one_key) f_init reuse_h s ∧ f_watchers s !! 0 = Some evs ∧ all_seen reuse_h ∧
  replay (take 1 (read one_key s evs)) (λ _, None) 0 = Some (20, 2) ∧ replay (take 1 (log one_key reuse_h)) (λ _, None) 0 = Some (10, 1).
Proof. exact reuse_case. Qed.
Print Assumptions C69_reuse_refuted.
(** C69: false for changes made with add_drop_watch and its like after the watch. *)
Theorem C69_dropped_refuted : ∃ s, exec (fstep own_key) f_init [(FWatch 0, FWatching 0); (FChange EAdded 3 10 true, FDone)] s ∧
  f_watchers s !! 0 = Some [] ∧ flist own_key s = FListed [Copy 3 (10, 1)] 1.
Proof. exact dropped_case. Qed.
Print Assumptions C69_dropped_refuted.
(** C69: false for other event types, whose object is changed though the event says nothing. *)
Theorem C69_other_refuted : ∃ s evs, exec (fstep own_key) f_init other_h s ∧ f_watchers s !! 0 = Some evs ∧ flist own_key s = FListed [Copy 3 (20, 2)] 2 ∧
  replay (read own_key s evs) (listed [Copy 3 (10, 1)]) 3 = Some (10, 1).
Proof. exact other_case. Qed.
Print Assumptions C69_other_refuted.

(** a case of C69_list_watch: listed at version 2; a change hidden from watchers and a failed
    one, the watch, then a deletion, an addition and a failed deletion *)
Theorem C69_case : ∃ s1 s2 s2' s, exec (fstep own_key) f_init case_h1 s1 ∧ fstep own_key s1 FList = (s1, FListed [Copy 3 (10, 1); Copy 4 (11, 2)] 2) ∧
  exec (fstep own_key) s1 case_h2 s2 ∧ fstep own_key s2 (FWatch 2) = (s2', FWatching 0) ∧ exec (fstep own_key) s2' case_h3 s ∧
  no_other (case_h2 ++ case_h3) ∧ none_dropped case_h3 ∧ flist own_key s = FListed [Copy 3 (12, 3); Copy 5 (14, 6)] 7.
Proof. exact full_case. Qed.
Print Assumptions C69_case.
(** a case of C69_exact and C69_every_version *)
Theorem C69_fresh_case : ∃ s1 s2 s2' s evs, exec (fstep mod_key) f_init fresh_h1 s1 ∧ fstep mod_key s1 FList = (s1, FListed [Copy 3 (10, 1); Copy 4 (11, 2)] 2) ∧
  exec (fstep mod_key) s1 fresh_h2 s2 ∧ fstep mod_key s2 (FWatch 2) = (s2', FWatching 0) ∧ exec (fstep mod_key) s2' fresh_h3 s ∧
  no_other fresh_h1 ∧ NoDup (objects (fresh_h1 ++ fresh_h2 ++ fresh_h3)) ∧ all_seen fresh_h3 ∧
  f_watchers s !! 0 = Some evs ∧ read mod_key s evs = [(EModified, Copy 3 (12, 3)); (EDeleted, Copy 4 (13, 4)); (EAdded, Copy 5 (14, 5))].
Proof. exact fresh_case. Qed.
Print Assumptions C69_fresh_case.
