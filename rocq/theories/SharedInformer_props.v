(** Properties of the shared informer: C47-C49. *)
From Verif Require Import Base DeltaFifo_model DeltaFifo_spec Store_model Store_spec Informer_model Informer_spec SharedInformer_model SharedInformer_spec
  SharedInformer_proofs SharedInformer_proofs2 Informer_proofs5 SharedInformer_proofs3.

Section props.
  Context {K O V N : Type} `{EqDecision K} `{EqDecision V} `{EqDecision N} (keyf : O → option K) (second dflt : Z) (fs : dict N (index_func (dobj K O) V)).
  Context (Hfs : good_indexers fs) (Hsec : (0 < second)%Z).
  Notation shared := (shared K O V N).
  Notation hstep := (hstep (V:=V) (N:=N) keyf second dflt).
  Notation init := (shared_init (V:=V) (N:=N) dflt fs).
  Notation tstep i := (λ s c s', ∃ r, hstep s c = (s', r) ∧ told i s r).

  (** C47: a handler added to a running informer is first told of each cached object, once *)
  Theorem C47_backlog h s req now s' : exec hstep init h s → p_started (h_proc s) = true → p_stopped (h_proc s) = false → hstep s (HRegister req now) = (s', HNone) →
    ∃ l os, p_ls (h_proc s') !! length (p_ls (h_proc s)) = Some l ∧ l_log l = (λ o, NAdd o false) <$> os ∧ NoDup os ∧
      ∀ o, o ∈ os ↔ ∃ k, (istep keyf (h_inf s) (SLook k)).2 = IObj (Some o).
  Proof. exact (backlog keyf second dflt fs Hfs h s req now s'). Qed.
  (** replaying a handler's notifications yields the cache, if every Sync notification it missed told nothing new *)
  Theorem C47_handler_view i cs s l k : reach (tstep i) init cs s → p_ls (h_proc s) !! i = Some l → (istep keyf (h_inf s) (SLook k)).2 = IObj (view keyf k (l_log l)).
  Proof. exact (handler_view keyf second dflt fs Hfs i cs s l k). Qed.
  (** which is so as long as there is no relist, whatever the resyncs *)
  Theorem C47_handler_view_no_relist i cs s0 h s l k : reach (tstep i) init cs s0 → drained (h_inf s0) → exec hstep s0 h s →
    (∀ c r os, (c, r) ∈ h → c ≠ HInf (QReplace os)) → p_ls (h_proc s) !! i = Some l → (istep keyf (h_inf s) (SLook k)).2 = IObj (view keyf k (l_log l)).
  Proof. exact (handler_view_no_relist keyf second dflt fs Hfs i cs s0 h s l k). Qed.

  (** C48: which handlers are told of a change *)
  Theorem C48_told_exactly s s' n i l : hstep s (HInf PDelta) = (s', HI (ICallback n)) → p_ls (h_proc s) !! i = Some l →
    ∃ l', p_ls (h_proc s') !! i = Some l' ∧ l_log l' = l_log l ++ (if negb (is_sync n) || bool_decide (i ∈ p_syncing (h_proc s)) then [n] else []).
  Proof. exact (told_exactly keyf second dflt s s' n i l). Qed.

  (** C49: the period of a handler, *)
  Theorem C49_period h0 s0 req now s1 h s : exec hstep init h0 s0 → p_stopped (h_proc s0) = false →
    hstep s0 (HRegister req now) = (s1, HNone) → exec hstep s1 h s →
    ∃ l, p_ls (h_proc s) !! length (p_ls (h_proc s0)) = Some l ∧ l_period l = effective second dflt (p_started (h_proc s0)) (p_check (h_proc s0)) req ∧
      (l_period l ≠ 0%Z → l_next l = last_resync (l_period l) now (checks h) + l_period l)%Z.
  Proof. exact (registered_period keyf second dflt Hsec fs h0 s0 req now s1 h s). Qed.
  (** which is no shorter than asked for, *)
  Theorem C49_period_bounds started check req : (effective second dflt started check req = 0 ∨
    second ≤ effective second dflt started check req ∧ requested dflt req ≤ effective second dflt started check req ∧ (started = true → check ≤ effective second dflt started check req))%Z.
  Proof. exact (effective_least second dflt Hsec started check req). Qed.
  (** the check period before *)
  Theorem C49_check_period h s : exec hstep init h s → p_started (h_proc s) = false → p_check (h_proc s) = foldl Z.min dflt (requests second dflt h).
  Proof. exact (check_minimum keyf second dflt Hsec fs h s). Qed.
  (** and after the start, *)
  Theorem C49_check_period_fixed h0 s0 h s : exec hstep init h0 s0 → p_started (h_proc s0) = true → exec hstep s0 h s → p_check (h_proc s) = p_check (h_proc s0).
  Proof. exact (check_fixed keyf second dflt Hsec fs h0 s0 h s). Qed.
  (** and the handlers resynced by a check: those whose last resync is at least a period ago *)
  Theorem C49_resynced_exactly h0 s0 req now s1 h s t s2 b : exec hstep init h0 s0 → p_stopped (h_proc s0) = false →
    hstep s0 (HRegister req now) = (s1, HNone) → exec hstep s1 h s → hstep s (HShouldResync t) = (s2, HBool b) →
    let P := effective second dflt (p_started (h_proc s0)) (p_check (h_proc s0)) req in
    length (p_ls (h_proc s0)) ∈ p_syncing (h_proc s2) ↔ (P ≠ 0 ∧ last_resync P now (checks h) + P ≤ t)%Z.
  Proof. exact (resync_exactly keyf second dflt Hsec fs h0 s0 req now s1 h s t s2 b). Qed.
  Theorem C49_resync_wanted s t s2 b : hstep s (HShouldResync t) = (s2, HBool b) → b = true ↔ p_syncing (h_proc s2) ≠ [].
  Proof. exact (resync_answer keyf second dflt s t s2 b). Qed.
End props.
(** C48: objects entering the cache, or changing, by a relist may be told to no handler *)
Theorem C48_silent_relist_refuted : ∃ h s l, exec sh_step sh_init h s ∧ drained (h_inf s) ∧ p_ls (h_proc s) = [l] ∧ l_log l = [NAdd (obj 1 10) true] ∧
  (HInf PDelta, HI (ICallback (NUpdate (obj 1 10) (obj 1 11) true))) ∈ h ∧ (HInf PDelta, HI (ICallback (NAdd (obj 2 20) true))) ∈ h ∧
  (icase_step (h_inf s) (SLook 1)).2 = IObj (Some (obj 1 11)) ∧ (icase_step (h_inf s) (SLook 2)).2 = IObj (Some (obj 2 20)).
Proof. exact silent_relist. Qed.

(** cases *)
Example C47_case : (∀ i, i < 2 → reach (λ s c s', ∃ r, sh_step s c = (s', r) ∧ told i s r) sh_init join_cs join_s) ∧ drained (h_inf join_s) ∧
  l_log <$> p_ls (h_proc join_s) = [[NAdd (obj 1 10) true; NAdd (obj 2 20) true; NUpdate (obj 2 20) (obj 2 21) false];
    [NAdd (obj 1 10) false; NAdd (obj 2 20) false; NUpdate (obj 2 20) (obj 2 21) false]].
Proof. exact join_case. Qed.
Example C47_no_relist_case : exec sh_step join_s later_h later_s ∧ (∀ c r os, (c, r) ∈ later_h → c ≠ HInf (QReplace os)) ∧ p_syncing (h_proc later_s) = [1] ∧
  l_log <$> p_ls (h_proc later_s) = [[NAdd (obj 1 10) true; NAdd (obj 2 20) true; NUpdate (obj 2 20) (obj 2 21) false; NDelete (obj 1 12); NAdd (obj 3 30) false];
    [NAdd (obj 1 10) false; NAdd (obj 2 20) false; NUpdate (obj 2 20) (obj 2 21) false; NUpdate (obj 1 10) (obj 1 10) true; NUpdate (obj 2 21) (obj 2 21) true;
     NDelete (obj 1 12); NAdd (obj 3 30) false]].
Proof. exact later_case. Qed.
Example C49_case : exec sh_step sh_init (run sh_step sh_init period_cs).2 period_s ∧ p_check (h_proc period_s) = 3%Z ∧ l_period <$> p_ls (h_proc period_s) = [5; 3; 3]%Z ∧
  (∀ t, p_syncing (h_proc (sh_step period_s (HShouldResync t)).1) = if bool_decide (t < 3)%Z then [] else if bool_decide (t < 4)%Z then [1] else if bool_decide (t < 5)%Z then [1; 2] else [0; 1; 2]).
Proof. exact period_case. Qed.

Print Assumptions C47_backlog.
Print Assumptions C47_handler_view.
Print Assumptions C47_handler_view_no_relist.
Print Assumptions C48_told_exactly.
Print Assumptions C48_silent_relist_refuted.
Print Assumptions C49_period.
Print Assumptions C49_period_bounds.
Print Assumptions C49_check_period.
Print Assumptions C49_check_period_fixed.
Print Assumptions C49_resynced_exactly.
Print Assumptions C49_resync_wanted.
