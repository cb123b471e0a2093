(** C86. *)
From Verif Require Import Base RealTime_model RealTime_spec Resync_model Resync_spec Resync_proofs DeltaFifo_model Store_model Informer_model Informer_proofs5 SharedInformer_model SharedInformer_spec SharedInformer_proofs3.
From Coq Require Import ZArith.
Local Open Scope Z_scope.

(** C86: without a period there are no checks, *)
Theorem C86_never res t0 tr s : reach (zstep res 0) (z_init t0) tr s → check_times tr = [].
Proof. exact (never res 0 t0 tr s eq_refl). Qed.
(** otherwise they are a period apart, up to the clock's resolution, *)
Theorem C86_apart res d t0 tr s x y : reach (zstep res d) (z_init t0) tr s → adjacent x y (check_times tr) → x + Z.max 0 d < y + res.
Proof. exact (apart res d t0 tr s x y). Qed.
Theorem C86_number res d t0 tr s : res <= Z.max 0 d → reach (zstep res d) (z_init t0) tr s →
  Z.of_nat (length (check_times tr)) * (Z.max 0 d - res) <= zclock t0 tr - t0.
Proof. exact (λ Hres Hr, eq_ind _ (λ n, _ <= n - t0) (number res d t0 tr s Hres Hr) _ (znow res d t0 tr s Hr)). Qed.
(** the first one a period after the list whose watches are under way, *)
Theorem C86_after_list res d t0 l1 t due l2 s : reach (zstep res d) (z_init t0) (l1 ++ ZCheck t due :: l2) s → ∃ a, episode (reverse l1) = Some a ∧ a + Z.max 0 d < t + res.
Proof. exact (after_list res d t0 l1 t due l2 s). Qed.
(** and none once they have ended. *)
Theorem C86_none_after_end res d t0 l1 b l2 s : reach (zstep res d) (z_init t0) (l1 ++ ZCancel b :: l2) s → (∀ t, ZBegin t ∉ l2) → check_times l2 = [].
Proof. exact (none_after_end res d t0 l1 b l2 s). Qed.
(** The next one is due a period later: nothing but the timer has to go on *)
Theorem C86_next res d t0 tr s t due : 0 < res → d ≠ 0 → reach (zstep res d) (z_init t0) tr s → waiting (reverse tr) → zclock t0 tr + Z.max 0 d <= t →
  ∃ ls s', Forall timer_label ls ∧ reach (zstep res d) s (ls ++ [ZCheck t due]) s'.
Proof. exact (λ Hres Hd Hr Hw Ht, next_check res d t0 tr s t due Hres Hd Hr Hw (eq_ind_r (λ n, n + Z.max 0 d <= t) Ht (znow res d t0 tr s Hr))). Qed.

(** C86: a handler with a period is resynced at least once in a period and the time D between two checks *)
Theorem C86_latency {K O V N : Type} `{EqDecision K} `{EqDecision V} `{EqDecision N} (keyf : O → option K) second dflt (fs : dict N (index_func (dobj K O) V)) h0 s0 req now s1 h s D t :
  0 < second → exec (hstep keyf second dflt) (shared_init dflt fs) h0 s0 → p_stopped (h_proc s0) = false →
  hstep keyf second dflt s0 (HRegister req now) = (s1, HNone) → exec (hstep keyf second dflt) s1 h s →
  let P := effective second dflt (p_started (h_proc s0)) (p_check (h_proc s0)) req in
  P ≠ 0 → every D now (checks h) → t <= default now (last (checks h)) + D →
  t < now + P + D ∨ ∃ h1 r b h2 s2, h = h1 ++ (HShouldResync r, HBool b) :: h2 ∧ t < r + P + D ∧ exec (hstep keyf second dflt) s1 (h1 ++ [(HShouldResync r, HBool b)]) s2 ∧
    length (p_ls (h_proc s0)) ∈ p_syncing (h_proc s2).
Proof. exact (λ Hsec, latency keyf second dflt fs Hsec h0 s0 req now s1 h s D t). Qed.

(** C86: that checks come every period is false: if the watches after each list end within a period, there never is one, however long this goes on *)
Theorem C86_short_watches res d t0 tr s : reach (zstep res d) (z_init t0) tr s →
  (∀ l1 l l2 a, tr = l1 ++ l :: l2 → episode (reverse l1) = Some a → zclock t0 l1 + res <= a + Z.max 0 d) → check_times tr = [].
Proof. exact (short_watches res d t0 tr s). Qed.
Theorem C86_every_period_refuted : (∃ s, reach (zstep 1 10) (z_init 0) rs_short s) ∧
  (∀ l1 l l2 a, rs_short = l1 ++ l :: l2 → episode (reverse l1) = Some a → zclock 0 l1 + 1 <= a + Z.max 0 10) ∧ zclock 0 rs_short = 16 ∧ check_times rs_short = [].
Proof. exact rs_short_case. Qed.

(** cases *)
Theorem C86_case : reach (zstep 1 10) (z_init 0) rs_trace rs_state ∧ check_times rs_trace = [10; 23] ∧ waiting (reverse rs_trace).
Proof. exact rs_case. Qed.
Theorem C86_latency_case : ∃ s1 h s, hstep (V:=nat) (N:=nat) icase_key 1 10 sh_init (HRegister (Some 5) 0) = (s1, HNone) ∧ exec (hstep icase_key 1 10) s1 h s ∧ h.*1 = rs_hops ∧
  effective 1 10 false 10 (Some 5) = 5 ∧ every 5 0 (checks h) ∧ 23 <= default 0 (last (checks h)) + 5 ∧ checks h = [4; 9; 13; 18] ∧ last_resync 5 0 (checks h) = 18.
Proof. exact rs_latency_case. Qed.

Print Assumptions C86_never.
Print Assumptions C86_apart.
Print Assumptions C86_number.
Print Assumptions C86_after_list.
Print Assumptions C86_none_after_end.
Print Assumptions C86_next.
Print Assumptions C86_latency.
Print Assumptions C86_short_watches.
Print Assumptions C86_every_period_refuted.
Print Assumptions C86_case.
Print Assumptions C86_latency_case.
