(** C88. *)
From Verif Require Import Base KeyFunc_model Reflector_model Reflector_spec Store_model World_model World_proofs Pace_model Pace_spec Pace_proofs.
From Coq Require Import ZArith.
Local Open Scope Z_scope.

(** C88: two lists are requested a second apart, up to the clock's resolution, *)
Theorem C88_lists_apart {O RV S : Type} (g : rcfg O RV) (q : sops O RV S) sec res s0 t0 w0 a t1 b t2 c s :
  reach (pstep g q sec res) (p_init s0 t0 w0) (a ++ PSendList t1 :: b ++ PSendList t2 :: c) s → t1 + sec < t2 + res.
Proof. exact (lists_apart g q sec res s0 t0 w0 a b c t1 t2 s). Qed.
Theorem C88_lists_number {O RV S : Type} (g : rcfg O RV) (q : sops O RV S) sec res s0 t0 w0 tr s :
  res <= sec → reach (pstep g q sec res) (p_init s0 t0 w0) tr s → (Z.of_nat (length (list_times tr)) - 1) * (sec - res) <= pclock t0 tr - t0.
Proof. exact (λ Hres Hr, eq_ind _ (λ n, _ <= n - t0) (lists_number g q sec res s0 t0 w0 tr s Hres Hr) _ (clock_reach g q sec res t0 tr (p_init s0 t0 w0) s eq_refl Hr)). Qed.
(** and so are two watches, if no list was requested and no event was accepted in between: time.time() advanced by a second since the earlier watch was answered, *)
Theorem C88_idle_watches {O RV S : Type} (g : rcfg O RV) (q : sops O RV S) sec res s0 t0 w0 a i1 o1 t1 w1 b i2 o2 t2 w2 c s :
  reach (pstep g q sec res) (p_init s0 t0 w0) (a ++ PIn i1 o1 true t1 w1 :: b ++ PIn i2 o2 true t2 w2 :: c) s →
  (∀ t, PSendList t ∉ b) → (∀ e rv o x t w, PIn (IEvent e) o x t w ∈ b → ¬ accepted g e rv) →
  ∃ o x t' w', PIn IWatch o x t' w' ∈ b ∧ t1 <= t' ∧ w' + sec <= w2.
Proof. exact (idle_watches g q sec res s0 t0 w0 a i1 o1 t1 w1 b i2 o2 t2 w2 c s). Qed.
(** and with it the loop's clock, if the clocks run together. *)
Theorem C88_idle_watches_apart {O RV S : Type} (g : rcfg O RV) (q : sops O RV S) sec res s0 t0 δ a i1 o1 t1 w1 b i2 o2 t2 w2 c s :
  clocks_agree δ (a ++ PIn i1 o1 true t1 w1 :: b ++ PIn i2 o2 true t2 w2 :: c) →
  reach (pstep g q sec res) (p_init s0 t0 (t0 + δ)) (a ++ PIn i1 o1 true t1 w1 :: b ++ PIn i2 o2 true t2 w2 :: c) s →
  (∀ t, PSendList t ∉ b) → (∀ e rv o x t w, PIn (IEvent e) o x t w ∈ b → ¬ accepted g e rv) → t1 + sec <= t2.
Proof. exact (idle_watches_agree g q sec res s0 t0 δ a i1 o1 t1 w1 b i2 o2 t2 w2 c s). Qed.
(** C88: then there are no more watches than lists, events accepted and seconds together *)
Theorem C88_watches_number {O RV S : Type} (g : rcfg O RV) (q : sops O RV S) sec res (acc : event O → bool) s0 t0 δ tr s :
  (∀ e rv, accepted g e rv → acc e = true) → 0 <= sec → clocks_agree δ tr → reach (pstep g q sec res) (p_init s0 t0 (t0 + δ)) tr s →
  sec * (Z.of_nat (length (watch_times tr)) - Z.of_nat (length (list_times tr)) - Z.of_nat (length (arrived acc tr))) <= pclock t0 tr - t0.
Proof. exact (λ Hacc Hsec, watches_number g q sec res acc Hacc Hsec t0 δ s0 tr s). Qed.
(** C88: watches that deliver an event have no pause: whatever the store and the filter, a server that sends one event and ends the watch is asked any number of times in the same instant *)
Theorem C88_eventful_watches {O RV S : Type} (g : rcfg O RV) (q : sops O RV S) sec res s0 s1 items v e rv t w :
  so_replace q s0 items v = (s1, true) → accepted g e rv → 0 < sec → ∀ n, ∃ tr s,
  reach (pstep g q sec res) (p_init s0 t w) tr s ∧ length (list_times tr) = 1%nat ∧ length (watch_times tr) = Datatypes.S n ∧ ∀ t', t' ∈ watch_times tr → t' = t.
Proof. exact (burst_accepted g q sec res s0 s1 items v e rv t w). Qed.
(** so they are not a second apart. *)
Theorem C88_watches_apart_refuted : ∃ tr t1 t2 s, reach (pstep ocase_cfg ocase_sops 10 1) (p_init (store_init []) 0 100) tr s ∧ watch_times tr = [t1; t2] ∧ length (list_times tr) = 1%nat ∧ clocks_agree 100 tr ∧ t2 < t1 + 10.
Proof. exact burst_case. Qed.

(** Concrete case: lists at 0 and 10, watches at 10, 20 and (after an event) 20 *)
Theorem C88_case : ∃ s, reach (pstep ocase_cfg ocase_sops 10 1) (p_init (store_init []) 0 100) pcase_trace s ∧
  list_times pcase_trace = [0; 10] ∧ watch_times pcase_trace = [10; 20; 20] ∧ arrived (λ _, true) pcase_trace = [Event EvAdded (2, 4)%nat] ∧ clocks_agree 100 pcase_trace.
Proof. exact pcase_runs. Qed.
Print Assumptions C88_lists_apart.
Print Assumptions C88_lists_number.
Print Assumptions C88_idle_watches.
Print Assumptions C88_idle_watches_apart.
Print Assumptions C88_watches_number.
Print Assumptions C88_eventful_watches.
Print Assumptions C88_watches_apart_refuted.
Print Assumptions C88_case.
