(** Properties of a listener whose handler raises: C90. *)
From Verif Require Import Base Listener_model Listener_spec ListenerTime_model ListenerTime_spec ListenerTime_proofs.
From Coq Require Import ZArith.

Section props.
  Context {N : Type} (sec res : Z).
  Notation tstep := (tstep (N:=N) sec res).

  (** C90: for a minute after the handler raised it is not called, and its task does not end *)
  Theorem C90_pause (s0 : tlis N) ls1 t1 ls2 l t2 ls3 s' :
    reach tstep s0 (ls1 ++ TDo LRaise t1 :: ls2 ++ TDo l t2 :: ls3) s' → goes_on l → (t1 + 60 * sec < t2 + res)%Z.
  Proof. exact (pause sec res s0 ls1 t1 ls2 l t2 ls3 s'). Qed.
  (** so it raises once a minute at most *)
  Theorem C90_raise_rate (s : tlis N) ls s' : (res <= 60 * sec)%Z → reach tstep s ls s' →
    (Z.of_nat (raises_of ls - 1) * (60 * sec - res) <= t_now s' - t_now s)%Z.
  Proof. exact (raise_rate sec res s ls s'). Qed.
  (** at most four notifications are accepted ahead of the handler, *)
  Theorem C90_ahead (ls : list (llabel N)) s ls' s' : reach lstep lis_init ls s → reach lstep s ls' s' →
    length (accepted_of ls') ≤ length (handled_of ls') + 4.
  Proof. exact (ahead ls s ls' s'). Qed.
  (** so a handler that raises every time lets no more than one notification a minute be accepted, but for the first six *)
  Theorem C90_throughput t0 (ls : list (tlabel N)) s ls' s' : (res <= 60 * sec)%Z → reach tstep (t_init t0) ls s → reach tstep s ls' s' → returns_of ls' = 0 →
    (Z.of_nat (length (accepted_of (untimed ls')) - 6) * (60 * sec - res) <= t_now s' - t_now s)%Z.
  Proof. exact (throughput sec res t0 ls s ls' s'). Qed.
  (** after the stop request the handler is called three times at most *)
  Theorem C90_calls_after_stop (ls : list (llabel N)) s ls' s' : reach lstep lis_init ls s → LStop ∈ ls → reach lstep s ls' s' →
    length (handled_of ls') ≤ 3.
  Proof. exact (λ Hr Hs, stop_calls ls s ls' s' Hr (Listener_proofs.stop_stays ls s Hr Hs)). Qed.
End props.
(** REFUTED: that the task of the handler ends soon after the stop request, even when every callback ends at once: two minutes *)
Theorem C90_prompt_stop_refuted (sec res : Z) : (0 < sec)%Z → (0 < res)%Z →
  ∃ ls (s : tlis nat), reach (tstep sec res) (t_init 0) ls s ∧ TDo LStop 0 ∈ ls ∧ t_now s = (60 * sec)%Z ∧ handled_of (untimed ls) = [1; 2] ∧
    (∀ ls' t s', reach (tstep sec res) s (ls' ++ [TDo LRunStop t]) s' → (120 * sec < t + res)%Z) ∧
    (∃ ls' s', reach (tstep sec res) s ls' s' ∧ TDo LRunStop (120 * sec) ∈ ls').
Proof. exact (slow_stop sec res). Qed.

(** cases: two notifications accepted, both raised on, a minute apart *)
Example C90_case (sec res : Z) : (0 < sec)%Z → (0 < res)%Z →
  reach (tstep sec res) (t_init 0) raise_ls (raise_s sec) ∧ reach (tstep sec res) (raise_s sec) (again_ls sec) (again_s sec) ∧
  returns_of (raise_ls ++ again_ls sec) = 0 ∧ raises_of (raise_ls ++ again_ls sec) = 2 ∧ accepted_of (untimed raise_ls) = [1; 2].
Proof. exact (λ H1 H2, conj (raise_runs sec res H2) (conj (again_runs sec res H1 H2) (conj eq_refl (conj eq_refl eq_refl)))). Qed.

Print Assumptions C90_pause.
Print Assumptions C90_raise_rate.
Print Assumptions C90_ahead.
Print Assumptions C90_throughput.
Print Assumptions C90_calls_after_stop.
Print Assumptions C90_prompt_stop_refuted.
