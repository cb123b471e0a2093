(** Property of the program example.py: C84. *)
From Verif Require Import Base KeyFunc_model KeyFunc_spec DeltaFifo_model DeltaFifo_spec Store_model Store_spec Reflector_model Reflector_spec World_model Informer_model Informer_spec
  SharedInformer_model SharedInformer_spec Listener_model Source_model Source_spec WorkQueue_model DelayQueue_model Controller_model System_model System_spec System_proofs2
  System_live_spec Example_model Example_spec Example_proofs Example_proofs2.
From Coq Require Import Strings.String Strings.Ascii.
From stdpp Require Import strings.
Local Open Scope nat_scope.

(** C84: the last that is printed about a pod is what the server has; nothing is printed only of a pod of which nothing was ever announced *)
Theorem C84_last_report {V N : Type} `{EqDecision V} `{EqDecision N} (g : rcfg pyobj nat) second dflt i fs t0 workers ns name (σ : nat → sys V N) lb n pr :
  let r := NsName (Some ns) (Some name) in
  let k := object_key_to_store_key r in
  let changes := w_changes (z_world (σ n)) in
  let server := DObj <$> server_at queue_key changes (length changes) k in
  good_indexers fs → ns ≠ ""%string → no_slash name →
  σ 0 = sys_init dflt fs t0 workers → zruns (λ z l z', zstep g second dflt i [] z l z' ∧ only_pods l ∧ single_list z l) σ lb →
  (∀ m, stopped (σ m) = false) → (∀ q, just (zstep g second dflt i []) σ lb q) → workers_go_on σ lb → 0 < workers → (∀ m j, lb m ≠ ZCtl (KCancel j)) →
  prints σ lb pr → registered i (σ n) → server_rests σ lb n →
  ∃ M, n ≤ M ∧ always_tells pr r server M ∧
    (server = None ∧ (∀ m x, M ≤ m → x ∈ log_of i (z_inf (σ m)) → ¬ about k x) ∨ ∃ q j, (j, r, server) ∈ pr q ∧ always_tells pr r server q).
Proof.
  intros r k changes server Hfs Hne Hsl H0 Hrun Hns Hjust Hgo Hw Hnc Hpr Hreg Hrest.
  exact (reports_server g second dflt i fs Hfs t0 workers ns name Hne Hsl σ lb n pr H0 Hrun Hns Hjust Hgo Hrest Hw Hnc Hpr Hreg).
Qed.
(** the line about a pod that is there names it *)
Theorem C84_line_identifies ip r1 r2 ns1 n1 x1 ns2 n2 x2 : no_slash ns1 → no_slash ns2 → ¬ occurs ":"%char n1 → ¬ occurs ":"%char n2 →
  line ip r1 (Some (Typed (Some (Some (Some ns1, Some n1))) x1)) = line ip r2 (Some (Typed (Some (Some (Some ns2, Some n2))) x2)) → ns1 = ns2 ∧ n1 = n2.
Proof. exact (line_identifies ip r1 r2 ns1 n1 x1 ns2 n2 x2). Qed.
(** the line about a deleted one does not *)
Theorem C84_deletion_line_refuted : ∃ ip r1 r2, nn_namespace r1 ≠ nn_namespace r2 ∧ object_key_to_store_key r1 ≠ object_key_to_store_key r2 ∧ line ip r1 None = line ip r2 None.
Proof. exact same_deletion_line. Qed.
(** such a run: from the second change on the server rests, when the cache is behind *)
Example C84_case : ∃ (σ : nat → ex_sys) lb n pr, σ 0 = ex_init ∧ zruns (λ z l z', ex_step z l z' ∧ only_pods l ∧ single_list z l) σ lb ∧ (∀ m, stopped (σ m) = false) ∧ (∀ q, just ex_step σ lb q) ∧
  workers_go_on σ lb ∧ (∀ m j, lb m ≠ ZCtl (KCancel j)) ∧ prints σ lb pr ∧ registered 0 (σ n) ∧ server_rests σ lb n ∧
  cached ex_key (σ n) = Some (DObj (ex_pod "1")) ∧ server_at queue_key (w_changes (z_world (σ n))) (length (w_changes (z_world (σ n)))) ex_key = Some (ex_pod "2").
Proof. exact example_run. Qed.
Example C84_line_case : line (λ _, "10.0.0.1"%string) ex_req (Some (Typed (Some (Some (Some "ns", Some "p"))) "")) = "ns/p: ip 10.0.0.1"%string ∧ no_slash "ns" ∧ ¬ occurs ":"%char "p".
Proof. split; [done|]. unfold no_slash; simpl. intuition discriminate. Qed.

Print Assumptions C84_last_report.
Print Assumptions C84_line_identifies.
Print Assumptions C84_deletion_line_refuted.
