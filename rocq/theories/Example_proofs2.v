(** A run of example.py, and the lines it prints about deleted pods. *)
From Verif Require Import Base KeyFunc_model KeyFunc_spec DeltaFifo_model DeltaFifo_spec Store_model Reflector_model Reflector_spec World_model Informer_model InformerWorld_model
  SharedInformer_model SharedInformer_spec Listener_model Source_model Source_spec WorkQueue_model DelayQueue_model Controller_model System_model System_spec System_proofs2
  System_live_spec System_live_proofs7 Example_model Example_spec.
From Coq Require Import ZArith Strings.String Strings.Ascii.
From stdpp Require Import strings.
Local Open Scope nat_scope.

Lemma ex_pod_like v : pod_like (ex_pod v).
Proof. exists "ns"%string, "p"%string. split; [apply ex_named|]. split; [done|]. unfold no_slash. simpl. intuition congruence. Qed.
(** the reconciler prints in every state in which it runs *)
Definition prints_of (z : ex_sys) : list printed := omap (λ '(j, p), match p with WRun r => Some (j, r, look r z) | _ => None end) (imap pair (k_ws (z_ctl z))).
Lemma prints_of_spec z j r v : (j, r, v) ∈ prints_of z ↔ k_ws (z_ctl z) !! j = Some (WRun r) ∧ v = look r z.
Proof.
  unfold prints_of. rewrite elem_of_list_omap. split.
  - intros ([j' p] & Hin & Hx). apply elem_of_list_lookup in Hin as (q & Hq). rewrite list_lookup_imap in Hq. destruct (k_ws (z_ctl z) !! q) as [p'|] eqn:Hp; [|done]. simpl in Hq. simplify_eq. destruct p; by simplify_eq.
  - intros [Hj ->]. exists (j, WRun r). split; [|done]. apply elem_of_list_lookup. exists j. by rewrite list_lookup_imap, Hj.
Qed.
Lemma example_run : ∃ (σ : nat → ex_sys) lb n pr, σ 0 = ex_init ∧ zruns (λ z l z', ex_step z l z' ∧ only_pods l ∧ single_list z l) σ lb ∧ (∀ m, stopped (σ m) = false) ∧ (∀ q, just ex_step σ lb q) ∧
  workers_go_on σ lb ∧ (∀ m j, lb m ≠ ZCtl (KCancel j)) ∧ prints σ lb pr ∧ registered 0 (σ n) ∧ server_rests σ lb n ∧
  cached ex_key (σ n) = Some (DObj (ex_pod "1")) ∧ server_at queue_key (w_changes (z_world (σ n))) (length (w_changes (z_world (σ n)))) ex_key = Some (ex_pod "2").
Proof.
  destruct tame_run as (σ & lb & n & H0 & Hr & Hns & Hj & Hgo & _ & Hrest & Hreg & _ & Hca & Hsv & Ht). exists σ, lb, n, (λ m, prints_of (σ m)). split; [done|]. split.
  { intros m. destruct (Hr m) as (H1 & _ & H3). split; [done|]. split; [|done]. specialize (Ht m). destruct (lb m) as [[e|l|ii]| | | |]; try done; simpl in *.
    - destruct Ht as [v ->]. apply ex_pod_like.
    - destruct ii; try done. intros o Ho. destruct (Ht o Ho) as [v ->]. apply ex_pod_like. }
  split; [done|]. split; [done|]. split; [done|]. split; [intros m j Hl; specialize (Ht m); by rewrite Hl in Ht|]. split; [|done].
  split; [intros m j r v; apply prints_of_spec|]. intros m j r o sec a Hl. pose proof (Ht m) as Hm. rewrite Hl in Hm. split; [done|]. destruct (Hr m) as (Hst & _). rewrite Hl in Hst.
  assert (k_ws (z_ctl (σ m)) !! j = Some (WRun r)) as Hj'.
  { inversion Hst as [| | | | | | |w h f l xa xb kk kl k' Hk He1 He2 He3]; subst. by inversion Hk; subst. }
  exists m, (look r (σ m)). split; [done|]. split; [by apply prints_of_spec|]. intros n' Hn'. by replace n' with m by lia.
Qed.
(** two pods whose deletions are printed alike *)
Lemma same_deletion_line : ∃ ip r1 r2, nn_namespace r1 ≠ nn_namespace r2 ∧ object_key_to_store_key r1 ≠ object_key_to_store_key r2 ∧ line ip r1 None = line ip r2 None.
Proof. by exists (λ _, ""%string), (NsName (Some "a"%string) (Some "p"%string)), (NsName (Some "b"%string) (Some "p"%string)). Qed.
(** the other lines tell the pods apart *)
Lemma cut c a b x y : ¬ occurs c a → ¬ occurs c b → (a ++ String c x = b ++ String c y)%string → a = b ∧ x = y.
Proof.
  revert b. induction a as [|d a IH]; intros [|e b] Ha Hb; simpl in *.
  - intros [= ->]. done.
  - intros [= -> _]. tauto.
  - intros [= -> _]. tauto.
  - intros [= -> H]. destruct (IH b) as [-> ->]; [tauto|tauto|done|done].
Qed.
Lemma sapp_assoc (a b c : string) : ((a ++ b) ++ c = a ++ b ++ c)%string.
Proof. induction a as [|x a IH]; [done|]. exact (f_equal (String x) IH). Qed.
Lemma line_identifies ip r1 r2 ns1 n1 x1 ns2 n2 x2 : no_slash ns1 → no_slash ns2 → ¬ occurs ":"%char n1 → ¬ occurs ":"%char n2 →
  line ip r1 (Some (Typed (Some (Some (Some ns1, Some n1))) x1)) = line ip r2 (Some (Typed (Some (Some (Some ns2, Some n2))) x2)) → ns1 = ns2 ∧ n1 = n2.
Proof.
  intros H1 H2 H3 H4 H. unfold line, meta_of, fmt in H. rewrite !sapp_assoc in H. apply (cut "/"%char) in H as [-> H]; [|done|done]. by apply (cut ":"%char) in H as [-> _].
Qed.
