From Verif Require Import Base KeyFunc_model KeyFunc_spec DeltaFifo_model DeltaFifo_spec DeltaFifo_proofs DeltaFifo_proofs2 Store_model Store_spec Store_proofs
  Reflector_model Reflector_spec Reflector_proofs World_model World_proofs Informer_model Informer_spec Informer_proofs Informer_proofs2 Informer_proofs3 InformerWorld_model InformerWorld_proofs
  SharedInformer_model SharedInformer_spec SharedInformer_proofs SharedInformer_proofs2 Listener_model Listener_spec Listener_proofs
  Source_model Source_spec Source_proofs WorkQueue_model DelayQueue_model DelayQueue_proofs Controller_model Controller_spec Controller_proofs Controller_proofs3 Controller_live_spec Controller_live_proofs
  System_model System_spec System_proofs System_live_spec System_live_proofs System_live_proofs2.
From Coq Require Import ZArith.
Local Open Scope nat_scope.

Section proofs.
  Context {V N : Type} `{EqDecision V} `{EqDecision N} (g : rcfg pyobj nat) (second dflt : Z) (i : nat) (ps : list epred).
  Context (fs : dict N (index_func (dobj pystr pyobj) V)) (Hfs : good_indexers fs).
  Notation notif := (Informer_model.notif pystr pyobj).
  Notation shared := (shared pystr pyobj V N).
  Notation sys := (sys V N).
  Notation hstep := (hstep (V:=V) (N:=N) queue_key second dflt).
  Notation istep := (istep (V:=V) (N:=N) queue_key).
  Notation kst := (kstep (λ _ : nsname, true)).
  Notation zstep := (zstep (V:=V) (N:=N) g second dflt i ps).
  Notation base := (base queue_key fs).
  Notation INV := (INV queue_key fs).
  Notation pending := (pending i).
  Notation calm := (calm i).
  Notation BI := (BI g i fs).
  Implicit Types (z : sys) (h : shared).
  Context (t0 : Z) (workers : nat).
  Notation init := (sys_init (V:=V) (N:=N) dflt fs t0 workers).

  Section run.
    Context (σ : nat → sys) (lb : nat → zlabel).
    Hypothesis (H0 : σ 0 = init) (Hrun : zruns zstep σ lb) (Hns : ∀ n, stopped (σ n) = false) (Hjust : ∀ p, just zstep σ lb p).
    Notation run_calm := (run_calm g second dflt i ps fs Hfs t0 workers σ lb H0 Hrun Hns).

    (** ** The handler's calls of queue.add are made *)
    Lemma add_made x n : x ∈ z_adds (σ n) → ∃ m, n ≤ m ∧ lb m = ZAdd x.
    Proof.
      intros Hx. apply (rank_leads zstep σ lb lt lt_wf (λ m, x ∈ z_adds (σ m)) (λ m, lb m = ZAdd x) (λ m, length (z_adds (σ m))) (λ m, Runner) n); try done.
      - intros m _ HP. pose proof (run_calm m) as Hc. pose proof (Hrun m) as Hst. destruct (cm_adds _ _ _ Hc) as [n1 Hn1]; [by intros E; rewrite E in HP; apply elem_of_nil in HP|].
        destruct Hst as [w h f l a b kk wl w' s' Hr Hlock Hw|w h f l a b kk c h' y Hown Hh|w h f l a b kk n' l' Hlog Hl|w h f l a b kk ll l' Hfree Hl|w h f l a b kk n' l' Hl
          |w h f l y a b kk k' Hk|w h f l b kk l' Hl|w h f l a b kk kl k' Hk]; simpl in *; try (right; split; [done|right; tauto]).
        + right. split; [done|]. right. split; [done|]. split; [done|]. inversion Hl; subst; simpl in *; try tauto; try done; congruence.
        + inversion Hl; subst. simpl in *. congruence.
        + apply elem_of_cons in HP as [->|HP]; [by left|]. right. split; [done|]. left. lia.
        + by apply elem_of_nil in HP.
      - intros m _ HP. destruct (σ m) as [w h f l [|y a] b kk]; simpl in *; [by apply elem_of_nil in HP|]. apply add_enabled.
    Qed.

    (** ** The controller *)
    Definition kl (n : nat) : klabel nsname :=
      match lb n with ZCtl l => l | ZAdd x => KEnv (DAdd x) | _ => KEnv (DTick (dq_now (k_q (z_ctl (σ n))))) end.
    Lemma ctl_idle (s : kstate nsname) : kst s (KEnv (DTick (dq_now (k_q s)))) s.
    Proof. destruct s as [q lim ws]. apply (k_env _ (K q lim ws)); [done|]. simpl. destruct q. by apply dt_tick. Qed.
    Lemma ctl_runs : runs (λ _ : nsname, true) (λ n, z_ctl (σ n)) kl.
    Proof.
      intros n. unfold kl. pose proof (Hrun n) as Hst. destruct Hst; simpl; try done; apply ctl_idle.
    Qed.
    Hypothesis (Hgo : workers_go_on σ lb).
    Lemma ctl_fair : fair (λ n, z_ctl (σ n)) kl.
    Proof.
      intros j n p Hp. destruct (Hgo j n p Hp) as (m & Hm & [(l & Hl & Hmv)|Hd]); exists m; (split; [done|]); [|by right]. left. unfold kl. by rewrite Hl.
    Qed.
    Context (i0 : nat) (Hi0 : i0 < workers) (Hnc : ∀ n, lb n ≠ ZCtl (KCancel i0)).
    Lemma dirty_taken x n : x ∈ wq_dirty (dq_base (k_q (z_ctl (σ n)))) → ∃ m j t, n ≤ m ∧ lb m = ZCtl (KGet j (RItem x) t).
    Proof.
      intros Hd. destruct (dirty_starts (λ _ : nsname, true) (λ n, z_ctl (σ n)) kl t0 workers) with (i := i0) (x := x) (n := n) as (m & Hm & j & t & Hst); try done.
      - by rewrite H0.
      - apply ctl_runs.
      - apply ctl_fair.
      - intros m. unfold kl. pose proof (Hnc m). destruct (lb m); try done. congruence.
      - exists m, j, t. split; [done|]. unfold kl in Hst. destruct (lb m); simplify_eq. done.
    Qed.
    Lemma added_taken x n : lb n = ZAdd x → ∃ m j t, n ≤ m ∧ lb m = ZCtl (KGet j (RItem x) t).
    Proof.
      intros Hl. destruct (dirty_taken x (S n)) as (m & j & t & Hm & Hst); [|exists m, j, t; split; [lia|done]].
      pose proof (Hrun n) as Hst. rewrite Hl in Hst. inversion Hst as [| | | | |w h f l y a b kk k' Hk| |]; subst. simpl.
      assert (reach kst (kinit t0 workers) (kl <$> seq 0 n) kk) as Hr.
      { pose proof (runs_reach _ _ kl n ctl_runs) as Hr. simpl in Hr. rewrite H0 in Hr. simpl in Hr. replace (z_ctl (σ n)) with kk in Hr; [done|]. match goal with H : _ = σ n |- _ => by rewrite <-H end. }
      pose proof (queue_up _ _ _ _ _ Hr) as Hup. inversion Hk as [l' q' Ho Ht| | | | | |]; subst. inversion Ht; subst. simpl. apply DelayQueue_proofs.wq_add_dirty; [done|]. by left.
    Qed.
    Lemma add_taken x n : x ∈ z_adds (σ n) → ∃ m j t, n ≤ m ∧ lb m = ZCtl (KGet j (RItem x) t).
    Proof.
      intros Hx. destruct (add_made x n Hx) as (m & Hm & Hl). destruct (added_taken x m Hl) as (m' & j & t & Hm' & Hst). exists m', j, t. split; [lia|done].
    Qed.
  End run.
End proofs.
