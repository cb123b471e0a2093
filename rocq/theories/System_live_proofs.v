From Verif Require Import Base KeyFunc_model KeyFunc_spec DeltaFifo_model DeltaFifo_spec DeltaFifo_proofs DeltaFifo_proofs2 Store_model Store_spec Store_proofs
  Reflector_model Reflector_spec Reflector_proofs World_model World_proofs Informer_model Informer_spec Informer_proofs Informer_proofs2 Informer_proofs3 InformerWorld_model InformerWorld_proofs
  SharedInformer_model SharedInformer_spec SharedInformer_proofs SharedInformer_proofs2 Listener_model Listener_spec Listener_proofs
  Source_model Source_spec Source_proofs WorkQueue_model DelayQueue_model DelayQueue_proofs Controller_model Controller_spec Controller_proofs Controller_proofs3 Controller_live_spec Controller_live_proofs
  System_model System_spec System_proofs System_live_spec.
From Coq Require Import ZArith.
Local Open Scope nat_scope.

(** ** Runs *)
Section runs.
  Context {V N : Type} `{EqDecision V} `{EqDecision N}.
  Context (step step' : sys V N → zlabel → sys V N → Prop) (σ : nat → sys V N) (lb : nat → zlabel).
  Lemma first_S n : first lb (S n) = first lb n ++ [lb n].
  Proof. unfold first. by rewrite seq_S, fmap_app. Qed.
  Lemma first_reach n : zruns step σ lb → reach step (σ 0) (first lb n) (σ n).
  Proof. intros Hr. induction n as [|n IH]; [constructor|]. rewrite first_S. eapply reach_snoc; [exact IH|apply Hr]. Qed.
  Lemma first_app n m : n ≤ m → ∃ b, first lb m = first lb n ++ b ∧ ∀ l, l ∈ b → ∃ j, n ≤ j < m ∧ lb j = l.
  Proof.
    intros Hle. replace m with (n + (m - n)) by lia. generalize (m - n). intros d. induction d as [|d (b & Hb & Hin)].
    - rewrite Nat.add_0_r. exists []. rewrite app_nil_r. split; [done|]. by intros l ?%elem_of_nil.
    - rewrite Nat.add_succ_r, first_S, Hb. exists (b ++ [lb (n + d)]). split; [by rewrite app_assoc|].
      intros l [Hl| ->%elem_of_list_singleton]%elem_of_app; [|exists (n + d); split; [lia|done]]. destruct (Hin l Hl) as (j & ? & ?). exists j. split; [lia|done].
  Qed.

  (** progress: a rank that the helpful part lowers and nobody raises *)
  Section rank.
    Context {X : Type} (lt : X → X → Prop) (Hwf : wf lt) (P D : nat → Prop) (rk : nat → X) (hp : nat → part) (n0 : nat).
    Hypothesis (Hstep : ∀ m, n0 ≤ m → P m → D m ∨ (P (S m) ∧ (lt (rk (S m)) (rk m) ∨ rk (S m) = rk m ∧ hp (S m) = hp m ∧ ¬ acts (hp m) (lb m)))).
    Hypothesis (Hen : ∀ m, n0 ≤ m → P m → ∃ l z, acts (hp m) l ∧ step (σ m) l z).
    Hypothesis (Hjust : ∀ m, n0 ≤ m → P m → just step σ lb (hp m)).
    Lemma rank_until n d : n0 ≤ n → P n → (∃ m, n ≤ m ∧ D m) ∨ (∃ m, n ≤ m ∧ P m ∧ lt (rk m) (rk n)) ∨ (P (n + d) ∧ rk (n + d) = rk n ∧ hp (n + d) = hp n).
    Proof.
      intros Hn HP. induction d as [|d IH]; [rewrite Nat.add_0_r; by right; right|]. destruct IH as [?|[?|(HP' & Hrk & Hhp)]]; [by left|by right; left|].
      destruct (Hstep (n + d)) as [HD|(HP1 & [Hlt|(Hrk1 & Hhp1 & _)])]; [lia|done|left; exists (n + d); split; [lia|done]| |].
      - right; left. exists (S (n + d)). split; [lia|]. split; [done|]. by rewrite <-Hrk.
      - right; right. rewrite Nat.add_succ_r. split; [done|]. by rewrite Hrk1, Hhp1.
    Qed.
    Lemma rank_leads n : n0 ≤ n → P n → ∃ m, n ≤ m ∧ D m.
    Proof.
      remember (rk n) as x eqn:Hx. revert n Hx. induction (Hwf x) as [x _ IH]. intros n -> Hn HP.
      assert (Hlow : ∀ m, n ≤ m → P m → lt (rk m) (rk n) → ∃ m', n ≤ m' ∧ D m').
      { intros m Hm HPm Hlt. destruct (IH _ Hlt m eq_refl) as (m' & ? & ?); [lia|done|]. exists m'. split; [lia|done]. }
      destruct (Hjust n Hn HP n) as (m & Hm & Ha). destruct (rank_until n (m - n) Hn HP) as [?|[(m' & ? & ? & ?)|(HPm & Hrk & Hhp)]]; [done|by eapply Hlow|].
      replace (n + (m - n)) with m in * by lia. rewrite <-Hhp in Ha.
      destruct Ha as [Ha|Hdis]; [|destruct (Hen m) as (l & z & ? & ?); [lia|done|by destruct (Hdis l z)]].
      destruct (Hstep m) as [?|(HP1 & [Hlt|(_ & _ & Hna)])]; [lia|done|by exists m| |done]. apply (Hlow (S m)); [lia|done|by rewrite <-Hrk].
    Qed.
  End rank.
End runs.

Lemma calls_app tr1 tr2 : calls (tr1 ++ tr2) = calls tr1 ++ calls tr2.
Proof. apply omap_app. Qed.

Section proofs.
  Context {V N : Type} `{EqDecision V} `{EqDecision N} (g : rcfg pyobj nat) (second dflt : Z) (i : nat) (ps : list epred).
  Context (fs : dict N (index_func (dobj pystr pyobj) V)) (Hfs : good_indexers fs).
  Notation notif := (Informer_model.notif pystr pyobj).
  Notation shared := (shared pystr pyobj V N).
  Notation sys := (sys V N).
  Notation hstep := (hstep (V:=V) (N:=N) queue_key second dflt).
  Notation istep := (istep (V:=V) (N:=N) queue_key).
  Notation kst := (kstep (λ _ : nsname, true)).
  Notation zstep := (zstep (V:=V) (N:=N) g second dflt i ps).
  Notation base := (base queue_key fs).
  Notation INV := (INV queue_key fs).
  Notation pending := (pending i).
  Implicit Types (z : sys) (h : shared) (n : notif).
  Context (t0 : Z) (workers : nat).
  Notation init := (sys_init (V:=V) (N:=N) dflt fs t0 workers).

  Lemma log_grows h c h' x : base h → hstep h c = (h', x) → ∃ new, log_of i h' = log_of i h ++ new ∧ ((∀ n, x ≠ HI (ICallback n)) → i < length (p_ls (h_proc h)) → new = []).
  Proof.
    intros HB Hst. rewrite !log_of_logs. destruct (hstep_effect second dflt fs Hfs _ _ _ _ HB Hst) as (_ & [(n & k0 & d & Hx & -> & _)|(_ & _ & [->| ->])]).
    - rewrite distribute_log. destruct (logs (h_proc h) !! i) eqn:E; [eexists; split; [done|]; intros Hn; by destruct (Hn n)|]. exists []. done.
    - exists []. by rewrite app_nil_r.
    - destruct (decide (i < length (logs (h_proc h)))) as [?|Hge]; [rewrite lookup_app_l by done; exists []; by rewrite app_nil_r|].
      rewrite (lookup_ge_None_2 (logs (h_proc h))) by lia. simpl. eexists. split; [done|]. intros _ Hi. unfold logs in Hge. rewrite fmap_length in Hge. lia.
  Qed.

  Record calm z tr : Prop := {
    cm_shape : shape (z_lis z);
    cm_stop : l_stop (z_lis z) = false;
    cm_fed : z_fed z ≤ length (log_of i (z_inf z));
    cm_adds : z_adds z ≠ [] → ∃ n, l_run (z_lis z) = RHandling n;
    cm_flow : calls tr ++ pending z = log_of i (z_inf z)
  }.
  Record BI tr z : Prop := {
    bi_base : base (z_inf z);
    bi_world : WInv queue_key g (z_world z);
    bi_calm : stopped z = false → calm z tr
  }.
  Lemma BI_init : BI [] init.
  Proof.
    split; simpl; [apply base_init|apply WInv_init|]. intros _. split; simpl; [apply shape_init|done|lia|done|done].
  Qed.
  Lemma stopped_back z lab z' : zstep z lab z' → stopped z' = false → stopped z = false.
  Proof. unfold stopped. intros Hst. destruct Hst; simpl; try done. by eapply stopped_step. Qed.
  Lemma calm_lis tr z l' f' a' b' k' lab : calm z tr → shape l' → l_stop l' = false → f' ≤ length (log_of i (z_inf z)) → (a' ≠ [] → ∃ n, l_run l' = RHandling n) →
    pending z = calls [lab] ++ lpart l' ++ drop f' (log_of i (z_inf z)) → calm (Sys (z_world z) (z_inf z) f' l' a' b' k') (tr ++ [lab]).
  Proof. intros [H1 H2 H3 H4 H5] ? ? ? ? Hp. split; simpl; try done. unfold System_proofs.pending in *. simpl. rewrite calls_app, <-app_assoc. by rewrite <-Hp. Qed.
  Lemma BI_step tr z lab z' : BI tr z → zstep z lab z' → BI (tr ++ [lab]) z'.
  Proof.
    intros [HB HW Hcalm] Hst.
    assert (Hinf : ∀ h' w', (∃ new, log_of i h' = log_of i (z_inf z) ++ new) → (∀ n, lab ≠ ZLis (LCall n)) → calm z tr →
      calm (Sys w' h' (z_fed z) (z_lis z) (z_adds z) (z_raises z) (z_ctl z)) (tr ++ [lab])).
    { intros h' w' [new Hnew] Hlab [H1 H2 H3 H4 H5]. split; simpl; try done; [rewrite Hnew, app_length; lia|].
      rewrite calls_app. replace (calls [lab]) with (@nil notif); [|unfold calls; destruct lab as [| |[]| |]; try done; by destruct (Hlab n)].
      rewrite app_nil_r, Hnew, <-H5. unfold System_proofs.pending. simpl. rewrite Hnew, drop_app_le by done. by rewrite !app_assoc. }
    pose proof (stopped_back _ _ _ Hst) as Hsb.
    inversion Hst as [w h f l a b kk wl w' s' Hrun Hlock Hw|w h f l a b kk c h' x Hown Hh|w h f l a b kk n l' Hlog Hl|w h f l a b kk ll l' Hfree Hl|w h f l a b kk n l' Hl
      |w h f l x a b kk k' Hk|w h f l b kk l' Hl|w h f l a b kk kl k' Hk]; subst; simpl in *; clear Hst.
    - assert (HW' : WInv queue_key g w') by (by eapply WInv_step). destruct (wstep_inf g None _ _ _ _ _ Hw) as [->|(c & res & Hi & Hf & Hsl & _ & Hobj)].
      + split; simpl; [by destruct h|done|]. intros Hs. apply Hinf; [exists []; by rewrite app_nil_r|done|by apply Hcalm].
      + assert (Hrun' : running h = true) by (destruct Hrun as [?|Hbs]; [done|by destruct wl]).
        pose proof (world_hstep second dflt _ _ _ _ Hrun' Hf Hi) as Hh. destruct (hstep_effect second dflt fs Hfs _ _ _ _ HB Hh) as [HB' _]. split; simpl; try done.
        intros Hs. apply Hinf; [exists []; by rewrite app_nil_r|done|by apply Hcalm].
    - destruct (hstep_effect second dflt fs Hfs _ _ _ _ HB Hh) as [HB' _]. split; simpl; try done. intros Hs. apply Hinf; [|done|by apply Hcalm, Hsb].
      destruct (log_grows _ _ _ _ HB Hh) as (new & ? & _). by exists new.
    - split; simpl; try done. intros Hs. specialize (Hcalm Hs). pose proof Hcalm as [H1 H2 H3 H4 H5]. simpl in *.
      pose proof (lpart_step _ _ _ H1 H2 Hl) as Hpart. simpl in Hpart. apply (calm_lis tr (Sys w h f l a b kk)); simpl; try done.
      + by eapply shape_step.
      + by rewrite (stop_step _ _ _ (ltac:(done) : LAdd n ≠ LStop) Hl).
      + apply lookup_lt_Some in Hlog. lia.
      + intros Ha. destruct (H4 Ha) as [n' Hn']. destruct (handling_step _ _ _ _ Hl Hn') as [[?|?]|?]; [done|done|by eexists].
      + unfold System_proofs.pending. simpl. rewrite Hpart, <-app_assoc, (drop_S _ _ _ Hlog). by replace (f + 1) with (S f) by lia.
    - split; simpl; try done. intros Hs. specialize (Hcalm Hs). pose proof Hcalm as [H1 H2 H3 H4 H5]. simpl in *.
      assert (Hll : ll ≠ LStop ∧ ll ≠ LAddCancel ∧ (∀ n, ll ≠ LAdd n) ∧ (∀ n, ll ≠ LCall n) ∧ ll ≠ LReturn ∧ ll ≠ LRaise).
      { unfold stopped in Hs. simpl in Hs. destruct ll; simpl in Hfree; rewrite ?Hs in Hfree; done. }
      destruct Hll as (N1 & N2 & N3 & N4 & N5 & N6).
      assert (Hpart : lpart l' = lpart l). { pose proof (lpart_step _ _ _ H1 H2 Hl) as Hx. destruct ll; try done. }
      apply (calm_lis tr (Sys w h f l a b kk)); simpl; try done.
      + by eapply shape_step.
      + by rewrite (stop_step _ _ _ N1 Hl).
      + intros Ha. destruct (H4 Ha) as [n' Hn']. destruct (handling_step _ _ _ _ Hl Hn') as [[?|?]|?]; [done|done|by eexists].
      + unfold System_proofs.pending. simpl. rewrite Hpart. destruct ll; try done; by destruct (N4 n).
    - split; simpl; try done. intros Hs. specialize (Hcalm Hs). pose proof Hcalm as [H1 H2 H3 H4 H5]. simpl in *.
      pose proof (lpart_step _ _ _ H1 H2 Hl) as Hpart. simpl in Hpart. apply (calm_lis tr (Sys w h f l a b kk)); simpl; try done.
      + by eapply shape_step.
      + by rewrite (stop_step _ _ _ (ltac:(done) : LCall n ≠ LStop) Hl).
      + intros _. exists n. by inversion Hl.
      + unfold System_proofs.pending. simpl. by rewrite Hpart.
    - split; simpl; try done. intros Hs. specialize (Hcalm Hs). pose proof Hcalm as [H1 H2 H3 H4 H5]. simpl in *.
      apply (calm_lis tr (Sys w h f l (x :: a) b kk)); simpl; try done. intros _. by apply H4.
    - split; simpl; try done. intros Hs. specialize (Hcalm Hs). pose proof Hcalm as [H1 H2 H3 H4 H5]. simpl in *.
      assert (Hpart : lpart l' = lpart l) by (pose proof (lpart_step _ _ _ H1 H2 Hl) as Hx; by destruct b).
      apply (calm_lis tr (Sys w h f l [] b kk)); simpl; try done.
      + by eapply shape_step.
      + rewrite (stop_step _ _ _ (ltac:(by destruct b) : (if b then LRaise else LReturn) ≠ LStop) Hl). done.
      + unfold System_proofs.pending. simpl. rewrite Hpart. by destruct b.
    - split; simpl; try done. intros Hs. specialize (Hcalm Hs). pose proof Hcalm as [H1 H2 H3 H4 H5]. simpl in *.
      by apply (calm_lis tr (Sys w h f l a b kk)).
  Qed.

  (** ** The listener goes on *)
  Definition busy_for z : nat := match l_run (z_lis z) with RNew | RSleep => 1 | RHandling _ => 2 + length (z_adds z) | _ => 0 end.
  Definition ahead (l : lis notif) : nat * part :=
    match l_pump l with
    | PWait (Some _) _ false => (0, PutTask)
    | PWait None (Some _) false => (1, Pump)
    | PWait None None false => match l_addq l with Some _ => (2, GetTask) | None => (match l_adder l with APutting _ => 3 | AIdle => 4 | AJoining => 5 end, Feed) end
    | PJoin | PNew => (6, Pump)
    | PWait _ _ true => (7, Pump)
    | PStopped => (0, Pump)
    end.
  Definition rank z : nat * part :=
    match l_run (z_lis z) with
    | RFetched _ => (0, Runner)
    | _ => match l_nextq (z_lis z) with Some _ => (1 + busy_for z, Runner) | None => (2 + busy_for z + (ahead (z_lis z)).1, (ahead (z_lis z)).2) end
    end.
  Lemma rank_other z l p lab : rank (Sys (z_world z) (z_inf z) (z_fed z) (z_lis z) (z_adds z) (z_raises z) (z_ctl z)) = (l, p) → match lab with ZWorld _ | ZShared _ _ | ZCtl _ => True | _ => False end → ¬ acts p lab.
  Proof.
    intros Hr Hlab Ha. assert (p ≠ Loop ∧ p ≠ Reader) as [H1 H2].
    { revert Hr. unfold rank, ahead. simpl. intros Hr. repeat case_match; simplify_eq; done. }
    destruct lab, p; done.
  Qed.
  Lemma rank_step tr z lab z' : calm z tr → stopped z' = false → zstep z lab z' →
    (∃ n, lab = ZLis (LCall n)) ∨ (rank z').1 < (rank z).1 ∨ rank z' = rank z ∧ ¬ acts (rank z).2 lab.
  Proof.
    intros [[Hp Hrs] H2 H3 H4 H5] Hs Hst. destruct (rank z) as [m p] eqn:Hrank. simpl.
    assert (Hother : rank z' = rank z → match lab with ZWorld _ | ZShared _ _ | ZCtl _ => True | _ => False end → rank z' = (m, p) ∧ ¬ acts p lab).
    { intros Heq Hlab. split; [by rewrite Heq|]. eapply rank_other; [|done]. destruct z. exact Hrank. }
    inversion Hst as [w h f l a b kk wl w' s' Hrun Hlock Hw|w h f l a b kk c h' x Hown Hh|w h f l a b kk n l' Hlog Hl|w h f l a b kk ll l' Hfree Hl|w h f l a b kk n l' Hl
      |w h f l x a b kk k' Hk|w h f l b kk l' Hl|w h f l a b kk kl k' Hk]; subst; simpl in *; clear Hst.
    - right; right. by apply Hother.
    - right; right. by apply Hother.
    - right. clear Hother. unfold rank, busy_for, ahead in *. inversion Hl; subst; simpl in *.
      destruct r, nq; simpl in *; try (right; split; [done|simplify_eq; tauto]); destruct p0 as [|[] [] []| |]; simpl in *; try destruct q; simplify_eq/=; first [left; lia|right; split; [done|tauto]].
    - right. clear Hother. unfold stopped in Hs. simpl in Hs.
      assert (Hll : ll ≠ LStop ∧ ll ≠ LAddCancel ∧ (∀ n, ll ≠ LAdd n) ∧ (∀ n, ll ≠ LCall n) ∧ ll ≠ LReturn ∧ ll ≠ LRaise).
      { destruct ll; simpl in Hfree; rewrite ?Hs in Hfree; done. }
      destruct Hll as (N1 & N2 & N3 & N4 & N5 & N6). unfold rank, busy_for, ahead in *.
      inversion Hl; subst; simpl in *; try done.
      + destruct r, nq; simpl in *; try (right; split; [done|simplify_eq; tauto]); destruct p0 as [|[] [] []| |]; simplify_eq/=; first [left; lia|right; split; [done|tauto]].
      + destruct r, nq; simpl in *; try (right; split; [done|simplify_eq; tauto]); destruct p0 as [|[] [] []| |]; simplify_eq/=; first [left; lia|right; split; [done|tauto]].
      + destruct Hp as [-> ->]. destruct r; simpl in *; try (right; split; [done|simplify_eq; tauto]); (destruct q; [|destruct a0]); simplify_eq/=; left; lia.
      + destruct r, nq; simpl in *; try (right; split; [done|simplify_eq; tauto]); destruct cur, put; simplify_eq/=; first [left; lia|right; split; [done|tauto]].
      + destruct r; simpl in *; simplify_eq/=; first [left; lia|right; split; [done|tauto]].
      + destruct Hp as (-> & Hc & Hn). destruct put.
        * destruct cur as [c|]; [|by specialize (Hc eq_refl)].
          destruct got; destruct r, nq; simpl in *; simplify_eq/=; first [left; lia|right; split; [done|tauto]].
        * specialize (Hn eq_refl) as ->. destruct cur as [c|]; [match goal with H : false = true ∨ _ |- _ => by destruct H as [?|[?|?]] end|].
          destruct got as [n|]; [|match goal with H : None ≠ None ∨ _ |- _ => by destruct H end].
          destruct r; simpl in *; simplify_eq/=; first [left; lia|right; split; [done|tauto]].
      + destruct r; simpl in *; try (right; split; [done|simplify_eq; tauto]); simplify_eq/=; left; destruct (head pe); simpl; try lia; destruct q; simpl; try lia; destruct a0; simpl; lia.
      + left. destruct nq; simplify_eq/=; lia.
      + left. simplify_eq/=. lia.
      + left. destruct nq; simplify_eq/=; lia.
      + congruence.
    - left. by eexists.
    - right; left. destruct H4 as [n Hn]; [done|]. unfold rank, busy_for in *. simpl in *. rewrite Hn in *. destruct (l_nextq l); simplify_eq/=; lia.
    - right; left. unfold rank, busy_for in *. destruct b; inversion Hl; subst; simpl in *; destruct nq; simplify_eq/=; unfold ahead; simpl; lia.
    - right; right. by apply Hother.
  Qed.
End proofs.
