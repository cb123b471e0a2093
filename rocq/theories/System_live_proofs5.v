From Verif Require Import Base KeyFunc_model KeyFunc_spec DeltaFifo_model DeltaFifo_spec DeltaFifo_proofs DeltaFifo_proofs2 Store_model Store_spec Store_proofs
  Reflector_model Reflector_spec Reflector_proofs World_model World_proofs Informer_model Informer_spec Informer_proofs Informer_proofs2 Informer_proofs3 InformerWorld_model InformerWorld_proofs
  SharedInformer_model SharedInformer_spec SharedInformer_proofs SharedInformer_proofs2 Listener_model Listener_spec Listener_proofs
  Source_model Source_spec Source_proofs WorkQueue_model DelayQueue_model DelayQueue_proofs Controller_model Controller_spec Controller_proofs Controller_proofs3 Controller_live_spec Controller_live_proofs
  System_model System_spec System_proofs System_live_spec System_live_proofs System_live_proofs2 System_live_proofs3 System_live_proofs4.
From Coq Require Import ZArith.
Local Open Scope nat_scope.
Section proofs.
  Context {V N : Type} `{EqDecision V} `{EqDecision N} (g : rcfg pyobj nat) (second dflt : Z) (i : nat) (ps : list epred).
  Context (fs : dict N (index_func (dobj pystr pyobj) V)) (Hfs : good_indexers fs).
  Notation notif := (Informer_model.notif pystr pyobj).
  Notation shared := (shared pystr pyobj V N).
  Notation sys := (sys V N).
  Notation hstep := (hstep (V:=V) (N:=N) queue_key second dflt).
  Notation istep := (istep (V:=V) (N:=N) queue_key).
  Notation kst := (kstep (λ _ : nsname, true)).
  Notation zstep := (zstep (V:=V) (N:=N) g second dflt i ps).
  Notation base := (base queue_key fs).
  Notation INV := (INV queue_key fs).
  Notation pending := (pending i).
  Notation calm := (calm i).
  Notation BI := (BI g i fs).
  Implicit Types (z : sys) (h : shared).
  Context (t0 : Z) (workers : nat).
  Notation init := (sys_init (V:=V) (N:=N) dflt fs t0 workers).

  (** ** The informer drains its queue *)
  Definition weigh (items : dict pystr (list (delta pystr pyobj))) : nat := sum_list_with (λ p, 2 + length p.2) items.
  Definition load (s : inf pystr pyobj V N) : nat :=
    weigh (d_items (i_q s)) + match d_busy (i_q s) with Some _ => 1 + length (i_todo s) | None => 0 end.
  Lemma load_drained s : load s = 0 ↔ drained s.
  Proof.
    unfold load, drained. split; [|by intros [-> ->]]. intros Hl. destruct (d_items (i_q s)) as [|[j ds] items]; simpl in Hl; [|lia]. split; [done|]. by destruct (d_busy (i_q s)).
  Qed.
  Definition looped (c : iop pystr pyobj) (x : ires pystr pyobj) : Prop :=
    match c, x with PPop, IQ (DPopped _) | PDelta, ICallback _ | PDone, IQ (DItem _) => True | _, _ => False end.
  Lemma load_step s c s' x : INV s → istep s c = (s', x) → local c = true → ¬ fails c → load s' < load s ∨ load s' = load s ∧ ¬ looped c x.
  Proof.
    intros HI Hst Hloc Hf. destruct c; try done; simpl in *; try (by destruct Hf).
    - unfold call_q, dstep, dcall in Hst. right. destruct (d_busy (i_q s)) eqn:Hb; simpl in Hst; injection Hst as <- <-; simpl; (split; [unfold load; simpl; by rewrite ?Hb|tauto]).
    - unfold call_q, dstep, dcall in Hst. right. destruct (d_busy (i_q s)) eqn:Hb; simpl in Hst; injection Hst as <- <-; simpl; (split; [unfold load; simpl; by rewrite ?Hb|tauto]).
    - unfold dstep, dcall in Hst. destruct (d_busy (i_q s)) as [[j ds]|] eqn:Hb; simpl in Hst.
      { injection Hst as <- <-. right. split; [|tauto]. unfold load. simpl. by rewrite Hb. }
      rewrite (pop_spec queue_key _ (iv_di _ _ _ HI)) in Hst. unfold load. rewrite Hb. destruct (d_items (i_q s)) as [|[j ds] rest] eqn:Hit; simpl in Hst.
      + right. destruct (d_closed (i_q s)); injection Hst as <- <-; simpl; (split; [done|tauto]).
      + left. injection Hst as <- <-. simpl. lia.
    - destruct (d_busy (i_q s)) as [[j ds]|] eqn:Hb; [|injection Hst as <- <-; right; split; [done|tauto]].
      destruct (i_todo s) as [|d rest] eqn:Ht; [injection Hst as <- <-; right; split; [done|tauto]|].
      assert (Hk : has_key queue_key j d.2) by (apply (iv_keys _ _ _ HI); rewrite (busy_work queue_key fs _ _ _ HI Hb), Ht; left).
      destruct (handle_delta_spec queue_key fs Hfs _ _ _ (iv_sg _ _ _ HI) Hk) as (st' & Hh & _). rewrite Hh in Hst. injection Hst as <- <-. left. unfold load. simpl. rewrite Hb, Ht. simpl. lia.
    - destruct (d_busy (i_q s)) as [[j ds]|] eqn:Hb; [|injection Hst as <- <-; right; split; [done|tauto]].
      destruct (i_todo s) as [|d rest] eqn:Ht; [|injection Hst as <- <-; right; split; [done|tauto]].
      unfold end_process, dstep, dcall in Hst. rewrite Hb in Hst. simpl in Hst. unfold df_finish in Hst. rewrite Hb in Hst. simpl in Hst. injection Hst as <- <-.
      left. unfold load. simpl. rewrite Hb. lia.
    - injection Hst as <- <-. right. split; [done|tauto].
  Qed.
  Lemma loop_can s : INV s → load s ≠ 0 → ∃ c s' x, (c = PPop ∨ c = PDelta ∨ c = PDone) ∧ istep s c = (s', x) ∧ looped c x.
  Proof.
    intros HI Hl. unfold load in Hl. destruct (d_busy (i_q s)) as [[j ds]|] eqn:Hb.
    - destruct (i_todo s) as [|d rest] eqn:Ht.
      + exists PDone. eexists _, (IQ (DItem ds)). split; [tauto|]. simpl. rewrite Hb, Ht. unfold end_process, dstep, dcall. rewrite Hb. simpl. unfold df_finish. rewrite Hb. done.
      + assert (Hk : has_key queue_key j d.2) by (apply (iv_keys _ _ _ HI); rewrite (busy_work queue_key fs _ _ _ HI Hb), Ht; left).
        destruct (handle_delta_spec queue_key fs Hfs _ _ _ (iv_sg _ _ _ HI) Hk) as (st' & Hh & _).
        exists PDelta. eexists _, _. split; [tauto|]. simpl. rewrite Hb, Ht, Hh. done.
    - destruct (d_items (i_q s)) as [|[j ds] rest] eqn:Hit; [done|]. exists PPop. eexists _, _. split; [tauto|]. simpl. unfold dstep, dcall. rewrite Hb. simpl.
      rewrite (pop_spec queue_key _ (iv_di _ _ _ HI)), Hit. done.
  Qed.
  Lemma running_step (s : shared) c s' x : hstep s c = (s', x) → running s = true → p_stopped (h_proc s') = false → running s' = true.
  Proof.
    unfold running. intros Hst [Hr1 Hr2]%andb_true_iff Hs. rewrite Hs, andb_true_r. destruct c as [c|req now| | |t].
    - apply hinf_step in Hst as [(-> & -> & _)|(y & r1 & Hal & Hi & -> & Hx & Hp)]; [done|]. destruct Hp as [(n & _ & ->)|[_ ->]]; done.
    - simpl in Hst. rewrite Hr1, Hr2 in Hst. simpl in Hst. destruct (d_busy _); injection Hst as <- <-; [done|]. simpl. unfold register.
      destruct (p_stopped (h_proc s)); [done|]. repeat case_match; simplify_eq; done.
    - by injection Hst as <- <-.
    - simpl in Hst. rewrite Hr1 in Hst. simpl in Hst. by injection Hst as <- <-.
    - simpl in Hst. by injection Hst as <- <-.
  Qed.

  Definition lex (x y : nat * nat) : Prop := x.1 < y.1 ∨ x.1 = y.1 ∧ x.2 < y.2.
  Lemma lex_wf : wf lex.
  Proof.
    intros [x y]. revert y. induction (lt_wf x) as [x _ IHx]. intros y. induction (lt_wf y) as [y _ IHy]. constructor. intros [x' y'] [Hl|[He Hl]]; simpl in *; [by apply IHx|]. subst x'. by apply IHy.
  Qed.

  (** ** and the reflector what the server did *)
  Definition watching (w : world pyobj) : Prop := is_watching (r_pc (w_refl w)) ∧ r_failed (w_refl w) = false.
  Lemma deliver_step w (s : inf pystr pyobj V N) e w' s' : WInv queue_key g w → watching w → World_model.wstep queue_key g (inf_sops queue_key) (w, s) (WDeliver e) (w', s') →
    watching w' ∧ w_changes w' = w_changes w ∧ w_cursor w' = w_cursor w + 1 ∧ w_cursor w < length (w_changes w).
  Proof.
    intros HW [Hpc Hf] Hst. inversion Hst as [|w0 s0 e0 x s1 out Hcur Hr|]; subst. destruct (wi_good _ _ _ HW _ _ Hcur) as (_ & _ & Hacc).
    apply classify_take in Hacc. destruct (r_pc (w_refl w)) as [| |m| |] eqn:Epc; try done. simpl in Hr. rewrite Epc, (noticed_failed _ Hf), Hacc in Hr.
    destruct (apply_event (inf_sops queue_key) e s) as [s2 o2]. injection Hr as <- <- <-.
    destruct (observe_changes w (w_cursor w + 1) (Refl (RWatching (m + 1)) (Some (w_cursor w + 1)) (Some (w_cursor w + 1)) (notice (r_err (w_refl w)))) o2) as [H1 H2].
    split; [|split; [done|split]].
    - unfold watching. rewrite H2. split; [done|]. by rewrite notice_failed.
    - unfold observe. destruct o2 as [|[] []]; try done; by destruct ok.
    - by eapply lookup_lt_Some.
  Qed.
  Lemma deliver_can w h f l a b kk : running h = true → d_busy (i_q (h_inf h)) = None → w_cursor w < length (w_changes w) →
    ∃ e z', zstep (Sys w h f l a b kk) (ZWorld (WDeliver e)) z'.
  Proof.
    intros Hr Hb Hlt. destruct (lookup_lt_is_Some_2 _ _ Hlt) as [e He]. exists e. destruct (rstep g (inf_sops queue_key) (w_refl w, h_inf h) (IEvent e)) as [[y s'] out] eqn:E.
    eexists. apply z_refl; [by left|by left|]. by apply w_deliver.
  Qed.

  Section run.
    Context (σ : nat → sys) (lb : nat → zlabel) (n0 : nat).
    Hypothesis (H0 : σ 0 = init) (Hrun : zruns zstep σ lb) (Hns : ∀ n, stopped (σ n) = false) (Hjust : ∀ p, just zstep σ lb p) (Hrest : server_rests σ lb n0).
    Notation run_BI := (run_BI g second dflt i ps fs Hfs t0 workers σ lb H0 Hrun).
    Notation wrl n := (z_world (σ n)).
    Lemma rest_inv m : n0 ≤ m → running (z_inf (σ m)) = true ∧ watching (wrl m) ∧ w_changes (wrl m) = w_changes (wrl n0).
    Proof.
      intros Hle. replace m with (n0 + (m - n0)) by lia. generalize (m - n0). intros d. destruct Hrest as (Hr & [c Hpc] & Hf & Hlab).
      induction d as [|d (IH1 & IH2 & IH3)].
      { rewrite Nat.add_0_r. split; [done|]. split; [|done]. split; [by rewrite Hpc|done]. }
      rewrite Nat.add_succ_r. pose proof (Hrun (n0 + d)) as Hst. pose proof (Hlab (n0 + d)) as Hl. pose proof (bi_world _ _ _ _ _ (run_BI (n0 + d))) as HW. pose proof (Hns (S (n0 + d))) as Hs.
      destruct Hst as [w h f l a b kk wl w' s' Hr' Hlock Hw|w h f l a b kk c0 h' y Hown Hh| | | | | |]; simpl in *; try done.
      - destruct (Hl wl) as [e ->]; [lia|done|]. destruct (deliver_step _ _ _ _ _ HW IH2 Hw) as (? & -> & _). split; [exact IH1|]. split; [done|exact IH3].
      - split; [|done]. by eapply running_step.
    Qed.
    Lemma rest_step m : n0 ≤ m →
      (w_cursor (wrl m) < length (w_changes (wrl m)) ∧ w_cursor (wrl (S m)) = w_cursor (wrl m) + 1) ∨
      (w_cursor (wrl (S m)) = w_cursor (wrl m) ∧ ¬ acts Reader (lb m) ∧
       (load (h_inf (z_inf (σ (S m)))) < load (h_inf (z_inf (σ m))) ∨ load (h_inf (z_inf (σ (S m)))) = load (h_inf (z_inf (σ m))) ∧ ¬ acts Loop (lb m))).
    Proof.
      intros Hle. destruct (rest_inv m Hle) as (Hr & Hw & _). pose proof (Hrun m) as Hst. destruct Hrest as (_ & _ & _ & Hlab). specialize (Hlab m).
      pose proof (bi_world _ _ _ _ _ (run_BI m)) as HW. pose proof (bi_base _ _ _ _ _ (run_BI m)) as (HI & _).
      destruct Hst as [w h f l a b kk wl w' s' Hr' Hlock Hw'|w h f l a b kk c0 h' y Hown Hh| |w h f l a b kk ll l' Hfree Hl| | |w h f l b kk l' Hl|]; simpl in *; try (right; tauto).
      - left. destruct (Hlab wl) as [e ->]; [lia|done|]. by destruct (deliver_step _ _ _ _ _ HW Hw Hw') as (_ & _ & ? & ?).
      - right. split; [done|]. split; [tauto|]. destruct c0 as [c| | | |].
        + apply hinf_step in Hh as [(-> & -> & _)|(x & r1 & Hal & Hi & -> & Hx & Hp)]; [right; split; [done|]; destruct c; simpl; tauto|]. subst x.
          destruct (load_step _ _ _ _ HI Hi Hown) as [?|[? Hnl]]; [destruct c; simpl in *; first [done|tauto]|by left|]. right. split; [done|]. intros Ha. apply Hnl. destruct c, r1; try done; by destruct r.
        + right. split; [|tauto]. simpl in Hh. destruct (p_started _ && _); [destruct (d_busy _)|]; by injection Hh as <- <-.
        + right. split; [|tauto]. by injection Hh as <- <-.
        + right. split; [|tauto]. simpl in Hh. destruct (p_started _); by injection Hh as <- <-.
        + right. split; [|tauto]. simpl in Hh. by injection Hh as <- <-.
    Qed.
    Definition caught_up m : Prop := w_cursor (wrl m) = length (w_changes (wrl m)) ∧ drained (h_inf (z_inf (σ m))).
    Definition left_over m : nat * nat := (length (w_changes (wrl m)) - w_cursor (wrl m), load (h_inf (z_inf (σ m)))).
    Lemma cursor_le m : n0 ≤ m → w_cursor (wrl m) ≤ length (w_changes (wrl m)).
    Proof.
      intros Hle. destruct (rest_inv m Hle) as (_ & [Hw _] & _). pose proof (bi_world _ _ _ _ _ (run_BI m)) as HW.
      destruct (r_last (w_refl (wrl m))) as [v|] eqn:Hv.
      - destruct (wi_some _ _ _ HW v Hv) as (H1 & _ & _ & H2). rewrite H2; done.
      - destruct (wi_none _ _ _ HW Hv). by destruct (r_pc _).
    Qed.
    Lemma left_over_zero m : n0 ≤ m → left_over m = (0, 0) ↔ caught_up m.
    Proof.
      intros Hle. pose proof (cursor_le m Hle). unfold left_over, caught_up. rewrite <-load_drained. split; [intros [=]; split; [lia|done]|]. intros [-> ->]. f_equal. lia.
    Qed.
    Lemma catches_up : ∃ m, n0 ≤ m ∧ caught_up m.
    Proof.
      destruct (decide (left_over n0 = (0, 0))) as [He|Hne]; [exists n0; split; [done|]; by apply left_over_zero|].
      destruct (rank_leads zstep σ lb lex lex_wf (λ m, left_over m ≠ (0, 0)) (λ m, left_over (S m) = (0, 0)) left_over
        (λ m, if decide (load (h_inf (z_inf (σ m))) = 0) then Reader else Loop) n0) with (n := n0) as (m & Hm & He); try done.
      - intros m Hle _. pose proof (cursor_le m Hle) as Hc. destruct (decide (left_over (S m) = (0, 0))) as [He|Hne']; [by left|]. right. split; [done|].
        destruct (rest_inv m Hle) as (_ & _ & Hc1). destruct (rest_inv (S m)) as (_ & _ & Hc2); [lia|]. unfold left_over.
        destruct (rest_step m Hle) as [(Hlt & Hcur)|(Hcur & Hnr & [Hl|(Hl & Hnl)])].
        + left. left. simpl. rewrite Hc2, <-Hc1. lia.
        + left. right. simpl. by rewrite Hc2, <-Hc1, Hcur.
        + right. rewrite Hc2, <-Hc1, Hcur, Hl. split; [done|]. split; [done|]. by case_decide.
      - intros m Hle HP. destruct (rest_inv m Hle) as (Hr & Hw & Hc1). pose proof (bi_base _ _ _ _ _ (run_BI m)) as (HIv & _). unfold left_over in HP.
        destruct (σ m) as [w h f l a b kk]. simpl in *. case_decide as Hz.
        + destruct (deliver_can w h f l a b kk Hr) as (e & z' & Hst); [by apply load_drained in Hz as [_ ?]| |by exists (ZWorld (WDeliver e)), z'].
          rewrite Hz in HP. destruct (decide (w_cursor w < length (w_changes w))); [done|]. destruct HP. f_equal. lia.
        + destruct (loop_can _ HIv Hz) as (c & s' & x & Hc & Hi & Hl). exists (ZShared (HInf c) (HI x)). destruct (hstep h (HInf c)) as [h' y] eqn:Hh.
          exists (Sys w h' f l a b kk). split; [by destruct Hc as [->|[->| ->]], x as [[]| | |]|].
          assert (Hal : allowed h c = true) by (destruct Hc as [->|[->| ->]]; exact Hr).
          assert (y = HI x) as ->. { simpl in Hh. rewrite Hal, Hi in Hh. simpl in Hh. by destruct x; injection Hh as <- <-. }
          apply z_informer; [by destruct Hc as [->|[->| ->]]|done].
      - exists (S m). split; [lia|]. apply left_over_zero; [lia|done].
    Qed.
    Lemma caught_up_step m : n0 ≤ m → caught_up m → caught_up (S m) ∧ ∀ c n, lb m ≠ ZShared c (HI (ICallback n)).
    Proof.
      intros Hle Hcu. split.
      - pose proof Hcu as [Hc1 Hd]. apply load_drained in Hd. destruct (rest_inv m Hle) as (_ & _ & Hcm). destruct (rest_inv (S m)) as (_ & _ & HcS); [lia|].
        destruct (rest_step m Hle) as [(Hlt & Hcur)|(Hcur & Hnr & [Hl|(Hl & Hnl)])]; [lia|lia|]. split; [by rewrite HcS, <-Hcm, Hcur|]. apply load_drained. lia.
      - intros c n Hl. pose proof (Hrun m) as Hst. rewrite Hl in Hst. destruct Hcu as [_ Hd]. pose proof (bi_base _ _ _ _ _ (run_BI m)) as HB.
        inversion Hst as [|w h f l a b kk c0 h' y Hown Hh| | | | | |]; subst. match goal with H : _ = σ m |- _ => rewrite <-H in *; clear H end. simpl in *.
        destruct (hstep_effect second dflt fs Hfs _ _ _ _ HB Hh) as (_ & [(n' & k0 & d & _ & _ & _ & _ & Hw & _)|(Hn & _)]); [|by destruct (Hn n)].
        rewrite (drained_work _ _ Hd) in Hw. by apply elem_of_nil in Hw.
    Qed.
    Lemma stays_caught_up n m : n0 ≤ n → n ≤ m → caught_up n → caught_up m.
    Proof.
      intros Hle Hm Hc. replace m with (n + (m - n)) by lia. generalize (m - n). intros d. induction d as [|d IH]; [by rewrite Nat.add_0_r|]. rewrite Nat.add_succ_r. apply caught_up_step; [lia|done].
    Qed.
    Lemma caught_up_last m : n0 ≤ m → caught_up m → r_last (w_refl (wrl m)) = Some (length (w_changes (wrl n0))).
    Proof.
      intros Hle [Hc _]. destruct (rest_inv m Hle) as (_ & [Hw _] & Hch). pose proof (bi_world _ _ _ _ _ (run_BI m)) as HW.
      destruct (r_last (w_refl (wrl m))) as [v|] eqn:Hv.
      - destruct (wi_some _ _ _ HW v Hv) as (H1 & _ & _ & H2). rewrite <-(H2 Hw), Hc, Hch. done.
      - destruct (wi_none _ _ _ HW Hv). by destruct (r_pc _).
    Qed.
  End run.
End proofs.
