From Verif Require Import Base WorkQueue_model WorkQueue_spec WorkQueue_proofs WorkQueueSched_model WorkQueueSched_proofs
  Fifo_model Fifo_spec Fifo_proofs FifoSched_model FifoSched_proofs
  DeltaFifo_model DeltaFifo_spec DeltaFifo_proofs DeltaFifo_proofs2 DeltaFifoSched_model DeltaFifoSched_proofs
  WaitPQ_model DelayQueue_model DelayQueue_spec DelayQueue_proofs Calls_spec.
From Coq Require Import ZArith.

Section wq.
  Context {A : Type} `{EqDecision A}.
  Implicit Types s : sched A.
  Lemma wake_perm n w r w' r' : wake n w r = (w', r') → w' ++ r' ≡ₚ w ++ r.
  Proof.
    destruct n; simpl; [by intros [= <- <-]| |].
    - destruct w as [|t w]; intros [= <- <-]; [done|]. simpl. rewrite app_assoc, (Permutation_app_comm _ [t]). done.
    - intros [= <- <-]. simpl. by rewrite Permutation_app_comm.
  Qed.
  Lemma notify_perm p s : in_get (notify_with p s) ≡ₚ in_get s.
  Proof. unfold notify_with, in_get. destruct (wake _ _ _) as [w r] eqn:Hw. simpl. by apply wake_perm in Hw. Qed.
  Lemma turn_perm t s s' r : turn_get t s = (s', r) →
    (r = RBlocked ∧ in_get s' ≡ₚ t :: in_get s) ∨ (r ≠ RBlocked ∧ in_get s' = in_get s).
  Proof.
    unfold turn_get, in_get. destruct (wq_get (s_q s)) as [q' [| |x]]; intros [= <- <-]; simpl; [left|by right..].
    split; [done|]. rewrite (Permutation_app_comm (s_waiting s) [t]). done.
  Qed.
  Lemma get_step s l s' : strans s l s' → get_begun l ++ in_get s ≡ₚ get_ended l ++ in_get s'.
  Proof.
    destruct 1 as [s x|s x p Hp|s x Hp|s|s t s' r ?? Ht|s t n1 n2 s' r Hn Ht|s t w1 w2 Hw|s t n1 n2 Hn]; simpl.
    1,2,4: by rewrite notify_perm.
    - done.
    - apply turn_perm in Ht as [[-> ->]|[Hr ->]]; [done|]. by destruct r.
    - assert (in_get s ≡ₚ t :: in_get (Sched (s_q s) (s_waiting s) (n1 ++ n2))) as ->.
      { unfold in_get. simpl. rewrite Hn. by rewrite !app_assoc, <-Permutation_middle. }
      apply turn_perm in Ht as [[-> ->]|[Hr ->]]; [done|]. by destruct r.
    - unfold in_get. simpl. rewrite Hw. rewrite <-!app_assoc. simpl. by rewrite <-Permutation_middle.
    - unfold in_get. simpl. rewrite Hn. by rewrite !app_assoc, <-Permutation_middle.
  Qed.
  Lemma gets_accounted ls s : reach strans sched_init ls s → ls ≫= get_begun ≡ₚ (ls ≫= get_ended) ++ in_get s.
  Proof.
    induction 1 as [|ls s1 l s2 Hr IH Ht]; [done|]. rewrite !bind_app. simpl. rewrite !app_nil_r, IH.
    rewrite <-!app_assoc. f_equiv. rewrite <-(get_step _ _ _ Ht). apply Permutation_app_comm.
  Qed.
  (** after [shut_down] nobody waits *)
  Definition down_ok s : Prop := wq_down (s_q s) = true → s_waiting s = [].
  Lemma down_step s l s' : down_ok s → strans s l s' → down_ok s'.
  Proof.
    unfold down_ok. intros Hd. destruct 1 as [s x|s x p Hp|s x Hp|s|s t s' r ?? Ht|s t n1 n2 s' r Hn Ht|s t w1 w2 Hw|s t n1 n2 Hn].
    - rewrite notify_with_q. unfold notify_with, wq_add. destruct (wq_down (s_q s)) eqn:Hdn; simpl; [by rewrite Hd|].
      repeat case_decide; simpl; rewrite ?Hdn; try done. all: destruct (s_waiting s); simpl; congruence.
    - rewrite notify_with_q. unfold wq_done in Hp. repeat case_decide; simplify_eq; unfold notify_with; simpl; [|done].
      intros Hx. rewrite (Hd Hx). done.
    - done.
    - rewrite notify_with_q. done.
    - revert Ht. unfold turn_get, wq_get. destruct (wq_queue (s_q s)); [destruct (wq_down (s_q s)) eqn:Hdn|]; intros [= <- <-]; simpl; [by rewrite Hd|congruence|done].
    - revert Ht. unfold turn_get, wq_get. simpl. destruct (wq_queue (s_q s)); [destruct (wq_down (s_q s)) eqn:Hdn|]; intros [= <- <-]; simpl; [by rewrite Hd|congruence|done].
    - intros Hx. specialize (Hd Hx). rewrite Hw in Hd. by destruct w1.
    - done.
  Qed.
  Lemma down_reach ls s : reach strans sched_init ls s → down_ok s.
  Proof. intros Hr. apply (reach_inv _ down_ok) in Hr; [done|intros; by eapply down_step|done]. Qed.
  Lemma down_after s l s' : strans s l s' → wq_down (s_q s) = true → wq_down (s_q s') = true.
  Proof.
    intros Ht%strans_calls Hd. assert (Hx : ∀ h (q q' : wq A), exec wstep q h q' → wq_down q = true → wq_down q' = true); [|by eapply Hx].
    intros h. clear. induction h as [|[o r] h IH]; intros q q' He Hd; [apply exec_nil_iff in He as ->; done|].
    apply exec_cons_iff in He as (q1 & H1 & H2). eapply IH; [done|]. destruct o; simpl in H1.
    - injection H1 as H1 _. subst. unfold wq_add. by rewrite Hd.
    - unfold wq_get in H1. destruct (wq_queue q); [rewrite Hd in H1|]; simpl in H1; by simplify_eq.
    - destruct (wq_done x q) as [p|] eqn:Hp; [|by simplify_eq]. unfold wq_done in Hp. repeat case_decide; by simplify_eq.
    - injection H1 as H1 _. by subst.
  Qed.
  Lemma shut_down_seen ls s : reach strans sched_init ls s → LCall ShutDown RNone ∈ ls → wq_down (s_q s) = true.
  Proof.
    induction 1 as [|ls s1 l s2 Hr IH Ht]; [by intros ?%elem_of_nil|].
    intros [Hin|<-%elem_of_list_singleton]%elem_of_app; [eapply down_after; eauto|]. inversion Ht; subst. by rewrite notify_with_q.
  Qed.
  Lemma gets_all_end ls s : reach strans sched_init ls s → LCall ShutDown RNone ∈ ls →
    ∃ ls' s', reach strans s ls' s' ∧ Forall (λ l, ∃ t r, l = LRun t r ∧ r ≠ RBlocked) ls' ∧ length ls' = length (in_get s) ∧ in_get s' = [].
  Proof.
    intros Hr Hin. pose proof (down_reach _ _ Hr) as Hw. pose proof (shut_down_seen _ _ Hr Hin) as Hd. specialize (Hw Hd). clear Hr Hin.
    destruct s as [q w n]. simpl in *. subst w. unfold in_get at 1. simpl. revert q Hd. induction n as [|t n IH]; intros q Hd.
    - exists [], (Sched q [] []). split; [constructor|]. done.
    - destruct (turn_get t (Sched q [] n)) as [s1 r] eqn:Ht. pose proof Ht as Ht'. unfold turn_get, wq_get in Ht. simpl in Ht.
      assert (∃ q1, s1 = Sched q1 [] n ∧ wq_down q1 = true ∧ r ≠ RBlocked) as (q1 & -> & Hd1 & Hr).
      { destruct (wq_queue q); [rewrite Hd in Ht|]; simplify_eq; eauto. }
      destruct (IH q1 Hd1) as (ls' & s' & Hr' & Hf & Hlen & Hs'). exists (LRun t r :: ls'), s'. split.
      { eapply reach_cons; [|exact Hr']. by apply (st_run (Sched q [] (t :: n)) t [] n). }
      split; [constructor; [eauto|done]|]. simpl. by rewrite Hlen.
  Qed.
End wq.

Section fifo.
  Context {K O T : Type} `{EqDecision K} `{EqDecision T} (keyf : O → option K).
  Implicit Types y : fsys K O T.
  Lemma fturn_perm t p (r : fres K O) n y s' wk :
    in_call (FifoSched_model.turn t p (blocked r) n y s' wk) ≡ₚ (if blocked r then [t] else []) ++ (y_waiting y).*1 ++ wk.*1.
  Proof.
    unfold FifoSched_model.turn, in_call. destruct n, (blocked r); simpl; rewrite ?fmap_app; simpl; rewrite ?app_nil_r; try done.
    - by rewrite (Permutation_app_comm (wk.*1)).
    - by rewrite (Permutation_app_comm (wk.*1)).
    - rewrite <-app_assoc. simpl. by rewrite <-Permutation_middle.
  Qed.
  Lemma call_step y l y' : ytrans keyf y l y' → call_begun l ++ in_call y ≡ₚ call_ended l ++ in_call y'.
  Proof.
    destruct 1 as [y t c s' r n Hc|y t p w1 w2 s' r n Hw Hc|y t p w1 w2 Hw|y t p w1 w2 Hw]; simpl; rewrite ?fturn_perm.
    - unfold in_call. by destruct r.
    - assert (in_call y ≡ₚ t :: (y_waiting y).*1 ++ (w1 ++ w2).*1) as ->.
      { unfold in_call. rewrite Hw, !fmap_app. simpl. by rewrite !app_assoc, <-Permutation_middle. }
      by destruct r.
    - unfold in_call. simpl. rewrite Hw, !fmap_app. simpl. rewrite <-!app_assoc. simpl. by rewrite <-Permutation_middle.
    - unfold in_call. simpl. rewrite Hw, !fmap_app. simpl. by rewrite !app_assoc, <-Permutation_middle.
  Qed.
  Lemma calls_accounted ls y : reach (ytrans keyf) fsys_init ls y → ls ≫= call_begun ≡ₚ (ls ≫= call_ended) ++ in_call y.
  Proof.
    induction 1 as [|ls s1 l s2 Hr IH Ht]; [done|]. rewrite !bind_app. simpl. rewrite !app_nil_r, IH.
    rewrite <-!app_assoc. f_equiv. rewrite <-(call_step _ _ _ Ht). apply Permutation_app_comm.
  Qed.
  Lemma calls_all_end ls y : reach (ytrans keyf) fsys_init ls y → Exists closes ls →
    ∃ ls' y', reach (ytrans keyf) y ls' y' ∧ Forall (λ l, ∃ t r, l = YResume t r ∧ r ≠ FBlocked) ls' ∧ length ls' = length (in_call y) ∧ in_call y' = [].
  Proof.
    intros Hr Hx. pose proof (closed_reach keyf _ _ Hr Hx) as Hcl.
    assert (y_waiting y = []) as Hw.
    { destruct (y_waiting y) as [|[t p] ws] eqn:Hw; [done|]. destruct (closed_turns keyf ls y (YCancel t) (FSys (y_fifo y) ws (y_woken y)) Hr Hx) as [? _]; [|congruence].
      by apply (yt_cancel_waiting keyf y t p [] ws). }
    clear Hr Hx. destruct y as [f w n]. simpl in *. subst w. unfold in_call at 1. simpl. revert f Hcl. induction n as [|[t p] n IH]; intros f Hcl.
    - exists [], (FSys f [] []). split; [constructor|]. done.
    - destruct (fcall keyf f (FPop p)) as [[f' r] b] eqn:Hc. destruct (closed_call keyf _ _ _ _ _ Hc Hcl) as [Hcl' Hr].
      destruct (IH f' Hcl') as (ls' & y' & Hr' & Hf & Hlen & Hy'). exists (YResume t r :: ls'), y'. split.
      { eapply reach_cons; [|exact Hr']. pose proof (yt_resume keyf (FSys f [] ((t, p) :: n)) t p [] n f' r b eq_refl Hc) as Ht.
        unfold FifoSched_model.turn in Ht. simpl in Ht. assert (blocked r = false) as Hb by (by destruct r). rewrite Hb in Ht.
        destruct b; simpl in Ht; by rewrite ?app_nil_r in Ht. }
      split; [constructor; [eauto|done]|]. simpl. by rewrite Hlen.
  Qed.
End fifo.

Section delta.
  Context {K O T : Type} `{EqDecision K} (keyf : O → option K).
  Implicit Types z : zsys K O T.
  Definition dsuspends (r : dres K O) : bool := match r with DBlocked | DPopped _ => true | _ => false end.
  Lemma zturn_perm (t : T) s' r n (w : list T) (rd : list (T * dop K O)) h : (∀ ds, r = DPopped ds → h = None) →
    in_dcall (zturn t s' r n w rd h) ≡ₚ (if dsuspends r then [t] else []) ++ w ++ rd.*1 ++ option_list h.
  Proof.
    intros Hp. assert (Hn : (if n then [] else w) ++ (if n then rd ++ ((λ t, (t, DPop)) <$> w) else rd).*1 ≡ₚ w ++ rd.*1).
    { destruct n; simpl; [|done]. rewrite fmap_app, <-list_fmap_compose. unfold compose. simpl. rewrite list_fmap_id. apply Permutation_app_comm. }
    unfold zturn, in_dcall. set (w' := if n then [] else w) in *. set (rd' := if n then rd ++ ((λ t, (t, DPop)) <$> w) else rd) in *. clearbody w' rd'.
    assert (Hx : ∀ h', w' ++ rd'.*1 ++ h' ≡ₚ w ++ rd.*1 ++ h') by (intros h'; rewrite !app_assoc; by rewrite Hn).
    destruct r; simpl; rewrite ?Hx; try done.
    - rewrite (Hp _ eq_refl). simpl. rewrite app_nil_r. rewrite app_assoc. by rewrite <-Permutation_cons_append.
    - rewrite <-app_assoc. simpl. rewrite <-Permutation_middle. by rewrite Hx.
  Qed.
  Lemma dcall_step z l z' : ZI keyf z → ztrans keyf z l z' → dcall_begun l ++ in_dcall z ≡ₚ dcall_ended l ++ in_dcall z'.
  Proof.
    intros [HD Hw Hl Hr] Ht. inversion Ht as [? t c s' r n Hs Hc Hne|? t c Hs Hn|? t c r1 r2 s' r n Hrd Hh Hc|? t out s' r n Hh Hc|? t w1 w2 Hwt|? t c r1 r2 Hrd]; subst; simpl.
    - rewrite zturn_perm.
      + unfold in_dcall. by destruct r.
      + intros ds ->. destruct (z_holder z) as [t0|] eqn:Hh; [|done]. exfalso.
        assert (is_Some (d_busy (z_q z))) as [b Hb] by (apply Hl; eauto). unfold dcall in Hc. rewrite Hb in Hc.
        destruct (needs_lock c) eqn:Hnl; [by simplify_eq|]. destruct b.
        destruct c as [o|o|kn o| | |o|k'|kn l0|kn| |out|ds'| | |]; try done; simpl in Hc; simplify_eq. by destruct (key_of keyf o).
    - unfold in_dcall. simpl. rewrite fmap_app. simpl. rewrite !app_assoc. rewrite <-(app_assoc _ [t]). simpl. by rewrite <-Permutation_middle.
    - rewrite zturn_perm by congruence. unfold in_dcall. rewrite Hrd, !fmap_app. simpl.
      assert (∀ a b c d : list T, a ++ (b ++ t :: c) ++ d ≡ₚ t :: a ++ (b ++ c) ++ d) as Hp.
      { intros a b c' d. rewrite <-!app_assoc. simpl. rewrite (app_assoc a b (t :: c' ++ d)). rewrite <-Permutation_middle. by rewrite <-!app_assoc. }
      rewrite Hp. by destruct r.
    - rewrite zturn_perm by done. unfold in_dcall. rewrite Hh. simpl. rewrite app_nil_r.
      assert (dsuspends r = false) as ->.
      { assert (is_Some (d_busy (z_q z))) as [[k0 ds0] Hb] by (apply Hl; eauto). unfold dcall in Hc. rewrite Hb in Hc. simpl in Hc.
        unfold df_finish in Hc. rewrite Hb in Hc. destruct out as [|cause| |]; simplify_eq; try done.
        destruct (put_if_absent _ _ _). destruct cause; by simplify_eq. }
      simpl. rewrite app_assoc. by rewrite <-Permutation_cons_append.
    - unfold in_dcall. simpl. rewrite Hwt. rewrite <-!app_assoc. simpl. by rewrite <-Permutation_middle.
    - unfold in_dcall. simpl. rewrite Hrd, !fmap_app. simpl. rewrite <-!app_assoc. simpl. rewrite (app_assoc (z_waiting z) (r1.*1) (t :: _)).
      rewrite <-Permutation_middle. by rewrite <-app_assoc.
  Qed.
  Lemma dcalls_accounted ls z : reach (ztrans keyf) zsys_init ls z → ls ≫= dcall_begun ≡ₚ (ls ≫= dcall_ended) ++ in_dcall z.
  Proof.
    induction 1 as [|ls s1 l s2 Hr IH Ht]; [done|]. rewrite !bind_app. simpl. rewrite !app_nil_r, IH.
    rewrite <-!app_assoc. f_equiv. rewrite <-(dcall_step _ _ _ (ZI_reach keyf _ _ Hr) Ht). apply Permutation_app_comm.
  Qed.

  (** after close: let the holder finish, then every ready task in turn *)
  Definition dgoes (l : zlabel K O T) : Prop := (∃ t c r, l = ZGo t c r ∧ r ≠ DBlocked ∧ r ≠ DLockWait) ∨ ∃ t ds, l = ZFinish t DOk (DItem ds).
  Lemma finish_ok z t : ZI keyf z → z_holder z = Some t → ∃ ds q, ztrans keyf z (ZFinish t DOk (DItem ds)) (ZSys q (z_waiting z) (z_ready z) None) ∧ d_closed q = d_closed (z_q z).
  Proof.
    intros [HD Hw Hl Hr] Hh. assert (is_Some (d_busy (z_q z))) as [[k0 ds0] Hb] by (apply Hl; eauto).
    destruct (dcall keyf (z_q z) (DFinish DOk)) as [[s' r] n] eqn:Hc. pose proof (zt_finish keyf z t DOk s' r n Hh Hc) as Ht.
    pose proof (zclosed_call keyf _ _ _ _ _ Hc) as Hcl. simpl in Hcl.
    unfold dcall in Hc. rewrite Hb in Hc. simpl in Hc. unfold df_finish in Hc. rewrite Hb in Hc. simplify_eq.
    eexists _, _. split; [exact Ht|done].
  Qed.
  Lemma dcalls_all_end ls z : reach (ztrans keyf) zsys_init ls z → Exists zcloses ls →
    ∃ ls' z', reach (ztrans keyf) z ls' z' ∧ Forall dgoes ls' ∧ in_dcall z' = [].
  Proof.
    intros Hr Hx. pose proof (zclosed_reach keyf _ _ Hr Hx) as Hcl. pose proof (ZI_reach keyf _ _ Hr) as HZ. clear Hr Hx.
    (* first the callback under way *)
    assert (∃ ls1 z1, reach (ztrans keyf) z ls1 z1 ∧ Forall dgoes ls1 ∧ ZI keyf z1 ∧ z_holder z1 = None ∧ d_closed (z_q z1) = true) as (ls1 & z1 & Hr1 & Hg1 & HZ1 & Hh1 & Hcl1).
    { destruct (z_holder z) as [t|] eqn:Hh; [|exists [], z; split; [constructor|done]].
      destruct (finish_ok z t HZ Hh) as (ds & q & Ht & Hq). eexists [_], _. split; [by apply reach_one|]. split; [constructor; [right; eauto|done]|].
      split; [by eapply ZI_step|]. simpl. split; congruence. }
    enough (∃ ls2 z2, reach (ztrans keyf) z1 ls2 z2 ∧ Forall dgoes ls2 ∧ in_dcall z2 = []) as (ls2 & z2 & Hr2 & Hg2 & He).
    { exists (ls1 ++ ls2), z2. split; [by eapply reach_app|]. split; [by apply Forall_app|done]. }
    clear z ls Hcl HZ ls1 Hr1 Hg1. remember (length (z_ready z1)) as m eqn:Hm. revert z1 HZ1 Hh1 Hcl1 Hm.
    induction m as [|m IH]; intros z HZ Hh Hcl Hm; pose proof HZ as [HD Hw Hl Hrd].
    - exists [], z. split; [constructor|]. split; [done|]. unfold in_dcall. rewrite Hh. destruct (z_ready z); [|done].
      destruct (z_waiting z); [done|]. destruct (Hw ltac:(done)) as [_ ?]. congruence.
    - assert (z_waiting z = []) as Hnw. { destruct (z_waiting z); [done|]. destruct (Hw ltac:(done)) as [_ ?]. congruence. }
      destruct (z_ready z) as [|[t c] rd] eqn:Hrz; [done|]. simpl in Hm. injection Hm as Hm.
      destruct (dcall keyf (z_q z) c) as [[s' r] n] eqn:Hc.
      pose proof (zt_go keyf z t c [] rd s' r n Hrz Hh Hc) as Ht. simpl in Ht. rewrite Hnw, Hh in Ht.
      pose proof (ZI_step keyf _ _ _ HZ Ht) as HZ'. assert (Hst : starts c = true) by (apply (Hrd t); left).
      assert (Hb : d_busy (z_q z) = None). { destruct (d_busy (z_q z)) eqn:Hb; [|done]. assert (is_Some (z_holder z)) as [? ?] by (apply Hl; eauto). congruence. }
      destruct (busy_call keyf _ _ _ _ _ HD Hc) as [_ Hnl]. specialize (Hnl Hb Hst).
      assert (Hcl' : d_closed s' = true). { pose proof (zclosed_call keyf _ _ _ _ _ Hc) as Hx. rewrite Hx. destruct c; try done. by destruct r. }
      assert (Hnb : r ≠ DBlocked). { intros ->. destruct (dquiet_call keyf _ _ _ _ _ HD Hc) as [Hq _]. destruct (Hq eq_refl) as [[_ ?] _]. congruence. }
      assert (Hgo : dgoes (ZGo t c r)) by (left; eauto 10).
      assert (Hturn : z_waiting (zturn t s' r n [] rd None) = [] ∧ z_ready (zturn t s' r n [] rd None) = rd ∧ z_q (zturn t s' r n [] rd None) = s').
      { unfold zturn. destruct n; simpl; rewrite ?app_nil_r; by destruct r. }
      destruct Hturn as (Ht1 & Ht2 & Ht3). set (z' := zturn t s' r n [] rd None) in *.
      destruct (z_holder z') as [t'|] eqn:Hh'.
      + destruct (finish_ok z' t' HZ' Hh') as (ds & q & Hf & Hq). rewrite Ht1, Ht2 in Hf.
        destruct (IH (ZSys q [] rd None)) as (ls2 & z2 & Hr2 & Hg2 & He).
        { by eapply ZI_step. } { done. } { simpl. congruence. } { done. }
        exists (ZGo t c r :: ZFinish t' DOk (DItem ds) :: ls2), z2. split; [eapply reach_cons; [done|]; by eapply reach_cons|].
        split; [|done]. constructor; [done|]. constructor; [right; eauto|done].
      + destruct (IH z') as (ls2 & z2 & Hr2 & Hg2 & He); [done|done|congruence|congruence|].
        exists (ZGo t c r :: ls2), z2. split; [by eapply reach_cons|]. split; [by constructor|done].
  Qed.
End delta.

Local Open Scope nat_scope.
Section delay.
  Context {A : Type} `{EqDecision A}.
  Lemma puts_step (s : dq A) l s' : wq_down (dq_base s) = false → dtrans s l s' → puts_begun l + length (dq_puts s) = puts_ended l + length (dq_puts s').
  Proof.
    intros Hd. destruct 1; simpl; try done.
    - unfold dq_add_after. rewrite Hd. destruct (d <=? 0)%Z; simpl; [done|]. rewrite app_length. simpl. lia.
    - unfold dq_shut_down, shut_down_body. by destruct (dq_stop s).
    - rewrite H. rewrite !app_length. simpl. lia.
    - rewrite H. rewrite !app_length. simpl. lia.
    - unfold loop_top. rewrite Hd. destruct (drain_due _ _ _ _) as [[w q]|]; [|done]. destruct (Nat.eqb _ _); [done|]. by destruct (pq_peek w) as [? [?|]].
    - unfold loop_resume. destruct (dq_stop s); [done|]. by destruct (absorb_all _ _ _).
  Qed.
  Lemma puts_accounted t ls (s : dq A) : reach dtrans (dq_init t) ls s →
    sum_list (puts_begun <$> ls) = sum_list (puts_ended <$> ls) + length (dq_puts s).
  Proof.
    induction 1 as [|ls s1 l s2 Hr IH Ht]; [done|]. rewrite !fmap_app, !sum_list_with_app. simpl.
    destruct (never_down t ls s1 Hr) as [Hd _]. pose proof (puts_step _ _ _ Hd Ht) as Hs. lia.
  Qed.
End delay.
