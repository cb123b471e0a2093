(** Proofs about the times of resync checks. *)
From Verif Require Import Base RealTime_model RealTime_spec RealTime_proofs Resync_model Resync_spec DeltaFifo_model Store_model Store_spec Informer_model Informer_spec SharedInformer_model SharedInformer_spec
  SharedInformer_proofs SharedInformer_proofs2 SharedInformer_proofs3.
From Coq Require Import ZArith.
Local Open Scope Z_scope.

Lemma check_snoc tr l : check_times (tr ++ [l]) = check_times tr ++ match l with ZCheck t _ => [t] | _ => [] end.
Proof. unfold check_times. rewrite omap_snoc. by destruct l. Qed.
Lemma zclock_snoc t0 tr l : zclock t0 (tr ++ [l]) = match l with ZTime (RPass t) => t | _ => zclock t0 tr end.
Proof. unfold zclock. rewrite foldl_app. by destruct l as [[]| | | | |]. Qed.

Section resync.
  Context (res d t0 : Z).
  Notation zst := (zstep res d).
  Implicit Types (tr : list zlabel) (s : zstate).

  Lemma timer_now (s : rtimer) l (s' : rtimer) : tstep res KTimer d s l s' → own l = true → t_now s' = match l with RPass t => t | _ => t_now s end ∧ t_now s <= t_now s'.
  Proof. intros Hs. destruct Hs; simpl; intros; try lia. unfold tick. destruct (t_cell s); simpl; lia. Qed.
  Lemma znow_step s l s' : zst s l s' → z_now s' = match l with ZTime (RPass t) => t | _ => z_now s end ∧ z_now s <= z_now s'.
  Proof.
    intros Hs. destruct Hs as [l tm Ho Hs| | |w [] ?|[] ?|]; unfold z_now, resync_queue in *; simpl; try (destruct (d =? 0)); simpl; try lia.
    - destruct (timer_now _ _ _ Hs Ho) as [-> ?]. destruct l; simpl in *; lia.
    - destruct (timer_now _ _ _ Hs Ho) as [-> ?]. destruct l; simpl in *; lia.
  Qed.
  Lemma znow tr s : reach zst (z_init t0) tr s → z_now s = zclock t0 tr.
  Proof.
    apply (reach_trace_inv zst (λ tr s, z_now s = zclock t0 tr)); [done|]. intros tr' s' l s'' _ IH Hs. rewrite zclock_snoc. apply znow_step in Hs as [-> _].
    by destruct l as [[]| | | | |].
  Qed.

  (** the timer of the task, and what happened before: no check is closer than d to the last one or to the list *)
  Definition armed (a : Z) (tm : rtimer) : Prop :=
    match t_phase tm with
    | TpNew => t_cell tm = None ∧ a <= t_now tm
    | TpSleep dl => t_cell tm = None ∧ a + Z.max 0 d <= dl
    | TpPut _ => False
    | TpEnd => t_cell tm ≠ None → a + Z.max 0 d < t_now tm + res
    end.
  Definition zinv tr s : Prop :=
    (d = 0 → t_phase (z_timer s) = TpEnd ∧ t_cell (z_timer s) = None) ∧
    (∀ a, last (check_times tr) = Some a → a <= z_now s ∧ (z_task s = ZGet → armed a (z_timer s))) ∧
    match z_task s with
    | ZNone => episode (reverse tr) = None
    | ZNew | ZStore | ZEnd => ∃ a, episode (reverse tr) = Some a ∧ a <= z_now s
    | ZGet => ∃ a, episode (reverse tr) = Some a ∧ a <= z_now s ∧ armed a (z_timer s)
    end ∧
    (z_task s = ZGet ↔ waiting (reverse tr)) ∧
    (z_task s ≠ ZGet → t_phase (z_timer s) = TpEnd ∧ t_cell (z_timer s) = None).
  Lemma armed_queue a t : a <= t → armed a (resync_queue d t).
  Proof. unfold resync_queue, armed. destruct (d =? 0); simpl; [done|]. split; [done|lia]. Qed.
  Lemma armed_step a tm l tm' : tstep res KTimer d tm l tm' → own l = true → armed a tm → armed a tm'.
  Proof.
    unfold armed. intros Hs Ho Ha. destruct Hs as [s t Ht|s Hp|s dl w Hp Hdl|s w Hp Hc| |]; try done; simpl; rewrite ?Hp in *.
    - destruct (t_phase s); try done; [destruct Ha; split; [done|lia]|intros Hc; specialize (Ha Hc); lia].
    - unfold deadline_from. destruct Ha. split; [done|lia].
    - destruct Ha as [Hc Ha]. unfold tick. rewrite Hc. simpl. intros _. lia.
    - done.
  Qed.
  Lemma queue_now t : t_now (resync_queue d t) = t.
  Proof. unfold resync_queue. by destruct (d =? 0). Qed.
  Lemma quiet_timer tm l tm' : tstep res KTimer d tm l tm' → own l = true → t_phase tm = TpEnd → t_phase tm' = TpEnd ∧ t_cell tm' = t_cell tm.
  Proof. intros Hs Ho Hp. destruct Hs; simpl in *; try congruence; done. Qed.
  Lemma zinv_reach tr s : reach zst (z_init t0) tr s → zinv tr s.
  Proof.
    apply (reach_trace_inv zst zinv).
    { unfold zinv. simpl. repeat split; try done. }
    intros tr' s' l s'' _ (H0 & Hl & Hep & Hw & Hq) Hs. pose proof (znow_step _ _ _ Hs) as [_ Hn]. unfold zinv. rewrite check_snoc, reverse_snoc.
    destruct Hs as [l tm Ho Hs|Ht|Ht|w due Ht Hc|ok Ht|Ht]; simpl; rewrite ?app_nil_r.
    - split; [|split; [|split; [|split]]].
      + intros Hd. destruct (H0 Hd) as [Hp Hc]. destruct (quiet_timer _ _ _ Hs Ho Hp) as [-> ->]. done.
      + intros a Ha. destruct (Hl a Ha) as [? Hg]. split; [lia|]. intros Hz. eapply armed_step; eauto.
      + destruct (z_task s'); try done; destruct Hep as (a & ? & ?); exists a; (split; [done|]); try lia. split; [lia|]. eapply armed_step; naive_solver.
      + done.
      + intros Hz. destruct (Hq Hz) as [Hp Hc]. destruct (quiet_timer _ _ _ Hs Ho Hp) as [-> ->]. done.
    - rewrite Ht in *. split; [done|]. split; [|split; [|split]]; [naive_solver| |naive_solver|naive_solver]. eexists. split; [done|]. unfold z_now. simpl. lia.
    - rewrite Ht in *. destruct Hep as (a & He & Ha). split; [intros ->; done|]. split; [|split; [|split]]; [| |done|done].
      + intros b Hb. destruct (Hl b Hb) as [? _]. unfold z_now in *. simpl. rewrite queue_now. split; [done|]. intros _. by apply armed_queue.
      + exists a. unfold z_now in *. simpl. rewrite queue_now. split; [done|]. split; [done|]. by apply armed_queue.
    - rewrite Ht in *. destruct Hep as (a & He & Ha & Har). destruct due; simpl.
      + split; [|split; [|split; [|split]]].
        * intros Hd. destruct (H0 Hd). congruence.
        * intros b Hb. rewrite last_snoc in Hb. injection Hb as <-. unfold z_now. simpl. split; [lia|done].
        * exists a. unfold z_now in *. simpl. done.
        * done.
        * intros _. split; [|done]. unfold armed in Har. destruct (t_phase (z_timer s')); naive_solver.
      + split; [|split; [|split; [|split]]].
        * intros Hd. destruct (H0 Hd). congruence.
        * intros b Hb. rewrite last_snoc in Hb. injection Hb as <-. unfold z_now in *. simpl. rewrite queue_now. split; [lia|]. intros _. apply armed_queue. lia.
        * exists a. unfold z_now in *. simpl. rewrite queue_now. split; [done|]. split; [done|]. by apply armed_queue.
        * done.
        * done.
    - rewrite Ht in *. destruct Hep as (a & He & Ha). destruct ok; simpl.
      + split; [intros ->; done|]. split; [|split; [|split]]; [| |done|done].
        * intros b Hb. destruct (Hl b Hb) as [? _]. unfold z_now in *. simpl. rewrite queue_now. split; [done|]. intros _. by apply armed_queue.
        * exists a. unfold z_now in *. simpl. rewrite queue_now. split; [done|]. split; [done|]. by apply armed_queue.
      + split; [done|]. split; [|split; [|split]]; [naive_solver| |done|done]. exists a. done.
    - split; [done|]. split; [|split; [|split]]; [|done|done|done]. intros b Hb. destruct (Hl b Hb) as [? _]. done.
  Qed.

  Lemma check_ready tr s t due s' : reach zst (z_init t0) tr s → zst s (ZCheck t due) s' →
    d ≠ 0 ∧ t = z_now s ∧ (∀ a, last (check_times tr) = Some a → a + Z.max 0 d < t + res) ∧ ∃ a, episode (reverse tr) = Some a ∧ a + Z.max 0 d < t + res.
  Proof.
    intros (H0 & Hl & Hep & Hw & Hq)%zinv_reach Hs. inversion Hs as [| | |w due' Ht Hc| |]; subst. rewrite Ht in *.
    assert (∀ a, armed a (z_timer s) → a + Z.max 0 d < z_now s + res) as Ha.
    { intros a. unfold armed. destruct (t_phase (z_timer s)); [naive_solver|naive_solver|naive_solver|]. intros Hx. apply Hx. congruence. }
    split; [intros Hd; destruct (H0 Hd); congruence|]. split; [done|]. split.
    - intros a Hlast. destruct (Hl a Hlast) as [_ Har]. auto.
    - destruct Hep as (a & ? & ? & ?). exists a. auto.
  Qed.
  Lemma never tr s : d = 0 → reach zst (z_init t0) tr s → check_times tr = [].
  Proof.
    intros Hd. apply (reach_trace_inv zst (λ tr s, check_times tr = [])); [done|]. intros tr' s' l s'' Hr IH Hs. rewrite check_snoc, IH. destruct l as [| | |t due| |]; try done.
    by destruct (check_ready _ _ _ _ _ Hr Hs).
  Qed.
  Lemma apart tr s x y : reach zst (z_init t0) tr s → adjacent x y (check_times tr) → x + Z.max 0 d < y + res.
  Proof.
    apply (reach_trace_inv zst (λ tr s, adjacent x y (check_times tr) → x + Z.max 0 d < y + res)).
    { intros (l1 & l2 & ?). by destruct l1. }
    intros tr' s' l s'' Hr IH Hs (l1 & l2 & E). rewrite check_snoc in E. destruct l as [| | |t due| |]; try (rewrite app_nil_r in E; apply IH; by exists l1, l2).
    destruct l2 as [|z l2 _] using rev_ind.
    - replace (l1 ++ [x; y]) with ((l1 ++ [x]) ++ [y]) in E by by rewrite <-app_assoc. apply app_inj_tail in E as [E <-].
      destruct (check_ready _ _ _ _ _ Hr Hs) as (_ & _ & Ha & _). apply Ha. rewrite E. apply last_snoc.
    - apply IH. exists l1, l2. change (x :: y :: l2 ++ [z]) with ((x :: y :: l2) ++ [z]) in E. rewrite app_assoc in E. by apply app_inj_tail in E as [-> _].
  Qed.
  (** a check comes at least d after the list, whose watches are still under way *)
  Lemma after_list l1 t due l2 s : reach zst (z_init t0) (l1 ++ ZCheck t due :: l2) s → ∃ a, episode (reverse l1) = Some a ∧ a + Z.max 0 d < t + res.
  Proof.
    intros (s1 & Hr1 & Hr)%reach_app_inv. apply (reach_app_inv _ _ [ZCheck t due]) in Hr as (s2 & Hs%reach_one_inv & _).
    by destruct (check_ready _ _ _ _ _ Hr1 Hs) as (_ & _ & _ & ?).
  Qed.
  Lemma episode_from tr s : reach zst (z_init t0) tr s → t0 <= z_now s ∧ ∀ a, episode (reverse tr) = Some a → t0 <= a.
  Proof.
    apply (reach_trace_inv zst (λ tr s, t0 <= z_now s ∧ ∀ a, episode (reverse tr) = Some a → t0 <= a)).
    { unfold z_now. simpl. split; [lia|done]. }
    intros tr' s' l s'' _ [IHn IH] Hs. pose proof (znow_step _ _ _ Hs) as [_ Hle]. split; [lia|]. rewrite reverse_snoc.
    intros a. destruct Hs; simpl; first [apply IH|by intros [= <-]|done].
  Qed.
  Lemma number tr s : res <= Z.max 0 d → reach zst (z_init t0) tr s → Z.of_nat (length (check_times tr)) * (Z.max 0 d - res) <= z_now s - t0.
  Proof.
    intros Hres. intros Hr.
    assert (t0 <= z_now s ∧ ∀ a, last (check_times tr) = Some a → Z.of_nat (length (check_times tr)) * (Z.max 0 d - res) <= a - t0) as [Hn Hall].
    { revert Hr. apply (reach_trace_inv zst (λ tr s, t0 <= z_now s ∧ ∀ a, last (check_times tr) = Some a → Z.of_nat (length (check_times tr)) * (Z.max 0 d - res) <= a - t0)).
      { unfold z_now. simpl. split; [lia|done]. }
      intros tr' s' l s'' Hr (IHn & IH) Hs. pose proof (znow_step _ _ _ Hs) as [_ Hle]. split; [lia|]. rewrite check_snoc.
      destruct l as [| | |t due| |]; try (rewrite app_nil_r; done). intros a. rewrite last_snoc. intros [= <-]. rewrite app_length. simpl.
      destruct (check_ready _ _ _ _ _ Hr Hs) as (_ & -> & Ha & b & Hb & Hb2). destruct (last (check_times tr')) as [a|] eqn:El.
      - specialize (IH a eq_refl). specialize (Ha a eq_refl). lia.
      - apply last_None in El. rewrite El. simpl.
        destruct (episode_from _ _ Hr) as [_ Hep]. specialize (Hep b Hb). lia. }
    destruct (last (check_times tr)) as [a|] eqn:El.
    - destruct (zinv_reach _ _ Hr) as (_ & Hl & _). destruct (Hl a El). specialize (Hall a eq_refl). lia.
    - apply last_None in El. rewrite El. simpl. lia.
  Qed.

  (** ** the next check *)
  Definition going s : Prop := z_task s = ZGet → d ≠ 0 →
    match t_phase (z_timer s) with
    | TpNew => t_cell (z_timer s) = None
    | TpSleep dl => t_cell (z_timer s) = None ∧ dl <= z_now s + Z.max 0 d
    | TpPut _ => False
    | TpEnd => t_cell (z_timer s) ≠ None
    end.
  Lemma going_queue t : going (ZState ZGet (resync_queue d t)).
  Proof. unfold going, resync_queue. simpl. intros _ Hd. apply Z.eqb_neq in Hd as ->. done. Qed.
  Lemma going_reach tr s : reach zst (z_init t0) tr s → going s.
  Proof.
    apply reach_inv; [|done]. intros s' l s'' IH Hs. destruct Hs as [l tm Ho Hs|Ht|Ht|w [] Ht Hc|[] Ht|Ht]; try done; try apply going_queue.
    unfold going, z_now in *. simpl. intros Hz Hd. specialize (IH Hz Hd).
    destruct Hs as [s1 t Hle|s1 Hp|s1 dl w Hp Hdl|s1 w Hp Hc| |]; try done; simpl; rewrite ?Hp in *.
    - destruct (t_phase s1); try done. destruct IH. split; [done|]. lia.
    - unfold deadline_from. split; [done|lia].
    - destruct IH as [Hc _]. unfold tick. by rewrite Hc.
  Qed.
  Lemma next_check tr s t due : 0 < res → d ≠ 0 → reach zst (z_init t0) tr s → waiting (reverse tr) → z_now s + Z.max 0 d <= t →
    ∃ ls s', Forall timer_label ls ∧ reach zst s (ls ++ [ZCheck t due]) s'.
  Proof.
    intros Hres Hd Hr Hw Ht. destruct (zinv_reach _ _ Hr) as (_ & _ & _ & Hg & _). apply Hg in Hw as Hz. pose proof (going_reach _ _ Hr Hz Hd) as Hph.
    destruct s as [task [now ph cell]]. unfold z_now in *. simpl in *. subst task.
    assert (∀ c, zst (ZState ZGet (RT t TpEnd (Some c))) (ZCheck t due) (if due then ZState ZStore (RT t TpEnd None) else ZState ZGet (resync_queue d t))) as Hck.
    { intros c. by apply (z_check res d (ZState ZGet (RT t TpEnd (Some c))) c due). }
    assert (∀ dl, dl < t + res → zst (ZState ZGet (RT t (TpSleep dl) None)) (ZTime (RWake t 0)) (ZState ZGet (RT t TpEnd (Some 0)))) as Hwk.
    { intros dl Hdl. apply (z_time res d (ZState ZGet (RT t (TpSleep dl) None))); [done|]. by apply (t_wake res KTimer d (RT t (TpSleep dl) None) dl 0). }
    assert (∀ p c, zst (ZState ZGet (RT now p c)) (ZTime (RPass t)) (ZState ZGet (RT t p c))) as Hps.
    { intros p c. apply (z_time res d (ZState ZGet (RT now p c))); [done|]. apply (t_pass res KTimer d (RT now p c)). simpl. lia. }
    destruct ph as [|dl|w|].
    - subst cell. exists [ZTime (RBegin now); ZTime (RPass t); ZTime (RWake t 0)]. eexists. split; [repeat constructor|]. simpl.
      eapply reach_cons. { apply (z_time res d (ZState ZGet (RT now TpNew None))); [done|]. by apply (t_begin res KTimer d (RT now TpNew None)). }
      simpl. eapply reach_cons; [apply Hps|]. eapply reach_cons; [apply Hwk; unfold deadline_from; lia|]. apply reach_one, Hck.
    - destruct Hph as [-> Hdl]. exists [ZTime (RPass t); ZTime (RWake t 0)]. eexists. split; [repeat constructor|]. simpl.
      eapply reach_cons; [apply Hps|]. eapply reach_cons; [apply Hwk; lia|]. apply reach_one, Hck.
    - done.
    - destruct cell as [c|]; [|done]. exists [ZTime (RPass t)]. eexists. split; [repeat constructor|]. simpl. eapply reach_cons; [apply Hps|]. apply reach_one, Hck.
  Qed.

  (** if every list is followed by another one in less than d, there is no check *)
  Lemma short_watches tr s : reach zst (z_init t0) tr s →
    (∀ l1 l l2 a, tr = l1 ++ l :: l2 → episode (reverse l1) = Some a → zclock t0 l1 + res <= a + Z.max 0 d) → check_times tr = [].
  Proof.
    intros Hr Hsh. destruct (check_times tr) as [|t ts] eqn:E; [done|]. exfalso.
    assert (t ∈ check_times tr) as Hin by (rewrite E; left).
    apply elem_of_list_omap in Hin as (l & Hl & Hlt). destruct l; try done. injection Hlt as ->.
    apply elem_of_list_split in Hl as (l1 & l2 & ->). destruct (after_list _ _ _ _ _ Hr) as (a & Ha & Hlt).
    specialize (Hsh l1 _ l2 a eq_refl Ha). apply reach_app_inv in Hr as (s1 & Hr1 & Hr2).
    apply (reach_app_inv _ _ [ZCheck t due]) in Hr2 as (s2 & Hs%reach_one_inv & _). destruct (check_ready _ _ _ _ _ Hr1 Hs) as (_ & -> & _). rewrite (znow _ _ Hr1) in Hlt. lia.
  Qed.
  (** no check after the watch has ended *)
  Lemma none_after_end l1 b l2 s : reach zst (z_init t0) (l1 ++ ZCancel b :: l2) s → (∀ t, ZBegin t ∉ l2) → check_times l2 = [].
  Proof.
    intros Hr Hnb. destruct (check_times l2) as [|t ts] eqn:E; [done|]. exfalso.
    assert (t ∈ check_times l2) as Hin by (rewrite E; left).
    apply elem_of_list_omap in Hin as (l & Hl & Hlt). destruct l; try done. injection Hlt as ->.
    apply elem_of_list_split in Hl as (l3 & l4 & ->). change (l1 ++ ZCancel b :: l3 ++ ZCheck t due :: l4) with (l1 ++ (ZCancel b :: l3) ++ ZCheck t due :: l4) in Hr. rewrite app_assoc in Hr.
    destruct (after_list _ _ _ _ _ Hr) as (a & Ha & _). rewrite reverse_app, reverse_cons, <-app_assoc in Ha.
    assert (∀ t, ZBegin t ∉ reverse l3) as Hn by (intros t' Hx; apply (Hnb t'); apply elem_of_app; left; by apply elem_of_reverse).
    revert Ha Hn. clear. induction (reverse l3) as [|l ls IH]; simpl; [done|]. intros Ha Hn. destruct l; try (apply IH; [exact Ha|intros t'' Hx; eapply Hn; by right]); [|done]. by destruct (Hn t); left.
  Qed.
End resync.

(** ** the handlers *)
Lemma last_resync_recent p D t0 ts t : 0 < p → every D t0 ts → t <= default t0 (last ts) + D → t < last_resync p t0 ts + p + D.
Proof.
  intros Hp He Ht.
  assert (∀ a c, a <= c < a + p → every D c ts → t <= default c (last ts) + D → t < foldl (λ t0 t, if bool_decide (t0 + p <= t) then t else t0) a ts + p + D) as H.
  { clear He Ht t0. induction ts as [|x ts IH]; intros a c Ha He Ht; [simpl in *; lia|]. rewrite last_cons in Ht.
    destruct He as [Hx He]. simpl. case_bool_decide.
    - eapply (IH x x); [lia|done|]. by destruct (last ts).
    - eapply (IH a x); [lia|done|]. by destruct (last ts). }
  unfold last_resync. apply (H t0 t0); [lia|done|done].
Qed.
Lemma last_resync_when p t0 ts : last_resync p t0 ts = t0 ∨ ∃ ts1 ts2, ts = ts1 ++ last_resync p t0 ts :: ts2 ∧ last_resync p t0 ts1 + p <= last_resync p t0 ts.
Proof.
  induction ts as [|x ts IH] using rev_ind; [by left|]. unfold last_resync in *. rewrite foldl_app. simpl. case_bool_decide.
  - right. by exists ts, [].
  - destruct IH as [?|(ts1 & ts2 & E & ?)]; [by left|]. right. exists ts1, (ts2 ++ [x]). rewrite E at 1. by rewrite <-app_assoc.
Qed.

Section handlers.
  Context {K O V N : Type} `{EqDecision K} `{EqDecision V} `{EqDecision N} (keyf : O → option K) (second dflt : Z) (fs : dict N (index_func (dobj K O) V)).
  Context (Hsec : (0 < second)%Z).
  Notation hstep := (hstep (V:=V) (N:=N) keyf second dflt).
  Notation init := (shared_init dflt fs).
  Lemma omap_split {A B} (f : A → option B) l l1 x l2 : omap f l = l1 ++ x :: l2 → ∃ k1 y k2, l = k1 ++ y :: k2 ∧ omap f k1 = l1 ∧ f y = Some x.
  Proof.
    revert l1. induction l as [|y l IH]; intros l1 E; [by destruct l1|]. simpl in E. destruct (f y) as [z|] eqn:Ey.
    - destruct l1 as [|z' l1]; injection E as E0 E; [subst z|subst z].
      + exists [], y, l. done.
      + destruct (IH _ E) as (k1 & y' & k2 & -> & E' & ?). exists (y :: k1), y', k2. split; [done|]. split; [|done]. rewrite <-E'. simpl. by rewrite Ey.
    - destruct (IH _ E) as (k1 & y' & k2 & -> & E' & ?). exists (y :: k1), y', k2. split; [done|]. split; [|done]. rewrite <-E'. simpl. by rewrite Ey.
  Qed.
  Lemma latency h0 s0 req now s1 h s D t : exec hstep init h0 s0 → p_stopped (h_proc s0) = false → hstep s0 (HRegister req now) = (s1, HNone) → exec hstep s1 h s →
    let P := effective second dflt (p_started (h_proc s0)) (p_check (h_proc s0)) req in
    P ≠ 0 → every D now (checks h) → t <= default now (last (checks h)) + D →
    t < now + P + D ∨ ∃ h1 r b h2 s2, h = h1 ++ (HShouldResync r, HBool b) :: h2 ∧ t < r + P + D ∧ exec hstep s1 (h1 ++ [(HShouldResync r, HBool b)]) s2 ∧
      length (p_ls (h_proc s0)) ∈ p_syncing (h_proc s2).
  Proof.
    intros Hr Hns Hreg Hh P HP Hev Ht.
    assert (0 < P) as Hpos. { destruct (effective_least second dflt Hsec (p_started (h_proc s0)) (p_check (h_proc s0)) req) as [?|[? _]]; [done|]. unfold P. lia. }
    pose proof (last_resync_recent P D now (checks h) t Hpos Hev Ht) as Hlt.
    destruct (last_resync_when P now (checks h)) as [E|(ts1 & ts2 & E & Hdue)]; [left; lia|]. right.
    unfold checks in E. apply omap_split in E as (h1 & [c res] & h2 & -> & E1 & E2). simpl in E2. destruct c as [|?? | | |r]; try done. injection E2 as Er.
    pose proof Hh as Hh'. apply exec_app in Hh' as (m & Hm & (m2 & Hm2 & _)%exec_cons_iff).
    assert (∃ b, res = HBool b) as [b ->]. { simpl in Hm2. destruct (should_resync (h_proc m) r). injection Hm2 as _ <-. eauto. }
    exists h1, r, b, h2, m2. split; [done|]. split; [rewrite Er; exact Hlt|]. split; [apply exec_snoc; eauto|].
    apply (resync_exactly keyf second dflt Hsec fs h0 s0 req now s1 h1 m r m2 b Hr Hns Hreg Hm Hm2). fold P. split; [done|]. unfold checks. rewrite E1. rewrite Er. exact Hdue.
  Qed.
End handlers.

(** ** cases *)
Definition rs_trace : list zlabel :=
  [ZBegin 0; ZStart; ZTime (RBegin 0); ZTime (RPass 10); ZTime (RWake 10 77); ZCheck 10 false; ZTime (RPass 11); ZTime (RBegin 11); ZTime (RPass 23);
   ZTime (RWake 23 78); ZCheck 23 true; ZTime (RPass 25); ZResync true].
Definition rs_state : zstate := ZState ZGet (rt_init 25).
Ltac rs := idtac; lazymatch goal with
  | |- zstep _ _ _ (ZTime ?l) _ => eapply z_time; [reflexivity|]; lazymatch l with RPass _ => eapply t_pass; simpl; lia | RBegin _ => eapply t_begin; reflexivity | RWake _ _ => eapply t_wake; [reflexivity|simpl; unfold deadline_from; lia] end
  | |- zstep _ _ _ (ZBegin _) _ => eapply z_begin; reflexivity
  | |- zstep _ _ _ ZStart _ => eapply z_start; reflexivity
  | |- zstep _ _ _ (ZCheck _ _) _ => eapply z_check; reflexivity
  | |- zstep _ _ _ (ZResync _) _ => eapply z_resync; reflexivity
  | |- zstep _ _ _ (ZCancel _) _ => eapply z_cancel; discriminate
  end.
Lemma rs_case : reach (zstep 1 10) (z_init 0) rs_trace rs_state ∧ check_times rs_trace = [10; 23] ∧ waiting (reverse rs_trace).
Proof. split; [|by vm_compute]. unfold rs_trace. repeat do_step rs. constructor. Qed.
(** two lists, 8 apart *)
Definition rs_short : list zlabel :=
  [ZBegin 0; ZStart; ZTime (RBegin 0); ZTime (RPass 8); ZCancel 8; ZBegin 8; ZStart; ZTime (RBegin 8); ZTime (RPass 16); ZCancel 16].
Lemma rs_short_case : (∃ s, reach (zstep 1 10) (z_init 0) rs_short s) ∧
  (∀ l1 l l2 a, rs_short = l1 ++ l :: l2 → episode (reverse l1) = Some a → zclock 0 l1 + 1 <= a + Z.max 0 10) ∧ zclock 0 rs_short = 16 ∧ check_times rs_short = [].
Proof.
  split; [eexists; unfold rs_short; repeat do_step rs; constructor|]. split; [|split; done].
  intros l1 l l2 a E. unfold rs_short in E.
  repeat (destruct l1 as [|x l1]; [vm_compute; first [discriminate|intros [= <-]; discriminate]|injection E as <- E]); by destruct l1.
Qed.
(** a handler that asks for 5, checked every 4 or 5 *)
Definition rs_hops : list (hop nat (nat * nat)) := [HRun; HShouldResync 4; HShouldResync 9; HShouldResync 13; HShouldResync 18].
Lemma rs_latency_case : ∃ s1 h s, sh_step sh_init (HRegister (Some 5) 0) = (s1, HNone) ∧ exec sh_step s1 h s ∧ h.*1 = rs_hops ∧ effective 1 10 false 10 (Some 5) = 5 ∧
  every 5 0 (checks h) ∧ 23 <= default 0 (last (checks h)) + 5 ∧ checks h = [4; 9; 13; 18] ∧ last_resync 5 0 (checks h) = 18.
Proof.
  eexists. exists (run sh_step (sh_step sh_init (HRegister (Some 5) 0)).1 rs_hops).2. eexists. split; [vm_compute; reflexivity|].
  split; [apply exec_check; vm_compute; reflexivity|]. vm_compute. repeat split; discriminate.
Qed.
