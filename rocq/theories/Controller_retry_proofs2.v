(** A run meeting the hypotheses of C81: a reconcile fails, is repeated after the back-off, and succeeds. *)
From Verif Require Import Base WorkQueue_model WaitPQ_model DelayQueue_model DelayQueue_spec RateLimit_model Controller_model Controller_spec Controller_proofs3 Controller_live_spec DelayQueue_live_spec Controller_retry_spec.
From Coq Require Import ZArith QArith.
Local Open Scope nat_scope.

(** an executable version of some transitions *)
Inductive cmd := CTick (t : Z) | CAdd (x : nat) | CPut | CTop | CTake | CResumeLoop | CTimer | CGet | CRet (o : outcome) | CResume | CDone | CWake.
Definition qnext (q : dq nat) (c : cmd) : option (dlabel nat * dq nat) :=
  match c with
  | CTick t => if Z.leb (dq_now q) t then Some (DTick t, DQ t (dq_base q) (dq_stop q) (dq_puts q) (dq_incoming q) (dq_pq q) (dq_pc q)) else None
  | CAdd x => Some (DAdd x, with_base (wstep (dq_base q) (Add x)).1 q)
  | CPut => match dq_puts q with
            | e :: b => if Nat.ltb (length (dq_incoming q)) incoming_max
                        then Some (DPut, DQ (dq_now q) (dq_base q) (dq_stop q) b (dq_incoming q ++ [e]) (dq_pq q) (dq_pc q)) else None
            | [] => None
            end
  | CTop => match dq_pc q with LTop => Some (DLoopTop, loop_top q) | _ => None end
  | CTake => match dq_pc q, dq_incoming q with
             | LWait _, e :: rest => Some (DTake, DQ (dq_now q) (dq_base q) (dq_stop q) (dq_puts q) rest (dq_pq q) (LGot e))
             | _, _ => None
             end
  | CResumeLoop => match dq_pc q with LGot e => Some (DResume, loop_resume e q) | _ => None end
  | CTimer => match dq_pc q with LWait (Some t) => if Z.leb t (dq_now q) then Some (DWakeTimer, loop_wake q) else None | _ => None end
  | _ => None
  end.
Definition knext (s : kstate nat) (c : cmd) : option (klabel nat * kstate nat) :=
  match c with
  | CGet => match k_ws s with
            | [WIdle] => let '(b, r) := wstep (dq_base (k_q s)) Get in
                         Some (KGet 0 r (dq_now (k_q s)), K (with_base b (k_q s)) (handle_get always r (k_lim s)).1 (<[0:=(handle_get always r (k_lim s)).2]> (k_ws s)))
            | _ => None
            end
  | CRet o => match k_ws s with
              | [WRun x] => let '(ms, (q', p, a)) := handle x o 0 (k_q s) (k_lim s) in Some (KRet 0 x o 0 a, K q' ms (<[0:=p]> (k_ws s)))
              | _ => None
              end
  | CResume => match k_ws s with [WPut x r] => Some (KResume 0, set_w 0 (WFinish x r) s) | _ => None end
  | CDone => match k_ws s with
             | [WFinish x r] => let '(b, e) := wstep (dq_base (k_q s)) (Done x) in
                                Some (KDone 0 x e, K (with_base b (k_q s)) (k_lim s) (<[0:=match e with RKeyError => WCrashed | _ => after_done r end]> (k_ws s)))
             | _ => None
             end
  | CWake => match k_ws s with [WSleep] => Some (KWake 0, set_w 0 WIdle s) | _ => None end
  | c => match qnext (k_q s) c with Some (l, q') => Some (KEnv l, K q' (k_lim s) (k_ws s)) | None => None end
  end.
Lemma qnext_sound q c l q' : qnext q c = Some (l, q') → outside l ∧ dtrans q l q'.
Proof.
  destruct c; simpl; intros Hn; try done.
  - destruct (Z.leb_spec (dq_now q) t); [|done]. injection Hn as <- <-. split; [done|by constructor].
  - injection Hn as <- <-. split; [done|constructor].
  - destruct (dq_puts q) as [|e b] eqn:Hp; [done|]. destruct (Nat.ltb_spec (length (dq_incoming q)) incoming_max); [|done]. injection Hn as <- <-. split; [done|]. by apply (dt_put q e [] b).
  - destruct (dq_pc q) eqn:Hp; try done. injection Hn as <- <-. split; [done|by constructor].
  - destruct (dq_pc q) eqn:Hp; try done. destruct (dq_incoming q) eqn:Hi; try done. injection Hn as <- <-. split; [done|by econstructor].
  - destruct (dq_pc q) eqn:Hp; try done. injection Hn as <- <-. split; [done|by constructor].
  - destruct (dq_pc q) as [|[t|]| | |] eqn:Hp; try done. destruct (Z.leb_spec t (dq_now q)); [|done]. injection Hn as <- <-. split; [done|by econstructor].
Qed.
Lemma knext_sound s c l s' : knext s c = Some (l, s') → kstep always s l s'.
Proof.
  assert (∀ c, match qnext (k_q s) c with Some (l, q') => Some (KEnv l, K q' (k_lim s) (k_ws s)) | None => None end = Some (l, s') → kstep always s l s') as Henv.
  { intros c' Hn. destruct (qnext (k_q s) c') as [[l' q']|] eqn:Hq; [|done]. injection Hn as <- <-. apply qnext_sound in Hq as [? ?]. by constructor. }
  destruct c; intros Hn; [exact (Henv (CTick _) Hn)|exact (Henv (CAdd _) Hn)|exact (Henv CPut Hn)|exact (Henv CTop Hn)|exact (Henv CTake Hn)|exact (Henv CResumeLoop Hn)|exact (Henv CTimer Hn)|..]; simpl in Hn. all: clear Henv; destruct s as [q lim ws]; simpl in Hn; destruct ws as [|w []]; try done; destruct w as [|x|x r|x r| | |]; try done.
  - destruct (wq_get (dq_base q)) as [b g] eqn:Hg. injection Hn as <- <-. apply (k_get always (K q lim [WIdle]) 0 _ (with_base b q) (dq_now q)); [done|]. apply (dt_get q). simpl. by rewrite Hg.
  - destruct (handle x o 0 q lim) as [ms [[q' p] a]] eqn:Hh. injection Hn as <- <-. by apply (k_ret always (K q lim [WRun x]) 0 x o 0 ms q' p a).
  - injection Hn as <- <-. by apply (k_resume always (K q lim [WPut x r]) 0 x r).
  - destruct (match wq_done x (dq_base q) with Some _ => _ | None => _ end) as [b e] eqn:Hd. injection Hn as <- <-. apply (k_done always (K q lim [WFinish x r]) 0 x r (with_base b q) e); [done|]. by apply (dt_done q).
  - injection Hn as <- <-. by apply (k_wake always (K q lim [WSleep]) 0).
Qed.

Definition back : Z := 100000000.
Definition cmds : list cmd :=
  [CAdd 5; CGet; CRet ORaise; CPut; CTop; CTake; CResumeLoop; CTop; CResume; CDone; CWake; CGet;
   CTick back; CTimer; CTop; CGet; CRet (OResult false 0); CDone].
(** states and labels, most recent first *)
Fixpoint play (s : kstate nat) (cs : list cmd) : kstate nat * list (kstate nat * klabel nat) :=
  match cs with
  | [] => (s, [])
  | c :: cs => match knext s c with Some (l, s') => let '(z, r) := play s' cs in (z, (s, l) :: r) | None => (s, []) end
  end.
Definition first_part : list (kstate nat * klabel nat) := Eval vm_compute in (play (kinit 0 1) cmds).2.
Definition last_state : kstate nat := Eval vm_compute in (play (kinit 0 1) cmds).1.
(** then time passes while the worker waits *)
Definition tail_now (k : nat) : Z := (back + Z.of_nat (Nat.div2 (S k)))%Z.
Definition at_time (t : Z) (s : kstate nat) : kstate nat :=
  K (DQ t (dq_base (k_q s)) (dq_stop (k_q s)) (dq_puts (k_q s)) (dq_incoming (k_q s)) (dq_pq (k_q s)) (dq_pc (k_q s))) (k_lim s) (k_ws s).
Definition tail_st (k : nat) : kstate nat := at_time (tail_now k) last_state.
Definition tail_lb (k : nat) : klabel nat := if Nat.even k then KEnv (DTick (tail_now (S k))) else KGet 0 RBlocked (tail_now k).
Definition retry_st (n : nat) : kstate nat := match first_part !! n with Some (s, _) => s | None => tail_st (n - 18) end.
Definition retry_lb (n : nat) : klabel nat := match first_part !! n with Some (_, l) => l | None => tail_lb (n - 18) end.

Lemma tail_at k : retry_st (18 + k) = tail_st k ∧ retry_lb (18 + k) = tail_lb k.
Proof. unfold retry_st, retry_lb. rewrite lookup_ge_None_2 by (simpl; lia). replace (18 + k - 18) with k by lia. done. Qed.
Lemma split18 (P : nat → Prop) : (∀ n, n < 18 → P n) → (∀ k, P (18 + k)) → ∀ n, P n.
Proof. intros H1 H2 n. destruct (decide (n < 18)) as [|Hn]; [by apply H1|]. replace n with (18 + (n - 18)) by lia. apply H2. Qed.
Lemma below18 (P : nat → Prop) : Forall P (seq 0 18) → ∀ n, n < 18 → P n.
Proof. intros H n Hn. rewrite Forall_forall in H. apply H, elem_of_seq. lia. Qed.

Lemma tail_mono k : (tail_now k <= tail_now (S k))%Z.
Proof. unfold tail_now. assert (Nat.div2 (S k) ≤ Nat.div2 (S (S k))); [|lia]. rewrite !Nat.div2_div. by apply Nat.div_le_mono; [lia|lia]. Qed.
Lemma odd_now k : Nat.even k = false → tail_now (S k) = tail_now k.
Proof.
  intros He. unfold tail_now. assert (Nat.odd k = true) as Ho by (by rewrite <-Nat.negb_even, He). apply Nat.odd_spec in Ho as [j ->].
  replace (S (2 * j + 1)) with (2 * (S j)) by lia. replace (S (2 * S j)) with (S (2 * S j)) by lia. by rewrite Nat.div2_succ_double, Nat.div2_double.
Qed.
Lemma retry_runs : runs always retry_st retry_lb.
Proof.
  intros n. revert n. apply split18.
  - apply below18. cbn [seq]. repeat (apply Forall_cons; split); [..|apply Forall_nil; done].
    all: match goal with |- kstep _ (retry_st ?k) _ _ => let c := eval vm_compute in (nth k cmds CGet) in apply (knext_sound _ c) end; vm_compute; reflexivity.
  - intros k. destruct (tail_at k) as [-> ->], (tail_at (S k)) as [Hs _]. replace (S (18 + k)) with (18 + S k) by lia. rewrite Hs. unfold tail_lb. destruct (Nat.even k) eqn:He.
    + apply (k_env always (tail_st k) (DTick (tail_now (S k)))); [done|]. apply (dt_tick (k_q (tail_st k))). apply tail_mono.
    + unfold tail_st at 2. rewrite (odd_now _ He). fold (tail_st k). apply (k_get always (tail_st k) 0 RBlocked (k_q (tail_st k)) (tail_now k)); [done|]. by apply (dt_get (k_q (tail_st k)) (dq_base (k_q (tail_st k))) RBlocked).
Qed.
Lemma some_odd n : ∃ k, n ≤ 18 + k ∧ Nat.even k = false.
Proof. exists (2 * n + 1). split; [lia|]. by rewrite Nat.even_add, Nat.even_mul. Qed.
Lemma retry_fair : fair retry_st retry_lb.
Proof.
  intros j n p Hp. destruct (some_odd n) as (k & Hk & He). exists (18 + k). split; [done|]. left. destruct (tail_at k) as [_ ->]. unfold tail_lb. rewrite He. simpl.
  assert (length (k_ws (retry_st n)) = 1) as Hl; [|apply lookup_lt_Some in Hp; lia].
  clear. revert n. apply split18; [apply below18; cbn [seq]; repeat (apply Forall_cons; split; [vm_compute; reflexivity|]); by apply Forall_nil|]. intros k. by destruct (tail_at k) as [-> _].
Qed.
Lemma retry_serves : serves retry_st retry_lb.
Proof.
  split; [split; [|split; [|split]]|].
  - intros n. exists (18 + n). split; [lia|]. right. destruct (tail_at n) as [-> _]. intros l s Hl Ht. repeat (apply elem_of_cons in Hl as [->|Hl]; [by inversion Ht|]). by apply elem_of_nil in Hl.
  - intros n. exists (18 + n). split; [lia|]. right. intros k s Hk Ht. replace k with (18 + (k - 18)) in Ht by lia. destruct (tail_at (k - 18)) as [E _]. rewrite E in Ht. by inversion Ht.
  - intros n e. pose (P n := e ∈ dq_puts (k_q (retry_st n)) → ∃ m, n ≤ m ∧ head (to_queue (retry_lb m)) = Some DPut ∧ last (dq_incoming (k_q (retry_st (S m)))) = Some e). revert n. apply (split18 P); unfold P.
    + apply (below18 P). unfold P. cbn [seq]. repeat (apply Forall_cons; split); [..|by apply Forall_nil].
      all: match goal with |- context [dq_puts ?q] => let v := eval vm_compute in (dq_puts q) in change (dq_puts q) with v end; intros Hin; try (by apply elem_of_nil in Hin).
      apply elem_of_list_singleton in Hin as ->. exists 3. split; [lia|]. split; vm_compute; reflexivity.
    + intros k. destruct (tail_at k) as [-> _]. intros Hin. by apply elem_of_nil in Hin.
  - intros T. exists (18 + 2 * Z.to_nat T). destruct (tail_at (2 * Z.to_nat T)) as [-> _]. change (T <= tail_now (2 * Z.to_nat T))%Z. unfold tail_now. rewrite Nat.div2_succ_double. unfold back. lia.
  - apply split18; [apply below18; cbn [seq]; repeat (apply Forall_cons; split; [vm_compute; reflexivity|]); by apply Forall_nil|]. intros k. by destruct (tail_at k) as [-> _].
Qed.
Lemma retry_case : retry_st 0 = kinit 0 1 ∧ runs always retry_st retry_lb ∧ fair retry_st retry_lb ∧ serves retry_st retry_lb ∧ (∀ j k, retry_lb k ≠ KCancel j) ∧
  retry_lb 0 = KEnv (DAdd 5) ∧ retry_lb 2 = KRet 0 5 ORaise 0 (Some (back, 0%Z)) ∧ retry_lb 15 = KGet 0 (RItem 5) back ∧ failures_of always 5 (upto retry_lb 16) = 1 ∧ ended retry_lb 5 16 (OResult false 0).
Proof.
  split; [vm_compute; reflexivity|]. split; [exact retry_runs|]. split; [exact retry_fair|]. split; [exact retry_serves|]. split.
  - intros j. apply split18; [apply below18; cbn [seq]; repeat (apply Forall_cons; split; [vm_compute; discriminate|]); by apply Forall_nil|]. intros k. destruct (tail_at k) as [_ ->]. unfold tail_lb. by destruct (Nat.even k).
  - split_and!; try (vm_compute; reflexivity). unfold ended. eexists 0, _, _. vm_compute. reflexivity.
Qed.
