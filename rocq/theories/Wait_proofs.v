From Verif Require Import Base Wait_model Wait_spec.
From Coq Require Import Qround.
From Coq Require Import ZArith QArith Qfield Lqa Lia.
Open Scope Q_scope.

Lemma is_zero_spec q : if is_zero q then q == 0 else ¬ q == 0.
Proof. unfold is_zero. destruct (Qeq_bool q 0) eqn:H; [by apply Qeq_bool_iff|]. by apply Qeq_bool_neq. Qed.
Lemma qlt_spec' a b : if qlt a b then a < b else b <= a.
Proof.
  unfold qlt. destruct (Qle_bool b a) eqn:H; simpl; [by apply Qle_bool_iff|]. destruct (Qlt_le_dec a b) as [|Hle]; [done|].
  apply Qle_bool_iff in Hle. congruence.
Qed.

(** ** C53 *)
Lemma jitter_bounds d f r : 0 <= d → 0 <= r → r < 1 →
  let f' := if Qle_bool f 0 then 1 else f in d <= jitter d f r ∧ jitter d f r <= d * (1 + f') ∧ (0 < d → jitter d f r < d * (1 + f')).
Proof.
  intros Hd Hr Hr1 f'. unfold jitter. fold f'. assert (Hf : 0 < f').
  { unfold f'. destruct (Qle_bool f 0) eqn:H; [lra|]. destruct (Qlt_le_dec 0 f) as [|Hle]; [done|]. apply Qle_bool_iff in Hle. congruence. }
  assert (0 <= r * f' * d) by (apply Qmult_le_0_compat; [apply Qmult_le_0_compat; lra|done]).
  assert (Hrf : r * f' < f') by nra. split; [lra|]. split; [nra|]. intros Hd0. nra.
Qed.
Lemma jitter_zero : ∃ f r, 0 < f ∧ 0 <= r ∧ r < 1 ∧ ¬ jitter 0 f r < 0 * (1 + f).
Proof. exists 1, 0. by repeat split. Qed.
Lemma jitter_proper a a' f r : a == a' → jitter a f r == jitter a' f r.
Proof. intros H. unfold jitter. rewrite H. reflexivity. Qed.

(** ** C51 *)
Lemma after_snoc b rs r : after b (rs ++ [r]) = (backoff_step (after b rs) r).1.
Proof. revert b. induction rs as [|r' rs IH]; intros b; [done|]. simpl. apply IH. Qed.
Lemma steps_of_lookup b rs k : steps_of b rs !! k = (λ r, (backoff_step (after b (take k rs)) r).2) <$> rs !! k.
Proof. revert b k. induction rs as [|r rs IH]; intros b [|k]; try done. simpl. apply IH. Qed.
Lemma steps_of_length b rs : length (steps_of b rs) = length rs.
Proof. revert b. induction rs as [|r rs IH]; intros b; [done|]. simpl. by rewrite IH. Qed.

Lemma passed_mono b k k' : (k <= k')%nat → passed b k → passed b k'.
Proof. intros Hk [Hc (j & Hj & Hg)]. split; [done|]. exists j. split; [lia|done]. Qed.
Lemma grown_S b k : grown b k * bo_factor b == grown b (S k).
Proof.
  unfold grown. simpl. ring.
Qed.

Definition shape b k (b' : backoff) : Prop :=
  let m := Nat.min k (Z.to_nat (bo_steps b)) in
  bo_factor b' = bo_factor b ∧ bo_jitter b' = bo_jitter b ∧ bo_cap b' = bo_cap b ∧
  if is_zero (bo_factor b) then bo_duration b' = bo_duration b ∧ (bo_steps b' = bo_steps b - Z.of_nat m)%Z else
  (passed b m ∧ bo_duration b' == bo_cap b ∧ bo_steps b' = 0%Z) ∨ (¬ passed b m ∧ bo_duration b' == grown b m ∧ (bo_steps b' = bo_steps b - Z.of_nat m)%Z).
Lemma shape_step b k b' r : shape b k b' → shape b (S k) (backoff_step b' r).1.
Proof.
  intros (Hf & Hj & Hc & Hs). unfold shape, backoff_step. destruct (Z.ltb_spec (bo_steps b') 1) as [Hlt|Hge]; cbn [fst].
  { split; [done|]. split; [done|]. split; [done|]. destruct (is_zero (bo_factor b)).
    { destruct Hs as [Hd Hst]. split; [done|]. rewrite Hst. lia. }
    destruct Hs as [(Hp & Hd & Hst)|(Hp & Hd & Hst)].
    - left. split; [|done]. eapply passed_mono; [|done]. lia.
    - right. assert (Nat.min (S k) (Z.to_nat (bo_steps b)) = Nat.min k (Z.to_nat (bo_steps b))) as -> by lia. done. }
  rewrite Hf, Hc. destruct (is_zero (bo_factor b)) eqn:Hz; cbn [negb fst bo_factor bo_jitter bo_cap bo_duration bo_steps].
  { destruct Hs as [Hd Hst]. split; [done|]. split; [done|]. split; [done|]. split; [done|]. lia. }
  destruct Hs as [(_ & _ & Hst)|(Hp & Hd & Hst)]; [lia|]. assert (Hkk : (k < Z.to_nat (bo_steps b))%nat) by lia.
  rewrite Nat.min_l in Hp, Hd, Hst by lia. rewrite Nat.min_l by lia.
  assert (Hg : bo_duration b' * bo_factor b == grown b (S k)) by (rewrite Hd; apply grown_S).
  pose proof (is_zero_spec (bo_cap b)) as Hcz. pose proof (qlt_spec' (bo_cap b) (bo_duration b' * bo_factor b)) as Hq.
  destruct (is_zero (bo_cap b)) eqn:Ez; cbn [negb andb fst bo_factor bo_jitter bo_cap bo_duration bo_steps].
  - split; [done|]. split; [done|]. split; [done|]. right. split; [by intros [? _]|]. split; [done|]. lia.
  - destruct (qlt (bo_cap b) (bo_duration b' * bo_factor b)) eqn:Eq; cbn [fst bo_factor bo_jitter bo_cap bo_duration bo_steps]; (split; [done|]); (split; [done|]); (split; [done|]).
    + left. split; [|done]. split; [done|]. exists (S k). split; [lia|]. lra.
    + right. split; [|split; [done|lia]]. intros [_ (j & Hj1 & Hjg)]. destruct (decide (j = S k)) as [->|]; [lra|]. apply Hp. split; [done|]. exists j. split; [lia|done].
Qed.
Lemma shape_after b rs : shape b (length rs) (after b rs).
Proof.
  induction rs as [|r rs IH] using rev_ind.
  - unfold shape. simpl. split; [done|]. split; [done|]. split; [done|]. destruct (is_zero (bo_factor b)); [split; [done|lia]|]. right. split; [intros [_ (j & ? & _)]; lia|]. split; [|lia].
    unfold grown. simpl. ring.
  - rewrite after_snoc, app_length, Nat.add_comm. by apply shape_step.
Qed.
Lemma step_returns b r : (backoff_step b r).2 = if negb (is_zero (bo_jitter b)) then jitter (bo_duration b) (bo_jitter b) r else bo_duration b.
Proof. unfold backoff_step. destruct (bo_steps b <? 1)%Z; [done|]. destruct (negb (is_zero (bo_factor b))); [|done]. by destruct (_ && _). Qed.
Lemma step_values b rs k r q : rs !! k = Some r → steps_of b rs !! k = Some q →
  ∃ v, step_value b k v ∧ q == if is_zero (bo_jitter b) then v else jitter v (bo_jitter b) r.
Proof.
  intros Hr Hq. rewrite steps_of_lookup, Hr in Hq. simpl in Hq. injection Hq as <-. rewrite step_returns.
  assert (Hlen : length (take k rs) = k) by (apply take_length_le; apply lookup_lt_Some in Hr; lia).
  pose proof (shape_after b (take k rs)) as (Hf & Hj & Hc & Hs). rewrite Hlen in Hs. set (b' := after b (take k rs)) in *. exists (bo_duration b'). split.
  - unfold step_value. destruct (is_zero (bo_factor b)); [by destruct Hs as [-> _]|]. destruct Hs as [(? & ? & _)|(? & ? & _)]; [by left|by right].
  - rewrite Hj. by destruct (is_zero (bo_jitter b)).
Qed.
Lemma steps_nonneg b rs : (0 <= bo_steps b)%Z → (0 <= bo_steps (after b rs) <= bo_steps b)%Z.
Proof.
  intros H. destruct (shape_after b rs) as (_ & _ & _ & Hs). destruct (is_zero (bo_factor b)); [destruct Hs as [_ ->]; lia|]. destruct Hs as [(_ & _ & ->)|(_ & _ & ->)]; lia.
Qed.
Lemma value_unique b k v v' : step_value b k v → step_value b k v' → v == v'.
Proof. unfold step_value. destruct (is_zero (bo_factor b)); [intros; lra|]. intros [[? ?]|[? ?]] [[? ?]|[? ?]]; [lra|done|done|lra]. Qed.
Lemma value_le_cap b k v : (1 <= k)%nat → (1 <= bo_steps b)%Z → ¬ bo_cap b == 0 → ¬ bo_factor b == 0 → step_value b k v → v <= bo_cap b.
Proof.
  intros Hk Hs Hc Hf. unfold step_value. pose proof (is_zero_spec (bo_factor b)) as Hz. destruct (is_zero (bo_factor b)); [done|].
  intros [[_ Hv]|[Hp Hv]]; [lra|]. rewrite Hv. apply Qnot_lt_le. intros Hlt. apply Hp. split; [done|]. eexists. split; [|exact Hlt]. lia.
Qed.
Lemma value_constant b k k' v v' : (k <= k')%nat → (bo_steps b <= Z.of_nat k)%Z ∨ passed b (Nat.min k (Z.to_nat (bo_steps b))) → step_value b k v → step_value b k' v' → v == v'.
Proof.
  intros Hk Hor. unfold step_value. destruct (is_zero (bo_factor b)); [intros; lra|].
  destruct Hor as [Hs|Hp].
  - assert (Nat.min k' (Z.to_nat (bo_steps b)) = Nat.min k (Z.to_nat (bo_steps b))) as -> by lia. intros [[? ?]|[? ?]] [[? ?]|[? ?]]; [lra|done|done|lra].
  - intros [[_ ?]|[? _]]; [|done]. intros [[_ ?]|[Hn _]]; [lra|]. destruct Hn. eapply passed_mono; [|done]. lia.
Qed.

(** ** C52 *)
Lemma outcome_cons r ins n out : outcome_ok ins n out → outcome_ok ((CFalse, r) :: ins) (S n) out.
Proof.
  destruct out; csimpl.
  - by intros ->.
  - intros (m & -> & Hm & Hl). exists (S m). csimpl. split; [done|]. by rewrite Hm.
  - intros (m & -> & Hm & Hl). exists (S m). csimpl. split; [done|]. by rewrite Hm.
  - intros ->. done.
Qed.
Lemma step_steps b r : (1 <= bo_steps b)%Z → (0 <= bo_steps (backoff_step b r).1 < bo_steps b)%Z ∧
  (bo_cap b == 0 ∨ bo_factor b == 0 → (bo_steps (backoff_step b r).1 = bo_steps b - 1)%Z).
Proof.
  intros H. unfold backoff_step. destruct (Z.ltb_spec (bo_steps b) 1); [lia|]. pose proof (is_zero_spec (bo_factor b)) as Hf. destruct (is_zero (bo_factor b)); simpl; [lia|].
  pose proof (is_zero_spec (bo_cap b)) as Hc. destruct (is_zero (bo_cap b)); simpl; [lia|]. destruct (qlt _ _); simpl; [|lia]. split; [lia|]. by intros [?|?].
Qed.
Lemma step_fixed b r : bo_factor (backoff_step b r).1 = bo_factor b ∧ bo_cap (backoff_step b r).1 = bo_cap b.
Proof. unfold backoff_step. destruct (_ <? _)%Z; [done|]. destruct (negb (is_zero (bo_factor b))); [|done]. by destruct (_ && _). Qed.

Lemma expo_loop_spec ins : ∀ bs c b bs' ev out, bs !! c = Some b → (0 <= bo_steps b)%Z → expo_loop bs c ins = (bs', ev, out) →
  (∀ j, j ≠ c → bs' !! j = bs !! j) ∧ (Z.of_nat (calls_of ev) <= bo_steps b)%Z ∧ outcome_ok ins (calls_of ev) out ∧
  (bo_steps b <= Z.of_nat (length ins) → out ≠ WRunning)%Z ∧
  sleeps_of ev = take (length (sleeps_of ev)) (steps_of b ins.*2) ∧ (length (sleeps_of ev) <= calls_of ev)%nat ∧
  (out = WReturned ∨ out = WRaised → calls_of ev = S (length (sleeps_of ev))) ∧
  (bo_cap b == 0 ∨ bo_factor b == 0 → out = WWaitTimeoutError → (Z.of_nat (calls_of ev) = bo_steps b)%Z ∧ length (sleeps_of ev) = (calls_of ev - 1)%nat).
Proof.
  induction ins as [|[a r] ins IH]; intros bs c b bs' ev out Hb Hs0 He; simpl in He; rewrite Hb in He.
  - destruct (Z.eqb_spec (bo_steps b) 0) as [Hz|Hz]; injection He as <- <- <-.
    + split; [done|]. split; [done|]. split; [done|]. split; [done|]. split; [done|]. split; [done|]. split; [by intros [?|?]|]. intros _ _. split; [|done]. rewrite Hz. done.
    + split; [done|]. split; [done|]. split; [done|]. split; [simpl; lia|]. split; [done|]. split; [done|]. split; [by intros [?|?]|done].
  - destruct (Z.eqb_spec (bo_steps b) 0) as [Hz|Hz].
    { injection He as <- <- <-. split; [done|]. split; [done|]. split; [done|]. split; [done|]. split; [done|]. split; [done|]. split; [by intros [?|?]|]. intros _ _. split; [|done]. rewrite Hz. done. }
    destruct a.
    + injection He as <- <- <-. split; [done|]. split; [cbn; lia|]. split; [exists 0%nat; done|]. split; [done|]. split; [done|]. split; [cbn; lia|]. split; [done|done].
    + destruct (Z.eqb_spec (bo_steps b) 1) as [H1|H1].
      { injection He as <- <- <-. split; [done|]. split; [cbn; lia|]. split; [done|]. split; [done|]. split; [done|]. split; [cbn; lia|]. split; [by intros [?|?]|]. intros _ _. split; [cbn; lia|done]. }
      destruct (backoff_step b r) as [b' d] eqn:Hst. destruct (expo_loop (<[c:=b']> bs) c ins) as [[bs1 ev1] out1] eqn:Hl. injection He as <- <- <-.
      destruct (step_steps b r ltac:(lia)) as [Hd1 Hd2]. destruct (step_fixed b r) as [Hd3 Hd4]. rewrite Hst in Hd1, Hd2, Hd3, Hd4. simpl in Hd1, Hd2, Hd3, Hd4.
      assert (Hb' : <[c:=b']> bs !! c = Some b') by (apply list_lookup_insert; by apply lookup_lt_Some in Hb).
      destruct (IH _ _ _ _ _ _ Hb' ltac:(lia) Hl) as (I1 & I2 & I3 & I4 & I5 & I6 & I7 & I8).
      assert (Hcall : calls_of (WCall :: WSleep d :: ev1) = S (calls_of ev1)) by (unfold calls_of; rewrite !countb_cons; done). rewrite Hcall.
      change (sleeps_of (WCall :: WSleep d :: ev1)) with (d :: sleeps_of ev1).
      split; [intros j Hj; rewrite I1 by done; by rewrite list_lookup_insert_ne|]. split; [lia|]. split; [by apply outcome_cons|]. split; [simpl; intros; apply I4; lia|].
      split; [|split; [simpl; lia|split; [simpl; intros Ho; f_equal; by apply I7|]]].
      * csimpl. rewrite Hst. cbn [fst snd]. f_equal. done.
      * intros Hcf Ho. rewrite <-Hd3, <-Hd4 in Hcf. destruct (I8 Hcf Ho) as [J1 J2]. rewrite Hd3, Hd4 in Hcf. specialize (Hd2 ltac:(tauto)). simpl. lia.
    + injection He as <- <- <-. split; [done|]. split; [cbn; lia|]. split; [exists 0%nat; csimpl; tauto|]. split; [done|]. split; [done|]. split; [cbn; lia|]. split; [done|done].
    + injection He as <- <- <-. split; [done|]. split; [cbn; lia|]. split; [exists 0%nat; csimpl; tauto|]. split; [done|]. split; [done|]. split; [cbn; lia|]. split; [done|done].
Qed.
Lemma expo_negative ins : ∀ bs c b, bs !! c = Some b → (bo_steps b < 0)%Z → (∀ i, i ∈ ins → i.1 = CFalse) → (expo_loop bs c ins).2 = WRunning.
Proof.
  induction ins as [|[a r] ins IH]; intros bs c b Hb Hs Hin; simpl; rewrite Hb.
  - destruct (Z.eqb_spec (bo_steps b) 0); [lia|done].
  - destruct (Z.eqb_spec (bo_steps b) 0); [lia|]. assert (a = CFalse) as -> by apply (Hin (a, r) ltac:(left)). destruct (Z.eqb_spec (bo_steps b) 1); [lia|].
    destruct (backoff_step b r) as [b' d] eqn:Hst. assert (Hb' : <[c:=b']> bs !! c = Some b') by (apply list_lookup_insert; by apply lookup_lt_Some in Hb).
    assert (bo_steps b' = bo_steps b) as Heq. { unfold backoff_step in Hst. destruct (Z.ltb_spec (bo_steps b) 1); [|lia]. by injection Hst as <- _. }
    specialize (IH _ _ _ Hb' ltac:(lia) ltac:(intros i Hi; apply Hin; by right)). destruct (expo_loop _ _ ins) as [[bs1 ev1] out1]. done.
Qed.

Lemma backoff_outcome bs c b ins bs' ev out : bs !! c = Some b → (0 <= bo_steps b)%Z → exponential_backoff bs c ins = (bs', ev, out) →
  (Z.of_nat (calls_of ev) <= bo_steps b)%Z ∧ outcome_ok ins (calls_of ev) out ∧ (bo_steps b <= Z.of_nat (length ins) → out ≠ WRunning)%Z.
Proof.
  intros Hb Hs He. unfold exponential_backoff in He. rewrite Hb in He. assert (Hb' : (bs ++ [b]) !! length bs = Some b) by (by apply list_lookup_middle).
  destruct (expo_loop_spec _ _ _ _ _ _ _ Hb' Hs He) as (_ & H1 & H2 & H3 & _). done.
Qed.
Lemma backoff_sleeps bs c b ins bs' ev out : bs !! c = Some b → (0 <= bo_steps b)%Z → exponential_backoff bs c ins = (bs', ev, out) →
  sleeps_of ev = take (length (sleeps_of ev)) (steps_of b ins.*2) ∧ (length (sleeps_of ev) <= calls_of ev)%nat ∧
  (out = WReturned ∨ out = WRaised → calls_of ev = S (length (sleeps_of ev))) ∧
  (bo_cap b == 0 ∨ bo_factor b == 0 → out = WWaitTimeoutError → (Z.of_nat (calls_of ev) = bo_steps b)%Z ∧ length (sleeps_of ev) = (calls_of ev - 1)%nat).
Proof.
  intros Hb Hs He. unfold exponential_backoff in He. rewrite Hb in He. assert (Hb' : (bs ++ [b]) !! length bs = Some b) by (by apply list_lookup_middle).
  destruct (expo_loop_spec _ _ _ _ _ _ _ Hb' Hs He) as (_ & _ & _ & _ & H). done.
Qed.
Lemma expo_loop_others ins : ∀ bs c j, j ≠ c → (expo_loop bs c ins).1.1 !! j = bs !! j.
Proof.
  induction ins as [|[a r] ins IH]; intros bs c j Hj; simpl; destruct (bs !! c) as [b|]; try done; destruct (bo_steps b =? 0)%Z; try done.
  destruct a; try done. destruct (bo_steps b =? 1)%Z; try done. destruct (backoff_step b r) as [b' d]. specialize (IH (<[c:=b']> bs) c j Hj).
  destruct (expo_loop _ c ins) as [[bs1 ev1] out1]. simpl in *. rewrite IH. by rewrite list_lookup_insert_ne.
Qed.
Lemma backoff_unchanged bs c ins j b : bs !! j = Some b → (exponential_backoff bs c ins).1.1 !! j = Some b.
Proof.
  intros Hj. unfold exponential_backoff. destruct (bs !! c) as [b'|] eqn:Hc; [|done]. pose proof (lookup_lt_Some _ _ _ Hj). rewrite expo_loop_others by lia. by rewrite lookup_app_l.
Qed.
Lemma backoff_never_ends bs c b ins : bs !! c = Some b → (bo_steps b < 0)%Z → (∀ i, i ∈ ins → i.1 = CFalse) → (exponential_backoff bs c ins).2 = WRunning.
Proof.
  intros Hb Hs Hin. unfold exponential_backoff. rewrite Hb. apply (expo_negative ins (bs ++ [b]) (length bs) b); [|done|done]. by apply list_lookup_middle.
Qed.

(** ** Polling *)
Lemma pinf_spec interval t calls out t' : 0 <= interval → poll_infinite interval t calls out t' →
  t + interval * inject_Z (Z.of_nat (length calls)) <= t' ∧ poll_calls interval t calls ∧ poll_answers calls out ∧ (∀ c, c ∈ calls → pc_end c <= t') ∧ (calls = [] → t' == t) ∧
  (∀ c, last calls = Some c → pc_end c = t').
Proof.
  intros Hint H. induction H as [t|t late dur calls out t' Hl Hd H IH|t late dur a Hl Hd Ha].
  - cbn [length]. split; [change (inject_Z (Z.of_nat 0)) with 0; lra|]. split; [done|]. split; [by intros c ?%elem_of_nil|]. split; [by intros c ?%elem_of_nil|]. split; [reflexivity|done].
  - destruct IH as (I1 & I2 & I3 & I4 & I5 & I6). cbn [length]. rewrite Nat2Z.inj_succ. unfold Z.succ. rewrite inject_Z_plus. split; [change (inject_Z 1) with 1; lra|].
    split; [simpl; split; [lra|split; [lra|done]]|]. split.
    { destruct out; simpl in *.
      - intros c [->|Hc]%elem_of_cons; [done|by apply I3].
      - destruct I3 as (cs & c & -> & Hc & Hcs). exists (PCall (t + interval + late) (t + interval + late + dur) (Some CFalse) :: cs), c. split; [done|]. split; [done|]. intros c' [->|?]%elem_of_cons; [done|by apply Hcs].
      - destruct I3 as (cs & c & -> & Hc & Hcs). exists (PCall (t + interval + late) (t + interval + late + dur) (Some CFalse) :: cs), c. split; [done|]. split; [done|]. intros c' [->|?]%elem_of_cons; [done|by apply Hcs].
      - done. }
    split; [|split; [done|]].
    + intros c [->|Hc]%elem_of_cons; [|by apply I4]. simpl. destruct calls as [|c' calls]; [rewrite I5 by done; lra|].
      specialize (I4 c' ltac:(left)). simpl in I2. lra.
    + intros c. destruct calls as [|c' calls]; [|rewrite last_cons_cons; apply I6]. intros [= <-]. simpl. inversion H; simplify_eq. done.
  - cbn [length]. change (inject_Z (Z.of_nat 1)) with 1. split; [lra|]. split; [simpl; split; [lra|split; [lra|done]]|]. split; [|split; [|split; [done|by intros c [= <-]]]].
    + destruct a; try done; simpl; exists []; eexists; (split; [done|]); (split; [simpl; tauto|]); by intros c ?%elem_of_nil.
    + intros c ->%elem_of_list_singleton. simpl. lra.
Qed.
Lemma poll_spec interval timeout t0 calls out t' : 0 <= interval → poll interval timeout t0 calls out t' →
  poll_calls interval t0 calls ∧ (t' <= t0 + timeout ∨ calls = [] ∧ t' = t0) ∧
  match out with
  | WRunning => False
  | WReturned => poll_answers calls WReturned
  | WRaised => poll_answers calls WRaised
  | WWaitTimeoutError =>
      (timeout <= 0 ∧ calls = []) ∨ (t' == t0 + timeout ∧ ∀ c, c ∈ calls → pc_answer c = Some CFalse ∨ pc_answer c = None) ∨
      (∃ cs c, calls = cs ++ [c] ∧ pc_answer c = Some CTimeout ∧ ∀ c', c' ∈ cs → pc_answer c' = Some CFalse)
  end.
Proof.
  intros Hint H. destruct H as [Ht|calls out t' Ht H Ho Hle|calls t' late Ht H Hl H1 H2|calls t' late dur Ht H Hl H1 H2].
  - split; [done|]. split; [by right|]. by left.
  - destruct (pinf_spec _ _ _ _ _ Hint H) as (_ & I2 & I3 & _). split; [done|]. split; [by left|]. destruct out; simpl in I3; [done|..|done].
    + destruct I3 as (cs & c & -> & Hc & Hcs). rewrite last_snoc. destruct c as [a b an]. simpl in Hc. rewrite Hc. by eexists cs, _.
    + destruct I3 as (cs & c & -> & Hc & Hcs). rewrite last_snoc. destruct c as [a b an]. simpl in Hc. destruct Hc as [-> | ->].
      * exists cs. eexists. split; [done|]. split; [by left|done].
      * right. right. by eexists cs, _.
  - destruct (pinf_spec _ _ _ _ _ Hint H) as (_ & I2 & I3 & _). split; [done|]. split; [left; lra|]. right. left. split; [lra|]. intros c Hc. left. by apply I3.
  - destruct (pinf_spec _ _ _ _ _ Hint H) as (_ & I2 & I3 & _ & I5 & I6). split; [|split; [left; lra|]].
    + assert (Hc : pc_start (PCall (t' + interval + late) (t0 + timeout) None) <= pc_end (PCall (t' + interval + late) (t0 + timeout) None)) by (simpl; lra).
      assert (Hs : t' + interval <= pc_start (PCall (t' + interval + late) (t0 + timeout) None)) by (simpl; lra). revert Hc Hs.
      generalize (PCall (t' + interval + late) (t0 + timeout) None) as x. clear -I2 I5 I6. intros x Hc Hs. revert t0 I2 I5 I6. induction calls as [|c calls IH]; intros t0 I2 I5 I6; simpl.
      * split; [|done]. rewrite <-I5 by done. done.
      * simpl in I2. destruct I2 as (J1 & J2 & J3). split; [done|]. split; [done|]. apply IH; [done| |].
        -- intros ->. by rewrite (I6 c).
        -- intros c' Hc'. apply I6. destruct calls; [done|]. by rewrite last_cons_cons.
    + right. left. split; [reflexivity|]. intros c [Hc| ->%elem_of_list_singleton]%elem_of_app; [left; by apply I3|by right].
Qed.
Lemma poll_count interval t0 calls : poll_calls interval t0 calls → ∀ c, last calls = Some c → t0 + interval * inject_Z (Z.of_nat (length calls)) <= pc_start c.
Proof.
  revert t0. induction calls as [|c calls IH]; intros t0; [done|]. intros (H1 & H2 & H3) c'. cbn [length]. rewrite Nat2Z.inj_succ. unfold Z.succ. rewrite inject_Z_plus. change (inject_Z 1) with 1.
  destruct calls as [|c1 calls].
  - intros [= <-]. cbn [length]. change (inject_Z (Z.of_nat 0)) with 0. lra.
  - rewrite last_cons_cons. intros Hl. specialize (IH _ H3 _ Hl). lra.
Qed.
Lemma poll_immediate_spec interval timeout t0 calls out t' : 0 <= interval → poll_immediate interval timeout t0 calls out t' →
  ∃ c cs, calls = c :: cs ∧ pc_start c = t0 ∧ t0 <= pc_end c ∧
    ((cs = [] ∧ t' = pc_end c ∧ poll_answers calls out ∧ out ≠ WRunning) ∨ (pc_answer c = Some CFalse ∧ poll interval timeout (pc_end c) cs out t')).
Proof.
  intros Hint H. destruct H as [dur a Hd Ha|dur calls out t' Hd H].
  - eexists _, _. split; [done|]. split; [done|]. split; [simpl; lra|]. left. split; [done|]. split; [done|]. destruct a; try done; (split; [|done]); simpl;
      exists []; eexists; (split; [done|]); (split; [simpl; tauto|]); by intros c ?%elem_of_nil.
  - eexists _, _. split; [done|]. split; [done|]. split; [simpl; lra|]. right. split; done.
Qed.

(** ** jitter_until *)
Lemma spaced_snoc sl p evs x : spaced sl p evs →
  match last evs, x with
  | None, UBegins _ => True
  | Some (UBegins t), UReturns t' => t <= t'
  | Some (UReturns t'), UBegins t => t' <= t ∧ (sl = true → t' + p <= t) ∧ (∀ e1 t0 t1, evs = e1 ++ [UBegins t0; UReturns t1] → t0 + p <= t)
  | _, _ => False
  end → spaced sl p (evs ++ [x]).
Proof.
  intros (H1 & H2 & H3) Hx. split; [|split].
  - intros e. destruct evs as [|e0 evs]; [|intros [= <-]; by apply H1]. intros [= <-]. destruct x; [by eexists|done].
  - intros e1 a b e2 He. destruct e2 as [|y e2 _] using rev_ind.
    + change (a :: [b]) with ([a] ++ [b]) in He. rewrite app_assoc in He. apply app_inj_tail in He as [-> ->]. rewrite last_snoc in Hx. destruct a, b; try done. tauto.
    + rewrite !app_comm_cons, app_assoc in He. apply app_inj_tail in He as [-> ->]. by eapply H2.
  - intros e1 t t1 t2 e2 He. destruct e2 as [|y e2 _] using rev_ind.
    + change (UBegins t :: UReturns t1 :: [UBegins t2]) with ([UBegins t; UReturns t1] ++ [UBegins t2]) in He. rewrite app_assoc in He. apply app_inj_tail in He as [-> ->].
      change [UBegins t; UReturns t1] with ([UBegins t] ++ [UReturns t1]) in Hx. rewrite app_assoc, last_snoc in Hx. destruct Hx as (_ & _ & Hx). eapply Hx. by rewrite <-app_assoc.
    + rewrite !app_comm_cons, app_assoc in He. apply app_inj_tail in He as [-> ->]. by eapply H3.
Qed.
Definition UInv g evs s : Prop :=
  spaced (u_sliding g) (u_period g) evs ∧
  match u_pc s with
  | UInit => evs = []
  | UCalling jp timer => ∃ t, last evs = Some (UBegins t) ∧ t <= u_now s ∧ u_period g <= jp ∧ timer = (if u_sliding g then None else Some (t + jp))
  | UWaiting timer => ∃ e1 t t', evs = e1 ++ [UBegins t; UReturns t'] ∧ t <= t' ∧ t' <= u_now s ∧ (if u_sliding g then t' + u_period g <= timer else t + u_period g <= timer)
  | _ => True
  end.
Lemma jp_ge g r : 0 <= u_period g → 0 <= r → u_period g <= (if qlt 0 (u_jitter g) then jitter (u_period g) (u_jitter g) r else u_period g).
Proof.
  intros Hp Hr. pose proof (qlt_spec' 0 (u_jitter g)) as Hq. destruct (qlt 0 (u_jitter g)); [|lra]. unfold jitter.
  assert (0 <= r * (if Qle_bool (u_jitter g) 0 then 1 else u_jitter g) * u_period g); [|lra].
  apply Qmult_le_0_compat; [|done]. apply Qmult_le_0_compat; [done|]. destruct (Qle_bool (u_jitter g) 0); lra.
Qed.
Lemma until_spaced g t0 stop ls s : randoms_ok g ls → reach (utrans g) (USt t0 stop UInit) ls s → spaced (u_sliding g) (u_period g) (uevents ls).
Proof.
  intros Hok Hr. enough (randoms_ok g ls → UInv g (uevents ls) s) as Hx by (by destruct (Hx Hok)). clear Hok. revert Hr.
  apply (reach_trace_inv (utrans g) (λ ls s, randoms_ok g ls → UInv g (uevents ls) s)).
  - intros _. split; [|done]. split; [done|]. split; [by intros [|? ?]|by intros [|? ?]].
  - clear ls s. intros ls s [l ev] s' _ IH [Hst Hev] [Hp Hok]. simpl in Hst, Hev.
    assert (IH' : UInv g (uevents ls) s). { apply IH. split; [done|]. intros l' Hl'. apply Hok. apply elem_of_app. by left. } clear IH.
    assert (Hl : match l with UStart r | UWake r => 0 <= r | _ => True end) by (apply (Hok (l, ev)); apply elem_of_app; right; by left).
    unfold uevents. rewrite omap_app. fold (uevents ls). csimpl. destruct IH' as [Hsp Hpc].
    assert (Htop : ∀ rnd, 0 <= rnd → l = UStart rnd ∨ l = UWake rnd → s' = u_top g s rnd →
      (uevents ls = [] ∨ ∃ e1 t t', uevents ls = e1 ++ [UBegins t; UReturns t'] ∧ t <= t' ∧ t' <= u_now s ∧ (u_stop s = false → if u_sliding g then t' + u_period g <= u_now s else t + u_period g <= u_now s)) →
      UInv g (uevents ls ++ match ev with Some x => [x] | None => [] end) s').
    { intros rnd Hrnd Hlab -> Hold. unfold u_top in *. destruct (u_stop s) eqn:Hstop.
      - assert (ev = None) as -> by (destruct Hlab as [-> | ->]; done). rewrite app_nil_r. split; [done|]. done.
      - assert (ev = Some (UBegins (u_now s))) as -> by (destruct Hlab as [-> | ->]; done). split; simpl.
        + apply spaced_snoc; [done|]. destruct Hold as [->|(e1 & t & t' & -> & H1 & H2 & H3)]; [done|]. specialize (H3 eq_refl).
          change [UBegins t; UReturns t'] with ([UBegins t] ++ [UReturns t']). rewrite app_assoc, last_snoc. split; [done|]. split; [intros Hsl; by rewrite Hsl in H3|].
          intros e1' t0' t1' He. rewrite <-app_assoc in He. simpl in He. change [UBegins t; UReturns t'] with ([UBegins t] ++ [UReturns t']) in He. change [UBegins t0'; UReturns t1'] with ([UBegins t0'] ++ [UReturns t1']) in He.
          rewrite !app_assoc in He. apply app_inj_tail in He as [He _]. apply app_inj_tail in He as [_ [= <-]]. destruct (u_sliding g); lra.
        + exists (u_now s). rewrite last_snoc. split; [done|]. split; [lra|]. split; [by apply jp_ge|done]. }
    inversion Hst as [s1 d Hd|s1|s1 rnd Hinit|s1 jp timer Hc|s1 jp timer Hc|s1 timer rnd Hw Hwake]; subst.
    + simpl. rewrite app_nil_r. split; [done|]. simpl. destruct (u_pc s); try done.
      * destruct Hpc as (t & ? & ? & ? & ?). exists t. split; [done|]. split; [lra|done].
      * destruct Hpc as (e1 & t & t' & ? & ? & ? & ?). exists e1, t, t'. split; [done|]. split; [done|]. split; [lra|done].
    + simpl. rewrite app_nil_r. split; done.
    + rewrite Hinit in Hpc. eapply Htop; [done|by left|done|by left].
    + rewrite Hc in Hpc. destruct Hpc as (t & Hlast & Ht & Hjp & ->). simpl. split; simpl.
      * apply spaced_snoc; [done|]. by rewrite Hlast.
      * destruct (uevents ls) as [|x evs _] using rev_ind; [done|]. rewrite last_snoc in Hlast. injection Hlast as ->. exists evs, t, (u_now s). rewrite <-app_assoc. split; [done|]. split; [done|]. split; [lra|].
        destruct (u_sliding g); lra.
    + simpl. rewrite app_nil_r. split; done.
    + rewrite Hw in Hpc. eapply Htop; [done|by right|done|]. right. destruct Hpc as (e1 & t & t' & -> & H1 & H2 & H3). exists e1, t, t'. split; [done|]. split; [done|]. split; [done|].
      intros Hs. destruct Hwake as [Ht|?]; [|congruence]. destruct (u_sliding g); lra.
Qed.
Lemma until_stops g s ls s' : u_stop s = true → reach (utrans g) s ls s' →
  (∀ t, UBegins t ∉ uevents ls) ∧ ∀ timer rnd, u_pc s' = UWaiting timer → utrans g s' (UWake rnd, None) (USt (u_now s') true UEnded).
Proof.
  intros Hs Hr. assert (u_stop s' = true ∧ ∀ t, UBegins t ∉ uevents ls) as [Hs' Hn].
  { revert Hr. apply (reach_trace_inv (utrans g) (λ ls s', u_stop s' = true ∧ ∀ t, UBegins t ∉ uevents ls)); [split; [done|]; by intros t ?%elem_of_nil|].
    clear ls s'. intros ls s1 [l ev] s2 _ [Hs1 Hn] [Hst Hev]. simpl in *. assert (u_stop s2 = true ∧ ∀ t, ev ≠ Some (UBegins t)) as [Hs2 Hne].
    { inversion Hst; subst; unfold u_top in *; rewrite ?Hs1 in *; split; done. }
    split; [done|]. intros t. unfold uevents. rewrite omap_app. intros [?|Hin]%elem_of_app; [by eapply Hn|]. csimpl in Hin. destruct ev as [e|]; [|by apply elem_of_nil in Hin].
    apply elem_of_list_singleton in Hin as <-. by eapply Hne. }
  split; [done|]. intros timer rnd Hw. split; simpl; [|done].
  assert (USt (u_now s') true UEnded = u_top g s' rnd) as ->; [unfold u_top; by rewrite Hs'|]. eapply us_wake; [done|by right].
Qed.
Lemma until_goes_on g s timer rnd : u_pc s = UWaiting timer → timer <= u_now s → u_stop s = false → ∃ s', utrans g s (UWake rnd, Some (UBegins (u_now s))) s'.
Proof.
  intros Hw Ht Hs. exists (u_top g s rnd). split; [eapply us_wake; [done|by left]|]. simpl. unfold u_top. by rewrite Hs.
Qed.

(** ** poll has an outcome *)
Section total.
  Context (interval D : Q) (late dur : nat → Q) (ans : nat → answer).
  Context (Hi : 0 < interval) (Hl : ∀ i, 0 <= late i) (Hd : ∀ i, 0 <= dur i).
  Definition answered (i : nat) (calls : list pcall) : Prop := ∀ k c, calls !! k = Some c → pc_answer c = Some (ans (i + k)) ∨ pc_answer c = None.
  Lemma answered_cons i c calls : pc_answer c = Some (ans i) → answered (S i) calls → answered i (c :: calls).
  Proof.
    intros Hc Hall [|k] c' Hk; simpl in Hk; [simplify_eq; left; by rewrite Nat.add_0_r|]. rewrite Nat.add_succ_r. by apply (Hall k).
  Qed.
  Lemma poll_inner_total m : ∀ t i, t <= D → D - t <= inject_Z (Z.of_nat m) * interval →
    (∃ calls out t', poll_infinite interval t calls out t' ∧ out ≠ WRunning ∧ t' <= D ∧ answered i calls) ∨
    (∃ calls t' l, poll_infinite interval t calls WRunning t' ∧ 0 <= l ∧ t' <= D ∧ D <= t' + interval + l ∧ answered i calls) ∨
    (∃ calls t' l d, poll_infinite interval t calls WRunning t' ∧ 0 <= l ∧ t' + interval + l <= D ∧ D <= t' + interval + l + d ∧ answered i calls).
  Proof.
    assert (Hnil : ∀ i, answered i []) by (intros i k c; by rewrite lookup_nil).
    induction m as [|m IH]; intros t i Ht Hm.
    { right; left. exists [], t, 0. split; [apply pinf_running|]. change (inject_Z (Z.of_nat 0)) with 0 in Hm. split; [lra|]. split; [done|]. split; [lra|done]. }
    specialize (Hl i) as Hli. specialize (Hd i) as Hdi. destruct (Qlt_le_dec (t + interval + late i) D) as [Ha|Ha].
    2:{ right; left. exists [], t, (late i). split; [apply pinf_running|]. by split_and!. }
    destruct (Qlt_le_dec D (t + interval + late i + dur i)) as [Hb|Hb].
    { right; right. exists [], t, (late i), (dur i). split; [apply pinf_running|]. split_and!; try done; lra. }
    assert (ans i = CFalse ∨ ans i ≠ CFalse) as [Ea|Ea] by (destruct (ans i); auto).
    - assert (HS : inject_Z (Z.of_nat (S m)) == inject_Z (Z.of_nat m) + 1).
      { rewrite Nat2Z.inj_succ. unfold Z.succ. by rewrite inject_Z_plus. }
      destruct (IH (t + interval + late i + dur i) (S i) Hb) as [(calls & out & t' & H1 & H2 & H3 & H4)|[(calls & t' & l & H1 & H2 & H3 & H4 & H5)|(calls & t' & l & d & H1 & H2 & H3 & H4 & H5)]].
      + rewrite HS in Hm. lra.
      + left. eexists _, out, t'. split; [apply (pinf_again interval t (late i) (dur i)); done|]. split_and!; try done. apply answered_cons; [simpl; by rewrite Ea|done].
      + right; left. eexists _, t', l. split; [apply (pinf_again interval t (late i) (dur i)); done|]. split_and!; try done. apply answered_cons; [simpl; by rewrite Ea|done].
      + right; right. eexists _, t', l, d. split; [apply (pinf_again interval t (late i) (dur i)); done|]. split_and!; try done. apply answered_cons; [simpl; by rewrite Ea|done].
    - left. eexists _, _, _. split; [apply (pinf_end interval t (late i) (dur i) (ans i)); done|]. split_and!; [by destruct (ans i)|done|]. by apply answered_cons.
  Qed.
End total.
Lemma answered_snoc ans i calls c : answered ans i calls → pc_answer c = None → answered ans i (calls ++ [c]).
Proof.
  intros Hall Hc k c' Hk. apply lookup_app_Some in Hk as [Hk|[_ Hk]]; [by apply (Hall k)|]. apply list_lookup_singleton_Some in Hk as [_ <-]. by right.
Qed.
Lemma poll_total interval timeout t0 (late dur : nat → Q) (ans : nat → answer) : 0 < interval → (∀ i, 0 <= late i) → (∀ i, 0 <= dur i) →
  ∃ calls out t', poll interval timeout t0 calls out t' ∧ ∀ k c, calls !! k = Some c → pc_answer c = Some (ans k) ∨ pc_answer c = None.
Proof.
  intros Hi Hl Hd. destruct (Qlt_le_dec 0 timeout) as [Ht|Ht].
  2:{ exists [], WWaitTimeoutError, t0. split; [by apply poll_zero|]. intros k c. by rewrite lookup_nil. }
  assert (∃ m, timeout <= inject_Z (Z.of_nat m) * interval) as [m Hm].
  { exists (Z.to_nat (Qceiling (timeout / interval))). rewrite Z2Nat.id.
    - pose proof (Qle_ceiling (timeout / interval)) as Hc.
      setoid_replace timeout with (timeout / interval * interval) at 1; [|field; lra]. apply Qmult_le_compat_r; [done|lra].
    - change 0%Z with (Qceiling 0). apply Qceiling_resp_le. apply Qle_shift_div_l; lra. }
  destruct (poll_inner_total interval (t0 + timeout) late dur ans Hi Hl Hd m t0 0) as [(calls & out & t' & H1 & H2 & H3 & H4)|[(calls & t' & l & H1 & H2 & H3 & H4 & H5)|(calls & t' & l & d & H1 & H2 & H3 & H4 & H5)]]; [lra|lra|..].
  - eexists calls, _, t'. split; [by eapply poll_done|]. apply H4.
  - eexists calls, _, _. split; [by eapply poll_cancelled_sleep|]. apply H5.
  - eexists _, _, _. split; [by eapply poll_cancelled_call|]. by apply (answered_snoc ans 0).
Qed.

(** ** Concrete runs *)
Definition bo_case : backoff := Backoff 1 2 0 5 6.
Lemma bo_case_values : steps_of bo_case [0; 0; 0; 0; 0; 0] = [1; 1 * 2; 1 * 2 * 2; 6; 6; 6] ∧ (∀ k q, steps_of bo_case [0; 0; 0; 0; 0; 0] !! k = Some q → (3 <= k)%nat → q == 6).
Proof. split; [by vm_compute|]. intros k q Hq Hk. do 6 (destruct k as [|k]; [try lia; injection Hq as <-; reflexivity|]). done. Qed.
Definition expo_case := exponential_backoff [Backoff (1#100) 1 (1#10) 5 0] 0 [(CFalse, 1#2); (CFalse, 1#4); (CTrue, 0)].
Lemma expo_case_runs : calls_of expo_case.1.2 = 3%nat ∧ length (sleeps_of expo_case.1.2) = 2%nat ∧ expo_case.2 = WReturned ∧
  bo_steps <$> expo_case.1.1 = [5; 3]%Z.
Proof. by vm_compute. Qed.
Lemma useless_sleep : ∃ bs ins bs' ev, exponential_backoff bs 0 ins = (bs', ev, WWaitTimeoutError) ∧ bo_steps <$> head bs = Some 5%Z ∧ ev = [WCall; WSleep 1].
Proof. exists [Backoff 1 10 0 5 5], [(CFalse, 0); (CTrue, 0)]. eexists _, _. by vm_compute. Qed.
Lemma negative_steps : ∃ b, (bo_steps b < 0)%Z ∧ ∀ ins, (∀ i, i ∈ ins → i.1 = CFalse) → (exponential_backoff [b] 0 ins).2 = WRunning.
Proof. exists (Backoff 1 2 0 (-1) 0). split; [done|]. intros ins Hin. by eapply backoff_never_ends. Qed.
Lemma poll_early_timeout : ∃ calls t', poll 1 10 0 calls WWaitTimeoutError t' ∧ t' == 1 ∧ length calls = 1%nat.
Proof.
  exists [PCall (0 + 1 + 0) (0 + 1 + 0 + 0) (Some CTimeout)], (0 + 1 + 0 + 0). split; [|split].
  - apply (poll_done 1 10 0 [PCall (0 + 1 + 0) (0 + 1 + 0 + 0) (Some CTimeout)] WRaised); [lra|apply (pinf_end 1 0 0 0 CTimeout); [lra|lra|done]|done|lra].
  - lra.
  - done.
Qed.
Lemma poll_case_runs : ∃ calls t', poll 1 10 0 calls WReturned t' ∧ length calls = 2%nat.
Proof.
  set (t := 0 + 1 + 0 + 0). exists [PCall (0 + 1 + 0) t (Some CFalse); PCall (t + 1 + 0) (t + 1 + 0 + 0) (Some CTrue)], (t + 1 + 0 + 0). split; [|done].
  apply (poll_done 1 10 0 [PCall (0 + 1 + 0) t (Some CFalse); PCall (t + 1 + 0) (t + 1 + 0 + 0) (Some CTrue)] WReturned); [lra| |done|unfold t; lra].
  apply (pinf_again 1 0 0 0); [lra|lra|]. apply (pinf_end 1 t 0 0 CTrue); [lra|lra|done].
Qed.
Lemma poll_cancelled_runs : ∃ calls, poll 1 3 0 calls WWaitTimeoutError (0 + 3) ∧ pc_answer <$> calls = [Some CFalse; None].
Proof.
  eexists. split.
  - eapply (poll_cancelled_call 1 3 0 [_] _ 0 5); [lra|eapply (pinf_again 1 0 0 (1#2)); [lra|lra|apply pinf_running]|lra|lra|lra].
  - done.
Qed.
Definition until_cfg := UCfg 10 0 true.
Lemma until_case_runs : ∃ ls s, reach (utrans until_cfg) (USt 0 false UInit) ls s ∧ randoms_ok until_cfg ls ∧ u_pc s = UEnded ∧
  uevents ls = [UBegins 0; UReturns (0 + 3); UBegins (0 + 3 + 10); UReturns (0 + 3 + 10)].
Proof.
  eexists _, _. split; [|split; [|split]].
  - eapply (reach_cons _ _ (UStart 0, _)); [split; [by apply us_start|done]|].
    eapply (reach_cons _ _ (ULater 3, _)); [split; [apply us_later; lra|done]|].
    eapply (reach_cons _ _ (UCallEnds true, _)); [split; [by eapply us_returns|done]|].
    eapply (reach_cons _ _ (ULater 10, _)); [split; [apply us_later; lra|done]|].
    eapply (reach_cons _ _ (UWake 0, _)); [split; [eapply us_wake; [done|left; simpl; lra]|done]|].
    eapply (reach_cons _ _ (UCallEnds true, _)); [split; [by eapply us_returns|done]|].
    eapply (reach_cons _ _ (USetStop, _)); [split; [apply us_stop|done]|].
    eapply (reach_cons _ _ (UWake 0, _)); [split; [eapply us_wake; [done|by right]|done]|]. apply reach_nil.
  - split; [by vm_compute|]. intros l Hl. repeat (apply elem_of_cons in Hl as [->|Hl]; [by vm_compute|]). by apply elem_of_nil in Hl.
  - done.
  - done.
Qed.
