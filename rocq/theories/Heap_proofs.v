(** Lemmas for Heap_props.v. *)
From Verif Require Import Base WaitPQ_model WaitPQ_spec WaitPQ_proofs Heap_model Heap_spec.
From Coq Require Import ZArith Lia ZifyBool ZifyNat Sorted.
Local Open Scope nat_scope.
Ltac Zify.zify_post_hook ::= Z.to_euclidean_division_equations.

Lemma parent_child c p : 0 < c → parent c = p ↔ c = 2 * p + 1 ∨ c = 2 * p + 2.
Proof. unfold parent. lia. Qed.
Lemma parent_lt i : 0 < i → parent i < i.
Proof. unfold parent. lia. Qed.
Lemma ins_Permutation {E} (x y : E) h i : h !! i = Some y → x :: h ≡ₚ y :: <[i:=x]> h.
Proof.
  revert i. induction h as [|z h IH]; intros [|i] Hi; simplify_eq/=; [apply Permutation_swap|]. rewrite Permutation_swap, (IH i) by done. apply Permutation_swap.
Qed.
Lemma swap_Permutation {E} (new p : E) h i j : i ≠ j → i < length h → h !! j = Some p → <[j:=new]> (<[i:=p]> h) ≡ₚ <[i:=new]> h.
Proof.
  intros Hne Hlt Hj. destruct (lookup_lt_is_Some_2 _ _ Hlt) as [g Hi]. pose proof (ins_Permutation new g h i Hi) as H1. pose proof (ins_Permutation p g h i Hi) as H2.
  pose proof (ins_Permutation new p (<[i:=p]> h) j ltac:(by rewrite list_lookup_insert_ne)) as H3.
  apply (Permutation_cons_inv (a:=p)). apply (Permutation_cons_inv (a:=g)). rewrite <-H3. rewrite (Permutation_swap new g), <-H2, (Permutation_swap p new), H1. apply Permutation_swap.
Qed.

Section heapq.
  Context {E K : Type} (lt : E → E → option bool) (key : E → K) (HO : orders lt key).
  Implicit Types h v : list E.
  Definition heaped v : Prop := ∀ i x y, 0 < i → v !! i = Some x → v !! parent i = Some y → lt x y = Some false.
  Lemma heaped_ordered v : heaped v ↔ heap_ordered lt v.
  Proof.
    split.
    - intros H k x y c Hk Hc Hy. apply (H c y x); [lia|done|]. by rewrite (proj2 (parent_child c k ltac:(lia)) Hc).
    - intros H i x y Hi Hx Hy. eapply H; [exact Hy| |exact Hx]. by apply parent_child.
  Qed.
  Definition almost v pos : Prop :=
    (∀ i x y, 0 < i → i ≠ pos → v !! i = Some x → v !! parent i = Some y → lt x y = Some false) ∧
    (0 < pos → ∀ c x y, 0 < c → parent c = pos → v !! c = Some x → v !! parent pos = Some y → lt x y = Some false).
  Lemma keys_ne v i j x y : NoDup (key <$> v) → i ≠ j → v !! i = Some x → v !! j = Some y → key x ≠ key y.
  Proof. intros Hn Hne Hi Hj He. apply Hne. eapply (NoDup_lookup (key <$> v)); [done|rewrite list_lookup_fmap, Hi; done|rewrite list_lookup_fmap, Hj; simpl; by rewrite He]. Qed.

  Lemma siftdown_ok n new h pos : pos ≤ n → pos < length h → NoDup (key <$> <[pos:=new]> h) → almost (<[pos:=new]> h) pos →
    ∃ h', siftdown lt n new h pos = Some h' ∧ heaped h' ∧ h' ≡ₚ <[pos:=new]> h.
  Proof.
    revert h pos. induction n as [|n IH]; intros h pos Hn Hlt Hk [Ha Hb]; simpl.
    { eexists. split; [done|]. split; [|done]. intros i x y Hi. apply Ha; lia. }
    case_decide as Hp. { eexists. split; [done|]. split; [|done]. intros i x y Hi. apply Ha; lia. }
    pose proof (parent_lt pos ltac:(lia)) as Hpp. destruct (lookup_lt_is_Some_2 h (parent pos) ltac:(lia)) as [p Hparent]. rewrite Hparent.
    assert (Hv0 : <[pos:=new]> h !! pos = Some new) by (by apply list_lookup_insert).
    assert (Hv1 : <[pos:=new]> h !! parent pos = Some p) by (rewrite list_lookup_insert_ne; [done|lia]).
    destruct (o_answers _ _ HO new p) as [b Hb2]; [eapply keys_ne; [exact Hk| |exact Hv0|exact Hv1]; lia|]. rewrite Hb2. destruct b.
    2:{ eexists. split; [done|]. split; [|done]. intros i x y Hi Hx Hy. destruct (decide (i = pos)) as [->|Hne]; [congruence|]. by eapply Ha. }
    assert (HP : <[parent pos:=new]> (<[pos:=p]> h) ≡ₚ <[pos:=new]> h) by (apply swap_Permutation; [lia|done|done]).
    assert (Hk' : NoDup (key <$> <[parent pos:=new]> (<[pos:=p]> h))) by (by rewrite HP).
    set (w := <[parent pos:=new]> (<[pos:=p]> h)) in *.
    assert (Hwpos : w !! pos = Some p) by (subst w; rewrite list_lookup_insert_ne by lia; by apply list_lookup_insert).
    assert (Hwpp : w !! parent pos = Some new) by (subst w; apply list_lookup_insert; rewrite insert_length; lia).
    assert (Hwo : ∀ i, i ≠ pos → i ≠ parent pos → w !! i = <[pos:=new]> h !! i) by (intros i H1 H2; subst w; rewrite list_lookup_insert_ne, !list_lookup_insert_ne by done; done).
    destruct (IH (<[pos:=p]> h) (parent pos)) as (h' & H1 & H2 & H3).
    - lia.
    - rewrite insert_length. lia.
    - done.
    - fold w. split.
      + intros i x y Hi Hne Hx Hy. destruct (decide (i = pos)) as [->|Hip].
        * rewrite Hwpos in Hx. rewrite Hwpp in Hy. simplify_eq. by apply (o_asym _ _ HO).
        * assert (Hx' := Hx). rewrite Hwo in Hx' by done. destruct (decide (parent i = pos)) as [He|Hpn].
          -- rewrite He, Hwpos in Hy. simplify_eq. by eapply (Hb ltac:(lia) i).
          -- destruct (decide (parent i = parent pos)) as [He|Hpn2].
             ++ rewrite He, Hwpp in Hy. simplify_eq. eapply (o_trans _ _ HO y p x); [|by apply (o_asym _ _ HO)|eapply (Ha i); [done|done|done|by rewrite He]].
                eapply keys_ne; [exact Hk'| |exact Hwpp|exact Hx]. done.
             ++ rewrite Hwo in Hy by done. by eapply (Ha i).
      + intros Hpos c x y Hc He Hx Hy. pose proof (parent_lt (parent pos) Hpos) as Hgp. assert (Hy' := Hy). rewrite Hwo in Hy' by lia.
        destruct (decide (c = pos)) as [->|Hne].
        * rewrite Hwpos in Hx. simplify_eq. eapply (Ha (parent pos)); [done|lia|done|done].
        * assert (Hcp := parent_lt c Hc). rewrite He in Hcp. assert (Hx' := Hx). rewrite Hwo in Hx' by lia. assert (Hgg : parent (parent pos) ≠ c) by lia.
          eapply (o_trans _ _ HO y p x).
          -- eapply keys_ne; [exact Hk'|exact Hgg|exact Hy|exact Hx].
          -- eapply (Ha (parent pos)); [done|lia|done|done].
          -- eapply (Ha c); [done|done|done|by rewrite He].
    - exists h'. split; [done|]. split; [done|]. by rewrite H3.
  Qed.

  (** a hole at [pos] *)
  Definition holed h pos : Prop :=
    (∀ i x y, 0 < i → i ≠ pos → parent i ≠ pos → h !! i = Some x → h !! parent i = Some y → lt x y = Some false) ∧
    (0 < pos → ∀ c x y, 0 < c → parent c = pos → h !! c = Some x → h !! parent pos = Some y → lt x y = Some false).
  Lemma holed_move h pos c y : holed h pos → 0 < c → parent c = pos → pos < length h → h !! c = Some y →
    (∀ d x, 0 < d → d ≠ c → parent d = pos → h !! d = Some x → lt x y = Some false) → holed (<[pos:=y]> h) c.
  Proof.
    intros [Ha Hb] Hc0 Hcp Hlt Hc Hsib. pose proof (parent_lt c Hc0) as Hpc. rewrite Hcp in Hpc. split.
    - intros i x z Hi Hic Hpi Hx Hz. destruct (decide (i = pos)) as [->|Hne].
      + rewrite list_lookup_insert in Hx by done. injection Hx as <-. pose proof (parent_lt pos Hi). rewrite list_lookup_insert_ne in Hz by lia. by eapply (Hb Hi c).
      + rewrite list_lookup_insert_ne in Hx by done. destruct (decide (parent i = pos)) as [He|Hpn].
        * rewrite He, list_lookup_insert in Hz by done. injection Hz as <-. by eapply (Hsib i).
        * rewrite list_lookup_insert_ne in Hz by done. by eapply (Ha i).
    - intros _ d x z Hd He Hx Hz. rewrite Hcp, list_lookup_insert in Hz by done. injection Hz as <-. pose proof (parent_lt d Hd). rewrite list_lookup_insert_ne in Hx by lia.
      eapply (Ha d); [done|lia|lia|done|by rewrite He].
  Qed.
  Lemma siftup_ok n new h pos : length h ≤ n + pos → pos < length h → NoDup (key <$> <[pos:=new]> h) → holed h pos →
    ∃ h' q, siftup lt n h pos = Some (h', q) ∧ q < length h' ∧ almost (<[q:=new]> h') q ∧ <[q:=new]> h' ≡ₚ <[pos:=new]> h.
  Proof.
    revert h pos. induction n as [|n IH]; intros h pos Hn Hlt Hk Hh; [lia|]. cbn [siftup].
    assert (Hpl : parent (2 * pos + 1) = pos) by (apply parent_child; lia). assert (Hpr : parent (2 * pos + 2) = pos) by (apply parent_child; lia).
    destruct (h !! (2 * pos + 1)) as [l|] eqn:Hl.
    2:{ exists h, pos. split; [done|]. split; [done|]. split; [|done]. destruct Hh as [Ha Hb].
        assert (Hnc : ∀ c, 0 < c → parent c = pos → h !! c = None). { intros c Hc He. apply lookup_ge_None. apply lookup_ge_None in Hl. apply parent_child in He; [|done]. lia. }
        split.
        - intros i x y Hi Hne Hx Hy. rewrite list_lookup_insert_ne in Hx by done. destruct (decide (parent i = pos)) as [He|Hpn]; [by rewrite Hnc in Hx|]. rewrite list_lookup_insert_ne in Hy by done. by eapply (Ha i).
        - intros Hp c x y Hc He Hx Hy. pose proof (parent_lt c Hc). rewrite list_lookup_insert_ne in Hx by lia. by rewrite Hnc in Hx. }
    assert (Hgo : ∀ c y, 0 < c → parent c = pos → h !! c = Some y → (∀ d x, 0 < d → d ≠ c → parent d = pos → h !! d = Some x → lt x y = Some false) →
      ∃ h' q, siftup lt n (<[pos:=y]> h) c = Some (h', q) ∧ q < length h' ∧ almost (<[q:=new]> h') q ∧ <[q:=new]> h' ≡ₚ <[pos:=new]> h).
    { intros c y Hc Hcp Hy Hsib. pose proof (parent_lt c Hc) as Hpc. rewrite Hcp in Hpc. pose proof (lookup_lt_Some _ _ _ Hy) as Hclt.
      assert (HP : <[c:=new]> (<[pos:=y]> h) ≡ₚ <[pos:=new]> h) by (apply swap_Permutation; [lia|done|done]).
      destruct (IH (<[pos:=y]> h) c) as (h' & q & H1 & H2 & H3 & H4).
      - rewrite insert_length. lia.
      - by rewrite insert_length.
      - by rewrite HP.
      - by eapply holed_move.
      - exists h', q. split; [done|]. split; [done|]. split; [done|]. by rewrite H4. }
    assert (Hd : ∀ d, 0 < d → parent d = pos → d = 2 * pos + 1 ∨ d = 2 * pos + 2) by (intros d Hd He; by apply parent_child).
    destruct (h !! (2 * pos + 2)) as [r|] eqn:Hr.
    2:{ apply Hgo; [lia|done|done|]. intros d x Hd0 Hne He Hx. destruct (Hd d Hd0 He) as [->| ->]; [done|congruence]. }
    assert (key l ≠ key r) as Hlr by (eapply (keys_ne (<[pos:=new]> h) (2 * pos + 1) (2 * pos + 2)); [done|lia|rewrite list_lookup_insert_ne; [done|lia]..]).
    destruct (o_answers _ _ HO l r Hlr) as [[] Hb]; rewrite Hb; apply Hgo; try done; try lia; intros d x Hd0 Hne He Hx; destruct (Hd d Hd0 He) as [Hde|Hde]; try (by destruct (Hne Hde)); rewrite Hde in Hx.
    - assert (x = r) as -> by congruence. by apply (o_asym _ _ HO).
    - assert (x = l) as -> by congruence. done.
  Qed.

  Lemma hpush_ok e h : heap_ordered lt h → NoDup (key <$> (e :: h)) → ∃ h', hpush lt e h = Some h' ∧ heap_ordered lt h' ∧ h' ≡ₚ e :: h.
  Proof.
    rewrite <-heaped_ordered. intros Hh Hk. unfold hpush.
    assert (Hi : <[length h:=e]> (h ++ [e]) = h ++ [e]) by (apply list_insert_id; by rewrite lookup_app_r, Nat.sub_diag by lia).
    assert (HP : h ++ [e] ≡ₚ e :: h) by (symmetry; apply Permutation_cons_append).
    destruct (siftdown_ok (length h) e (h ++ [e]) (length h)) as (h' & H1 & H2 & H3); rewrite ?Hi in *.
    - done.
    - rewrite app_length. simpl. lia.
    - by rewrite HP.
    - split.
      + intros i x y Hi0 Hne Hx Hy. pose proof (lookup_lt_Some _ _ _ Hx) as Hlt. rewrite app_length in Hlt. simpl in Hlt. pose proof (parent_lt i Hi0).
        rewrite lookup_app_l in Hx by lia. rewrite lookup_app_l in Hy by lia. by eapply (Hh i).
      + intros Hp c x y Hc He Hx. apply lookup_lt_Some in Hx. rewrite app_length in Hx. simpl in Hx. pose proof (parent_lt c Hc). lia.
    - exists h'. split; [done|]. split; [by apply heaped_ordered|]. by rewrite H3.
  Qed.
  Lemma heaped_least v x : heaped v → NoDup (key <$> v) → v !! 0 = Some x → ∀ i y, 0 < i → v !! i = Some y → lt y x = Some false.
  Proof.
    intros Hh Hk H0 i. induction (lt_wf i) as [i _ IH]. intros y Hi Hy. pose proof (parent_lt i Hi) as Hp. destruct (decide (parent i = 0)) as [He|Hne].
    - apply (Hh i); [done..|]. by rewrite He.
    - destruct (lookup_lt_is_Some_2 v (parent i)) as [p Hpa]; [apply lookup_lt_Some in Hy; lia|]. apply (o_trans _ _ HO x p y).
      + eapply keys_ne; [exact Hk| |exact H0|exact Hy]. lia.
      + apply (IH (parent i)); [done|lia|done].
      + by apply (Hh i).
  Qed.
  Lemma hpop_ok h : heap_ordered lt h → NoDup (key <$> h) → h ≠ [] →
    ∃ x h', hpop lt h = Some (x, h') ∧ head h = Some x ∧ heap_ordered lt h' ∧ h ≡ₚ x :: h' ∧ ∀ y, y ∈ h' → lt y x = Some false.
  Proof.
    intros Hh%heaped_ordered Hk Hne. destruct h as [|l h1 _] using rev_ind; [done|]. unfold hpop. rewrite last_snoc, removelast_last.
    destruct h1 as [|x h1].
    { exists l, []. split; [done|]. split; [done|]. split; [by intros ? ? ? ? ?|]. split; [done|]. by intros y ?%elem_of_nil. }
    set (h := x :: h1) in *. assert (Hh' : ∀ i y z, 0 < i → h !! i = Some y → h !! parent i = Some z → lt y z = Some false).
    { intros i y z Hi Hy Hz. apply (Hh i); [done|by apply lookup_app_l_Some|by apply lookup_app_l_Some]. }
    assert (HP : <[0:=l]> h ≡ₚ l :: h1) by done. assert (Hii : <[0:=l]> (<[0:=l]> h) = <[0:=l]> h) by done.
    assert (Hkl : NoDup (key <$> l :: h1)). { rewrite fmap_app in Hk. apply NoDup_app in Hk as (Hk1 & Hk2 & _). apply NoDup_cons in Hk1 as [Hk0 Hk1]. csimpl. apply NoDup_cons. split; [|done]. intros Hin. apply (Hk2 (key l)); [csimpl; by right|by left]. }
    destruct (siftup_ok (length h) l (<[0:=l]> h) 0) as (h2 & q & H1 & H2 & H3 & H4).
    - rewrite insert_length. lia.
    - simpl. lia.
    - done.
    - split; [|lia]. intros i y z Hi _ Hp Hy Hz. rewrite list_lookup_insert_ne in Hy by lia. rewrite list_lookup_insert_ne in Hz by done. by eapply Hh'.
    - rewrite H1. rewrite Hii in H4. destruct (siftdown_ok q l h2 q) as (h3 & H5 & H6 & H7); [done|done|by rewrite H4|done|]. rewrite H5.
      assert (HPP : h ++ [l] ≡ₚ x :: h3). { rewrite H7, H4. subst h. simpl. apply perm_skip. symmetry. apply Permutation_cons_append. }
      exists x, h3. split; [done|]. split; [done|]. split; [by apply heaped_ordered|]. split; [done|]. intros y Hy.
      assert (key x ≠ key y) as Hxy. { rewrite HPP in Hk. csimpl in Hk. apply NoDup_cons in Hk as [Hk _]. intros He. apply Hk. rewrite He. by apply elem_of_list_fmap_1. }
      assert (y ∈ h ++ [l]) as Hin by (rewrite HPP; by right). apply elem_of_list_lookup in Hin as [i Hi]. eapply (heaped_least _ x Hh Hk); [done| |exact Hi].
      destruct i as [|i]; [|lia]. simpl in Hi. congruence.
  Qed.
End heapq.

Section hpq.
  Context {A : Type} `{EqDecision A}.
  Notation entry := (Z * nat * option A)%type.
  Implicit Types (s t : pq A) (h l : list entry).
  Definition cnt (e : entry) : nat := e.1.2.
  Lemma list_lt_false (x y : entry) : list_lt x y = Some false ↔ (y.1.1 < x.1.1)%Z ∨ y.1.1 = x.1.1 ∧ y.1.2 < x.1.2.
  Proof.
    unfold list_lt. split.
    - repeat case_decide; intros He; simplify_eq; [right|left]; apply bool_decide_eq_false in He; lia.
    - intros Hc. repeat case_decide; try lia; f_equal; apply bool_decide_eq_false; lia.
  Qed.
  Lemma list_lt_true (x y : entry) : list_lt x y = Some true ↔ (x.1.1 < y.1.1)%Z ∨ x.1.1 = y.1.1 ∧ x.1.2 < y.1.2.
  Proof.
    unfold list_lt. split.
    - repeat case_decide; intros He; simplify_eq; [right|left]; apply bool_decide_eq_true in He; lia.
    - intros Hc. repeat case_decide; try lia; f_equal; apply bool_decide_eq_true; lia.
  Qed.
  Lemma list_lt_orders : orders (list_lt (A:=A)) cnt.
  Proof.
    split.
    - intros x y Hne. unfold list_lt, cnt in *. repeat case_decide; try done; by eexists.
    - intros x y ?%list_lt_true. apply list_lt_false. lia.
    - intros x y z _ ?%list_lt_false ?%list_lt_false. apply list_lt_false. lia.
  Qed.
  Lemma heads_agree x h' y l' : (∀ z, z ∈ h' → list_lt z x = Some false) → StronglySorted elt (y :: l') → x :: h' ≡ₚ y :: l' → x = y.
  Proof.
    intros Hx Hs HP. inversion Hs as [|? ? _ Hf]; subst. rewrite Forall_forall in Hf.
    assert (y ∈ x :: h') as [->|Hy]%elem_of_cons by (rewrite HP; left); [done|]. assert (x ∈ y :: l') as [->|Hxl]%elem_of_cons by (rewrite <-HP; left); [done|].
    specialize (Hx _ Hy). specialize (Hf _ Hxl). rewrite elt_iff in Hf. apply list_lt_false in Hx. lia.
  Qed.
  Definition lay h l : Prop := heap_ordered list_lt h ∧ StronglySorted elt l ∧ NoDup (counts l) ∧ h ≡ₚ l.
  Lemma lay_pop h y l : lay h (y :: l) → ∃ h', hpop list_lt h = Some (y, h') ∧ head h = Some y ∧ lay h' l ∧ length h = S (length h').
  Proof.
    intros (H1 & H2 & H3 & H4). destruct (hpop_ok list_lt cnt list_lt_orders h) as (x & h' & P1 & P2 & P3 & P4 & P5); [done|by rewrite H4|intros ->; by apply Permutation_nil_cons in H4|].
    assert (x = y) as ->. { eapply heads_agree; [exact P5|exact H2|]. by rewrite <-P4. }
    exists h'. split; [done|]. split; [done|]. split; [|by rewrite P4]. split; [done|]. inversion H2; subst. split; [done|]. csimpl in H3. apply NoDup_cons in H3 as [_ H3]. split; [done|].
    rewrite P4 in H4. by apply Permutation_cons_inv in H4.
  Qed.
  Lemma lay_nil h : lay h [] → h = [].
  Proof. intros (_ & _ & _ & HP). by apply Permutation_nil_r in HP. Qed.
  Lemma peek_lay n h l : length h ≤ n → lay h l → ∃ h', h_peek n h = Some (h', (peek_heap l).2) ∧ lay h' (peek_heap l).1.
  Proof.
    revert h l. induction n as [|n IH]; intros h l Hn HL.
    - destruct h; [|simpl in Hn; lia]. destruct l; [|destruct HL as (_ & _ & _ & HP); by apply Permutation_nil_cons in HP]. by exists [].
    - destruct l as [|[[p c] [d|]] l].
      + pose proof (lay_nil _ HL) as ->. by exists [].
      + destruct (lay_pop _ _ _ HL) as (h' & H1 & H2 & _). destruct h as [|x h]; simplify_eq/=. by eexists.
      + destruct (lay_pop _ _ _ HL) as (h' & H1 & H2 & H3 & H4). destruct h as [|x h]; simplify_eq/=. rewrite H1. apply IH; [lia|done].
  Qed.
  Lemma pop_lay n h l : length h ≤ n → lay h l → ∃ h', h_pop n h = Some (h', (pop_heap l).2) ∧ lay h' (pop_heap l).1.
  Proof.
    revert h l. induction n as [|n IH]; intros h l Hn HL.
    - destruct h; [|simpl in Hn; lia]. destruct l; [|destruct HL as (_ & _ & _ & HP); by apply Permutation_nil_cons in HP]. by exists [].
    - destruct l as [|[[p c] [d|]] l].
      + pose proof (lay_nil _ HL) as ->. by exists [].
      + destruct (lay_pop _ _ _ HL) as (h' & H1 & H2 & H3 & H4). destruct h as [|x h]; simplify_eq/=. rewrite H1. by eexists.
      + destruct (lay_pop _ _ _ HL) as (h' & H1 & H2 & H3 & H4). destruct h as [|x h]; simplify_eq/=. rewrite H1. apply IH; [lia|done].
  Qed.
  Lemma heappush_perm (e : entry) l : heappush e l ≡ₚ e :: l.
  Proof. induction l as [|x l IH]; simpl; [done|]. case_match; [done|]. rewrite IH. apply Permutation_swap. Qed.
  Lemma push_lay e h l : lay h l → (∀ c, c ∈ counts l → c ≠ cnt e) → ∃ h', hpush list_lt e h = Some h' ∧ lay h' (heappush e l).
  Proof.
    intros (H1 & H2 & H3 & H4) Hf. assert (Hni : cnt e ∉ counts l) by (intros Hin; by apply (Hf _ Hin)).
    destruct (hpush_ok list_lt cnt list_lt_orders e h) as (h' & P1 & P2 & P3); [done|rewrite H4; csimpl; by apply NoDup_cons|].
    exists h'. split; [done|]. split; [done|]. split.
    - apply heappush_sorted; [done|]. intros e' He. apply Hf. unfold counts. by apply (elem_of_list_fmap_1 (λ e : entry, e.1.2)).
    - split; [by apply nodup_counts_heappush|]. by rewrite P3, heappush_perm, H4.
  Qed.
  Lemma tomb_lay c h l : lay h l → lay (tombstone c h) (tombstone c l).
  Proof.
    intros (H1 & H2 & H3 & H4). split; [|split; [by apply tombstone_sorted|split; [by rewrite counts_tombstone|by apply fmap_Permutation]]].
    intros k x y j Hk Hj Hy. unfold tombstone in Hk, Hy. rewrite list_lookup_fmap in Hk, Hy. apply fmap_Some in Hk as (x' & Hk & ->). apply fmap_Some in Hy as (y' & Hy & ->).
    pose proof (H1 _ _ _ _ Hk Hj Hy) as Hlt. unfold list_lt in *. by repeat case_decide.
  Qed.
  Definition sim s t : Prop := lay (pq_heap s) (pq_heap t) ∧ pq_finder s = pq_finder t ∧ pq_count s = pq_count t ∧ pq_len s = pq_len t.
  Lemma h_push_sim d p s t : sim s t → (∀ c, c ∈ counts (pq_heap t) → c < pq_count t) → ∃ s', h_push d p s = Some s' ∧ sim s' (pq_push d p t).
  Proof.
    intros (H1 & H2 & H3 & H4) Hb. unfold h_push. rewrite H3. destruct (push_lay (p, pq_count t, Some d) _ _ H1) as (h' & -> & HL).
    { intros c Hc%Hb. unfold cnt. simpl. lia. }
    eexists. split; [done|]. unfold sim. simpl. rewrite H2, H4. done.
  Qed.
  Lemma hstep_sim ms s t o : R ms t → sim s t → ∃ s', hstep s o = (s', HOk (pqstep t o).2) ∧ sim s' (pqstep t o).1.
  Proof.
    intros HR (H1 & H2 & H3 & H4). pose proof (r_bound _ _ HR) as Hb. destruct o as [d p| | |]; simpl.
    - unfold h_insert, pq_insert. rewrite H2. destruct (dget d (pq_finder t)) as [old|].
      + unfold pq_remove. destruct (old.1 >? p)%Z; [|by exists s].
        destruct (h_push_sim d p (PQ (tombstone old.2 (pq_heap s)) (ddel d (pq_finder s)) (pq_count s) (pq_len s)) (PQ (tombstone old.2 (pq_heap t)) (ddel d (pq_finder t)) (pq_count t) (pq_len t))) as (s' & -> & HS).
        * split; [by apply tomb_lay|]. simpl. by rewrite H2.
        * simpl. by rewrite counts_tombstone.
        * by exists s'.
      + destruct (h_push_sim d p (PQ (pq_heap s) (pq_finder t) (pq_count s) (S (pq_len s))) (PQ (pq_heap t) (pq_finder t) (pq_count t) (S (pq_len t)))) as (s' & -> & HS).
        * split; [done|]. simpl. by rewrite H4.
        * done.
        * by exists s'.
    - destruct (peek_lay _ _ _ (le_n _) H1) as (h' & -> & HL). unfold pq_peek. destruct (peek_heap (pq_heap t)) as [l r]. by eexists.
    - destruct (pop_lay _ _ _ (le_n _) H1) as (h' & -> & HL). unfold pq_pop. destruct (pop_heap (pq_heap t)) as [l [d|]]; eexists; (split; [done|]); unfold sim; simpl; rewrite ?H2, ?H3, ?H4; done.
    - rewrite H4. by exists s.
  Qed.
  Lemma same_answers (h : list (pqop A * hres A)) s : exec hstep pq_init h s → ∃ (h' : list (pqop A * pqres A)) t, h = (λ e, (e.1, HOk e.2)) <$> h' ∧ exec pqstep pq_init h' t ∧ sim s t.
  Proof.
    intros He. enough (∃ (h' : list (pqop A * pqres A)) t ms, h = (λ e, (e.1, HOk e.2)) <$> h' ∧ exec pqstep pq_init h' t ∧ R ms t ∧ sim s t) as (h' & t & ms & ? & ? & _ & ?) by (by exists h', t).
    revert He. apply (exec_trace_inv hstep (λ (h : list (pqop A * hres A)) s, ∃ (h' : list (pqop A * pqres A)) t ms, h = (λ e, (e.1, HOk e.2)) <$> h' ∧ exec pqstep pq_init h' t ∧ R ms t ∧ sim s t)).
    - exists [], pq_init, []. split; [done|]. split; [constructor|]. split; [apply R_init|]. split; [|done]. split; [by intros k x y c ?|]. split; [constructor|]. split; [apply NoDup_nil_2|done].
    - clear. intros h s o He (h' & t & ms & -> & Ht & HR & HS). destruct (hstep_sim ms s t o HR HS) as (s' & -> & HS'). destruct (R_step ms t o HR) as (ms' & HR' & _).
      exists (h' ++ [(o, (pqstep t o).2)]), (pqstep t o).1, ms'. simpl. split; [by rewrite fmap_app|]. split; [|done]. apply exec_snoc. exists t. split; [done|]. by destruct (pqstep t o).
  Qed.
  Lemma same_as_sorted (h : list (pqop A * hres A)) s : exec hstep pq_init h s → ∃ (h' : list (pqop A * pqres A)) t, h = (λ e, (e.1, HOk e.2)) <$> h' ∧ exec pqstep pq_init h' t.
  Proof. intros (h' & t & ? & ? & _)%same_answers. by exists h', t. Qed.
  Lemma heap_refines (h : list (pqop A * hres A)) s : exec hstep pq_init h s → ∃ (h' : list (pqop A * pqres A)) m, h = (λ e, (e.1, HOk e.2)) <$> h' ∧ NoDup m.*1 ∧ pspecs [] h' m.
  Proof. intros (h' & t & -> & Ht & _)%same_answers. destruct (heap_refines_map _ _ Ht) as (m & ? & ?). by exists h', m. Qed.
  Lemma heap_kept (h : list (pqop A * hres A)) s : exec hstep pq_init h s → heap_ordered list_lt (pq_heap s) ∧ NoDup ((λ e, e.1.2) <$> pq_heap s).
  Proof. intros (h' & t & _ & _ & (H1 & _ & H3 & H4) & _)%same_answers. split; [done|]. by rewrite H4. Qed.
End hpq.

(** ** A case *)
Definition heap_demo : list (pqop nat * hres nat) :=
  (λ e, (e.1, HOk e.2)) <$> [(PInsert 1 50%Z, QNone); (PInsert 2 40%Z, QNone); (PInsert 3 30%Z, QNone); (PInsert 4 20%Z, QNone); (PInsert 5 40%Z, QNone); (PInsert 1 10%Z, QNone);
   (PInsert 6 30%Z, QNone); (PLen, QLen 6); (PPeek, QPrio 10%Z); (PPop, QData 1); (PPop, QData 4); (PPop, QData 3); (PPop, QData 6); (PPop, QData 2); (PPop, QData 5); (PPop, QKeyError)].
Lemma heap_demo_runs : ∃ s, exec hstep pq_init heap_demo s.
Proof. eexists. apply exec_check. vm_compute. reflexivity. Qed.
Lemma heap_demo_layout : ∃ s, exec hstep pq_init (take 7 heap_demo) s ∧ (λ e, e.1) <$> pq_heap s = [(10%Z, 5); (30%Z, 2); (20%Z, 3); (50%Z, 0); (40%Z, 4); (40%Z, 1); (30%Z, 6)].
Proof. eexists. split; [apply exec_check; vm_compute; reflexivity|]. vm_compute. reflexivity. Qed.
