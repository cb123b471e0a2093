(** Further proofs about the text of records: texts that dumps did not write, the lock. *)
From Coq Require Import Ascii String Decimal.
From Verif Require Import Base RecordText_model RecordText_spec RecordText_proofs.
Local Open Scope Z_scope.

Notation proper := (Forall unicode_scalar).

Lemma unhex_range c v : unhex c = Some v → 0 ≤ v < 16.
Proof.
  unfold unhex, is_digit. destruct ((48 <=? c) && (c <=? 57)) eqn:E1; [apply andb_prop in E1 as [?%Z.leb_le ?%Z.leb_le]; intros [= <-]; lia|].
  destruct ((97 <=? c) && (c <=? 102)) eqn:E2; [apply andb_prop in E2 as [?%Z.leb_le ?%Z.leb_le]; intros [= <-]; lia|].
  destruct ((65 <=? c) && (c <=? 70)) eqn:E3; [apply andb_prop in E3 as [?%Z.leb_le ?%Z.leb_le]; intros [= <-]; lia|done].
Qed.
Lemma unhex4_range s p : unhex4 s = Some p → 0 ≤ p.1 < 65536 ∧ (proper s → proper p.2).
Proof.
  destruct s as [|a [|b [|c [|d s]]]]; try done. simpl. intros H.
  destruct (unhex a) eqn:Ea; [|done]. destruct (unhex b) eqn:Eb; [|done]. destruct (unhex c) eqn:Ec; [|done]. destruct (unhex d) eqn:Ed; [|done]. simpl in H. simplify_eq.
  apply unhex_range in Ea, Eb, Ec, Ed. simpl. split; [lia|]. intros H. do 4 (apply Forall_cons in H as [_ H]). done.
Qed.
Lemma plain_cons c s : plain (c :: s) ↔ code_point c ∧ plain s ∧ (∀ d s', s = d :: s' → high_surrogate c → low_surrogate d → False).
Proof.
  unfold plain. rewrite Forall_cons. split.
  - intros [[H1 H2] H3]. split; [done|]. split; [split; [done|intros i; apply (H3 (S i))]|]. intros d s' -> Hh Hl. by apply (H3 0%nat c d).
  - intros (H1&[H2 H3]&H4). split; [done|]. intros [|i] a b Ha Hb; [|by apply (H3 i)]. simpl in Ha. destruct s as [|d s]; [done|]. simpl in Hb. simplify_eq. by apply (H4 b s).
Qed.

(** the string read from a proper text; where a low surrogate at its head comes from *)
Lemma scanstring_plain n : ∀ s r rest, scanstring n s = Some (r, rest) → proper s →
  plain r ∧ proper rest ∧ (∀ d r', r = d :: r' → low_surrogate d → ∃ s' q, s = 92 :: 117 :: s' ∧ unhex4 s' = Some q ∧ q.1 = d).
Proof.
  induction n as [|n IH]; [done|]. intros s r rest H Hs. cbn [scanstring] in H. destruct s as [|c s]; [done|]. apply Forall_cons in Hs as [Hc Hs].
  destruct (decide (c = 34)) as [->|Hq].
  { simplify_eq. split; [|by split]. split; [constructor|done]. }
  (* one character that is no surrogate, then the rest *)
  assert (∀ d T, unicode_scalar d → proper T → (p ← scanstring n T; Some (d :: p.1, p.2)) = Some (r, rest) →
    plain r ∧ proper rest ∧ (∀ d r', r = d :: r' → low_surrogate d → ∃ s' q, c :: s = 92 :: 117 :: s' ∧ unhex4 s' = Some q ∧ q.1 = d)) as Hone.
  { intros d T (Hd&Hdh&Hdl) HT E. destruct (scanstring n T) as [[r1 rest1]|] eqn:E1; [|done]. simpl in E. simplify_eq. destruct (IH _ _ _ E1 HT) as (P1&P2&_).
    split; [|split; [done|]]; [|intros ?? [= <- <-]; done]. apply plain_cons. split; [done|]. split; [done|]. intros ???; done. }
  destruct (decide (c = 92)) as [->|].
  - destruct s as [|e s]; [done|]. apply Forall_cons in Hs as [He Hs]. destruct (decide (e = 117)) as [->|].
    + destruct (unhex4 s) as [p|] eqn:Eu; [|done]. destruct (unhex4_range _ _ Eu) as [Hr Hp]. specialize (Hp Hs). cbn [mbind option_bind] in H.
      (* a 16 bit escape followed by no low one *)
      assert (∀ T, proper T → (high p.1 = true → ∀ s' q, T = 92 :: 117 :: s' → unhex4 s' = Some q → low q.1 = true → False) →
        (p0 ← scanstring n T; Some (p.1 :: p0.1, p0.2)) = Some (r, rest) →
        plain r ∧ proper rest ∧ (∀ d r', r = d :: r' → low_surrogate d → ∃ s' q, 92 :: 117 :: s = 92 :: 117 :: s' ∧ unhex4 s' = Some q ∧ q.1 = d)) as Hu.
      { intros T HT Hno E. destruct (scanstring n T) as [[r1 rest1]|] eqn:E1; [|done]. simpl in E. simplify_eq. destruct (IH _ _ _ E1 HT) as (P1&P2&P3).
        split; [|split; [done|]]; [|intros ?? [= <- <-] _; by eexists _, _]. apply plain_cons. split; [unfold code_point; lia|]. split; [done|].
        intros d s' -> Hh Hl. destruct (P3 d s' eq_refl Hl) as (s''&q&->&Eq&<-). eapply Hno; [by apply high_spec|done|done|]. by apply low_spec. }
      destruct p as [p1 [|b [|u s']]]; cbn [fst snd] in *; [by apply (Hu []) in H|by apply (Hu [b]) in H|].
      destruct (high p1 && bool_decide (b = 92) && bool_decide (u = 117)) eqn:Ec.
      * apply andb_prop in Ec as [[Eh Eb%bool_decide_eq_true]%andb_prop Eu'%bool_decide_eq_true]. subst. destruct (unhex4 s') as [q|] eqn:Eq; [|done]. cbn [mbind option_bind] in H.
        destruct (unhex4_range _ _ Eq) as [Hqr Hqp]. do 2 apply Forall_cons in Hp as [_ Hp]. destruct (low q.1) eqn:El.
        -- eapply (Hone (65536 + (p1 - 55296) * 1024 + (q.1 - 56320)) q.2); [|by apply Hqp|done]. apply high_spec in Eh. apply low_spec in El. unfold unicode_scalar, code_point, high_surrogate, low_surrogate in *. lia.
        -- apply (Hu (92 :: 117 :: s')) in H; [done|by apply Forall_cons; split; [|apply Forall_cons]|]. intros _ ? ? [= <-]. rewrite Eq. intros [= <-]. congruence.
      * apply (Hu (b :: u :: s')) in H; [done|done|]. intros Eh ? ? [= -> -> ->]. rewrite Eh in Ec. by rewrite !bool_decide_eq_true_2 in Ec.
    + assert (∀ d, d ∈ [34; 92; 47; 8; 12; 10; 13; 9] → (p ← scanstring n s; Some (d :: p.1, p.2)) = Some (r, rest) → plain r ∧ proper rest ∧ (∀ d r', r = d :: r' → low_surrogate d → ∃ s' q, 92 :: e :: s = 92 :: 117 :: s' ∧ unhex4 s' = Some q ∧ q.1 = d)) as Hd.
      { intros d Hd E. apply (Hone d s); [|done|done]. set_unfold. unfold unicode_scalar, code_point, high_surrogate, low_surrogate. lia. }
      repeat (case_decide; [eapply Hd; [|exact H]; set_unfold; tauto|]). done.
  - destruct (c <? 32); [done|]. by apply (Hone c s).
Qed.

Lemma skip_proper s : proper s → proper (skip s).
Proof. induction 1 as [|c s Hc Hs IH]; simpl; [done|]. destruct (is_ws c); [done|by constructor]. Qed.
Lemma span_proper s : proper s → proper (span_digits s).2.
Proof. induction 1 as [|c s Hc Hs IH]; simpl; [done|]. destruct (is_digit c); [done|by constructor]. Qed.

Section more.
  Context {F : Type} (frepr : F → text) (fread : text → F).
  Notation json := (json F).
  Notation dumps := (dumps frepr).
  Notation scan := (scan fread).
  Notation scan_items := (scan_items fread).
  Notation scan_members := (scan_members fread).
  Notation loads := (loads fread).

  Lemma word_proper w s t : word w s = Some t → proper s → proper t.
  Proof.
    revert s. induction w as [|a w IH]; intros s; simpl; [by intros [= ->]|]. destruct s as [|b s]; [done|]. case_decide; [|done]. intros Hw [_ Hs]%Forall_cons. by eapply IH.
  Qed.
  Lemma number_proper s v t : scan_number fread s = Some (v, t) → proper s → plain_value v ∧ proper t.
  Proof.
    unfold scan_number. destruct (scan_int s) as [[i s1]|] eqn:Ei; [|done]. cbn [mbind option_bind fst snd]. intros H Hs.
    assert (proper s1) as H1.
    { unfold scan_int in Ei. assert (∀ sg s, proper s → match s with c :: s' => if decide (c = 48) then Some (sg ++ [c], s')
                 else if is_digit c then let p := span_digits s' in Some (sg ++ c :: p.1, p.2) else None | [] => None end = Some (i, s1) → proper s1) as Hi.
      { intros sg [|c s'] Hp; [done|]. apply Forall_cons in Hp as [_ Hp]. case_decide; [by intros; simplify_eq|]. destruct (is_digit c); [|done]. simpl. intros. simplify_eq. by apply span_proper. }
      destruct s as [|c s]; [done|]. case_decide; [apply Forall_cons in Hs as [_ Hs]|]; by apply (Hi _ _ Hs) in Ei. }
    assert (proper (scan_frac s1).2) as H2.
    { unfold scan_frac. destruct s1 as [|c s']; [done|]. case_decide; [|done]. pose proof H1 as H1'. apply Forall_cons in H1' as [_ H1']. apply span_proper in H1'.
      destruct (span_digits s') as [[|] ?]; done. }
    assert (proper (scan_exp (scan_frac s1).2).2) as H3.
    { revert H2. generalize (scan_frac s1).2 as s2. intros s2 H2. unfold scan_exp. destruct s2 as [|c s']; [done|]. case_decide; [|done]. pose proof H2 as H2'. apply Forall_cons in H2' as [_ H2'].
      destruct s' as [|d s'']; [done|]. case_decide.
      - apply Forall_cons in H2' as [_ H2']. apply span_proper in H2'. destruct (span_digits s'') as [[|] ?]; done.
      - apply span_proper in H2'. destruct (span_digits (d :: s'')) as [[|] ?]; done. }
    simplify_eq. split; [|done]. destruct (_ ++ _); constructor.
  Qed.
  Lemma atom_proper s v t : scan_atom fread s = Some (v, t) → proper s → plain_value v ∧ proper t.
  Proof.
    intros H Hs. unfold scan_atom in H.
    destruct (word (txt "null") s) eqn:E; [simplify_eq; split; [constructor|by eapply word_proper]|clear E].
    destruct (word (txt "true") s) eqn:E; [simplify_eq; split; [constructor|by eapply word_proper]|clear E].
    destruct (word (txt "false") s) eqn:E; [simplify_eq; split; [constructor|by eapply word_proper]|clear E].
    destruct (scan_number fread s) as [[]|] eqn:E; [simplify_eq; by eapply number_proper|clear E].
    destruct (word (txt "NaN") s) eqn:E; [simplify_eq; split; [constructor|by eapply word_proper]|clear E].
    destruct (word (txt "Infinity") s) eqn:E; [simplify_eq; split; [constructor|by eapply word_proper]|clear E].
    destruct (word (txt "-Infinity") s) eqn:E; [simplify_eq; split; [constructor|by eapply word_proper]|done].
  Qed.
  Lemma dset_keys (d : dict text json) k x : NoDup d.*1 → NoDup (dset k x d).*1 ∧ (∀ j, j ∈ (dset k x d).*1 → j = k ∨ j ∈ d.*1) ∧ (∀ p, p ∈ dset k x d → p = (k, x) ∨ p ∈ d).
  Proof.
    induction d as [|[k' x'] d IH]; simpl; intros Hn.
    - split; [apply NoDup_singleton|]. split; intros p; cbn [dset fmap list_fmap fst]; intros ->%elem_of_list_singleton; by left.
    - apply NoDup_cons in Hn as [Hk Hn]. destruct (IH Hn) as (I1&I2&I3). cbn [dset]. case_decide as Hd.
      + subst. simpl. split; [by constructor|]. split; [set_solver|]. intros p. rewrite !elem_of_cons. tauto.
      + simpl. split; [|split].
        * constructor; [|done]. intros [->|?]%I2; done.
        * intros j. rewrite !elem_of_cons. intros [->|?%I2]; tauto.
        * intros p. rewrite !elem_of_cons. intros [->|?%I3]; tauto.
  Qed.
  Lemma dict_of_keys (l : list (text * json)) : NoDup (dict_of l).*1 ∧ (∀ p, p ∈ dict_of l → p ∈ l).
  Proof.
    unfold dict_of. assert (∀ d : dict text json, NoDup d.*1 → NoDup (foldl (λ d p, dset p.1 p.2 d) d l).*1 ∧ (∀ p, p ∈ foldl (λ d p, dset p.1 p.2 d) d l → p ∈ d ∨ p ∈ l)) as H.
    { induction l as [|[k x] l IH]; intros d Hn; simpl; [tauto|]. destruct (dset_keys d k x Hn) as (D1&_&D3). destruct (IH _ D1) as [I1 I2]. split; [done|].
      intros p [?%D3|?]%I2; rewrite elem_of_cons; tauto. }
    destruct (H [] ltac:(constructor)) as [H1 H2]. split; [done|]. intros p [?%elem_of_nil|?]%H2; done.
  Qed.
  Lemma scan_plain n :
    (∀ s v t, scan n s = Some (v, t) → proper s → plain_value v ∧ proper t) ∧
    (∀ s l t, scan_items n s = Some (l, t) → proper s → (∀ y, y ∈ l → plain_value y) ∧ proper t) ∧
    (∀ s l t, scan_members n s = Some (l, t) → proper s → (∀ k y, (k, y) ∈ l → plain k ∧ plain_value y) ∧ proper t).
  Proof.
    induction n as [|n (IHv&IHi&IHm)]; [done|]. split; [|split].
    - intros s v t H Hs. rewrite scan_S in H. destruct s as [|c s]; [done|]. pose proof Hs as Hs0. apply Forall_cons in Hs as [_ Hs]. pose proof (skip_proper s Hs) as Hk.
      case_decide.
      { destruct (scanstring _ s) as [[r rest]|] eqn:E; [|done]. simpl in H. simplify_eq. destruct (scanstring_plain _ _ _ _ E Hs) as (P1&P2&_). split; [by constructor|done]. }
      case_decide.
      { destruct (skip s) as [|c1 s1]; [done|]. apply Forall_cons in Hk as [_ Hk]. case_decide.
        - simplify_eq. split; [|done]. constructor; [constructor|intros ? ?%elem_of_nil; done|intros ?? ?%elem_of_nil; done].
        - case_decide; [|done]. destruct (scan_members n s1) as [[l rest]|] eqn:E; [|done]. simpl in H. simplify_eq. destruct (IHm _ _ _ E Hk) as [P1 P2].
          destruct (dict_of_keys l) as [D1 D2]. split; [|done]. constructor; [done|intros k ([k' y]&->&Hin)%elem_of_list_fmap|intros k y Hin]; by eapply P1, D2. }
      case_decide; [|by eapply atom_proper].
      destruct (skip s) as [|c1 s1]; [done|]. case_decide.
      + apply Forall_cons in Hk as [_ Hk]. simplify_eq. split; [|done]. constructor. intros ? ?%elem_of_nil. done.
      + destruct (scan_items n (c1 :: s1)) as [[l rest]|] eqn:E; [|done]. simpl in H. simplify_eq. destruct (IHi _ _ _ E Hk) as [P1 P2]. split; [|done]. by constructor.
    - intros s l t H Hs. rewrite scan_items_S in H. destruct (scan n s) as [[x s1]|] eqn:E; [|done]. cbn [mbind option_bind fst snd] in H. destruct (IHv _ _ _ E Hs) as [P1 P2].
      apply skip_proper in P2. destruct (skip s1) as [|c s2]; [done|]. apply Forall_cons in P2 as [_ P2]. case_decide; [simplify_eq; split; [|done]; by intros y ->%elem_of_list_singleton|].
      case_decide; [|done]. destruct (scan_items n (skip s2)) as [[l2 s3]|] eqn:E2; [|done]. simpl in H. simplify_eq. destruct (IHi _ _ _ E2 (skip_proper _ P2)) as [Q1 Q2].
      split; [|done]. intros y [->|?]%elem_of_cons; [done|by apply Q1].
    - intros s l t H Hs. rewrite scan_members_S in H. destruct (scanstring _ s) as [[k s1]|] eqn:Ek; [|done]. cbn [mbind option_bind fst snd] in H.
      destruct (scanstring_plain _ _ _ _ Ek Hs) as (K1&K2&_). apply skip_proper in K2. destruct (skip s1) as [|c s2]; [done|]. apply Forall_cons in K2 as [_ K2]. case_decide; [|done].
      destruct (scan n (skip s2)) as [[x s3]|] eqn:E; [|done]. cbn [mbind option_bind fst snd] in H. destruct (IHv _ _ _ E (skip_proper _ K2)) as [P1 P2].
      apply skip_proper in P2. destruct (skip s3) as [|c4 s4]; [done|]. apply Forall_cons in P2 as [_ P2].
      case_decide; [simplify_eq; split; [|done]; intros ?? ?%elem_of_list_singleton; by simplify_eq|]. case_decide; [|done].
      apply skip_proper in P2. destruct (skip s4) as [|c5 s5]; [done|]. apply Forall_cons in P2 as [_ P2]. case_decide; [|done].
      destruct (scan_members n s5) as [[l2 s6]|] eqn:E2; [|done]. simpl in H. simplify_eq. destruct (IHm _ _ _ E2 P2) as [Q1 Q2].
      split; [|done]. intros k' y [?|?]%elem_of_cons; [by simplify_eq|by apply Q1].
  Qed.
  Lemma loads_plain s v : loads s = Some v → proper s → plain_value v.
  Proof.
    unfold RecordText_model.loads. case_decide; [done|]. destruct (scan _ (skip s)) as [[v' t]|] eqn:E; [|done]. cbn [mbind option_bind fst snd]. intros H1 H2.
    destruct (skip t); [|done]. simplify_eq. destruct (scan_plain (2 * length s + 2)) as (Hp&_&_). by apply (Hp _ _ _ E), skip_proper.
  Qed.
  Context (Hfc : float_codec frepr fread).
  Lemma loads_again s v : loads s = Some v → proper s → loads (dumps v) = Some v.
  Proof. intros H Hs. apply loads_dumps; [done|]. by eapply loads_plain. Qed.
  Lemma dumps_inj v w : plain_value v → plain_value w → dumps v = dumps w → v = w.
  Proof. intros Hv Hw E. pose proof (loads_dumps frepr fread Hfc v Hv) as H. rewrite E, loads_dumps in H by done. by simplify_eq. Qed.
  Lemma loads_str s t : Forall code_point s → joined s t → loads (dumps (JStr s)) = Some (JStr t).
  Proof.
    intros Hs Hj. unfold RecordText_model.loads. cbn [RecordText_model.dumps]. pose proof (quote_eq s []) as Hq. rewrite app_nil_r in Hq. rewrite Hq. rewrite decide_False by done.
    change (skip (34 :: body s ++ [34])) with (34 :: body s ++ [34]). set (L := length (34 :: body s ++ [34])). replace (2 * L + 2)%nat with (S (2 * L + 1)) by lia.
    rewrite scan_S. rewrite decide_True by done. rewrite (scan_body s t Hj Hs); [done|]. rewrite app_length. lia.
  Qed.
  (** dumps writes printable ASCII *)
  Lemma hex_printable d : 0 ≤ d < 16 → printable (hex d).
  Proof. intros. unfold hex, printable. destruct (d <? 10) eqn:E; [apply Z.ltb_lt in E|apply Z.ltb_ge in E]; lia. Qed.
  Lemma uescape_printable n : 0 ≤ n < 65536 → Forall printable (uescape n).
  Proof.
    intros Hn. repeat constructor; try (unfold printable; simpl; lia); apply hex_printable; first [apply Z.mod_pos_bound; lia|split; [apply Z.div_pos; lia|apply Z.div_lt_upper_bound; lia]].
  Qed.
  Lemma quote_printable s : Forall code_point s → Forall printable (quote s).
  Proof.
    intros Hs. unfold quote. apply Forall_app. split; [repeat constructor; unfold printable; lia|]. apply Forall_app. split; [|repeat constructor; unfold printable; lia].
    induction Hs as [|c s Hc _ IH]; [constructor|]. simpl. apply Forall_app. split; [|done].
    destruct (escape_cases c Hc) as [(->&Hp&_)|[(e&->&_&_&Hp&_)|[(->&?)|(->&?)]]].
    - by apply Forall_singleton.
    - apply Forall_cons. split; [unfold printable; lia|]. by apply Forall_singleton.
    - by apply uescape_printable.
    - unfold code_point in Hc. assert (0 ≤ (c - 65536) / 1024 < 1024) by (split; [apply Z.div_pos; lia|apply Z.div_lt_upper_bound; lia]).
      pose proof (Z.mod_pos_bound (c - 65536) 1024 ltac:(lia)). apply Forall_app. split; apply uescape_printable; lia.
  Qed.
  Lemma digits_printable ds : Forall digit ds → Forall printable ds.
  Proof. intros H. eapply Forall_impl; [exact H|]. intros. unfold digit, printable in *. lia. Qed.
  Lemma sign_printable sg : sg ∈ [txt ""; txt "+"; txt "-"] → Forall printable sg.
  Proof. intros Hs. set_unfold in Hs. destruct Hs as [->|[->|[->|[]]]]; repeat constructor; unfold printable; simpl; lia. Qed.
  Lemma frac_printable f : frac_part f → Forall printable f.
  Proof. intros [d ds Hd]. apply Forall_app. split; [repeat constructor; unfold printable; simpl; lia|by apply digits_printable]. Qed.
  Lemma exp_printable e : exp_part e → Forall printable e.
  Proof. intros [sg d ds Hd Hs]. rewrite !Forall_app. split; [repeat constructor; unfold printable; simpl; lia|]. split; [by apply sign_printable|by apply digits_printable]. Qed.
  Lemma float_printable t : float_literal t → Forall printable t.
  Proof.
    assert (∀ sg, sg ∈ [txt ""; txt "-"] → Forall printable sg) as Hsg by (intros sg ?; apply sign_printable; set_solver).
    intros [s Hs|sg i f Hs Hi Hf|sg i e Hs Hi He|sg i f e Hs Hi Hf He]; rewrite ?Forall_app; repeat split; try (by apply Hsg); try (by apply digits_printable, int_part_digit); try (by apply frac_printable); try (by apply exp_printable).
    set_unfold in Hs. destruct Hs as [->|[->|[->|[]]]]; repeat constructor; unfold printable; simpl; lia.
  Qed.
  Lemma irepr_printable z : Forall printable (irepr z).
  Proof. unfold irepr. apply Forall_app. split; [destruct (z <? 0); repeat constructor; unfold printable; lia|]. apply digits_printable, digits_digit. Qed.
  Lemma txt_printable v : plain_value v → Forall printable (dumps v).
  Proof.
    induction 1 as [|[]|z|f|s Hs|l Hl IH|l Hn Hk Hl IH]; try (repeat constructor; unfold printable; simpl; lia).
    - apply irepr_printable.
    - apply float_printable, Hfc.
    - apply quote_printable, Hs.
    - rewrite dumps_arr. rewrite !Forall_app. repeat split; [repeat constructor; unfold printable; lia| |repeat constructor; unfold printable; lia].
      clear Hl. induction l as [|x l IHl]; [constructor|]. assert (Forall printable (dumps x)) by (apply IH; by left).
      destruct l as [|y l]; [done|]. change (items frepr (x :: y :: l)) with (dumps x ++ txt ", " ++ items frepr (y :: l)). rewrite !Forall_app. split; [done|].
      split; [repeat constructor; unfold printable; simpl; lia|]. apply IHl. intros z Hz. apply IH. by right.
    - rewrite dumps_obj. rewrite !Forall_app. repeat split; [repeat constructor; unfold printable; lia| |repeat constructor; unfold printable; lia].
      clear Hn. induction l as [|[k x] l IHl]; [constructor|].
      assert (Forall printable (quote k ++ txt ": " ++ dumps x)) as Hkx.
      { rewrite !Forall_app. split; [apply quote_printable; apply (Hk k); by left|]. split; [repeat constructor; unfold printable; simpl; lia|]. apply (IH k x). by left. }
      destruct l as [|[k2 y] l]; [done|].
      assert (members frepr ((k, x) :: (k2, y) :: l) = (quote k ++ txt ": " ++ dumps x) ++ txt ", " ++ members frepr ((k2, y) :: l)) as -> by (cbn [members]; by rewrite <-!app_assoc).
      rewrite Forall_app. split; [done|]. rewrite Forall_app. split; [repeat constructor; unfold printable; simpl; lia|].
      apply IHl; intros; [apply Hk|eapply Hl|eapply IH]; by right.
  Qed.
End more.

(** ** The lock *)
Section lock.
  Context {F : Type} (frepr : F → text) (fread : text → F).
  Notation json := (json F).
  Notation dumps := (dumps frepr).
  Notation lock_get := (lock_get fread).

  Lemma get_plain a (r : json) t : lock_get a = Some (r, RrText t) → Forall unicode_scalar t → plain_value r.
  Proof.
    unfold RecordText_model.lock_get. destruct a as [[|p d]|]; [done| |done]. destruct (dget lock_key (p :: d)) as [[|c s]|]; [|cbn -[loads]|done].
    - intros [= <- <-] _. constructor. split; [constructor|done].
    - destruct (loads fread (c :: s)) eqn:E; [|done]. simpl. intros [= <- <-] Ht. by eapply loads_plain.
  Qed.
  Lemma ascii_plain (s : string) : plain (txt s).
  Proof.
    assert (∀ c, c ∈ txt s → 0 ≤ c < 256) as H.
    { induction s as [|a s IH]; simpl; [by intros c ?%elem_of_nil|]. intros c [->|Hc]%elem_of_cons; [|by apply IH].
      pose proof (N_ascii_bounded a). lia. }
    split.
    - apply Forall_forall. intros c Hc%H. unfold code_point. lia.
    - intros i c d Hc _ Hh _. apply elem_of_list_lookup_2, H in Hc. unfold high_surrogate in Hh. lia.
  Qed.
  Lemma elector_plain identity lease (renew : F) acquire transitions : plain identity → plain_value acquire → (∀ n, transitions = Some n → plain_value n) →
    plain_value (elector_record identity lease renew acquire transitions).
  Proof.
    intros Hi Ha Ht. unfold elector_record. destruct transitions as [n|]; constructor.
    - apply (bool_decide_unpack _). vm_compute. exact I.
    - intros k Hk. cbn [fmap list_fmap app fst] in Hk. repeat (apply elem_of_cons in Hk as [->|Hk]; [apply ascii_plain|]). by apply elem_of_nil in Hk.
    - intros k x Hk. cbn [app] in Hk. repeat (apply elem_of_cons in Hk as [Hk|Hk]; [simplify_eq; first [by constructor|done|by apply Ht]|]). by apply elem_of_nil in Hk.
    - apply (bool_decide_unpack _). vm_compute. exact I.
    - intros k Hk. cbn [fmap list_fmap app fst] in Hk. repeat (apply elem_of_cons in Hk as [->|Hk]; [apply ascii_plain|]). by apply elem_of_nil in Hk.
    - intros k x Hk. cbn [app] in Hk. repeat (apply elem_of_cons in Hk as [Hk|Hk]; [simplify_eq; first [by constructor|done]|]). by apply elem_of_nil in Hk.
  Qed.
  Lemma released_plain (n : json) : plain_value n → plain_value (released_record n).
  Proof.
    intros Hn. constructor.
    - apply NoDup_singleton.
    - intros k ->%elem_of_list_singleton. apply ascii_plain.
    - intros k x ?%elem_of_list_singleton. by simplify_eq.
  Qed.
  Lemma get_absent : lock_get None = Some (JNull, RrNone) ∧ lock_get (Some []) = Some (JObj [], RrEmptyDict) ∧
    (∀ d, d ≠ [] → dget lock_key d = None → lock_get (Some d) = Some (JNull, RrNone)) ∧
    (∀ d, dget lock_key d = Some [] → lock_get (Some d) = Some (JStr [], RrText [])) ∧ ∀ r, lock_update frepr None r = None.
  Proof.
    split; [done|]. split; [done|]. split; [|split; [|done]]; unfold RecordText_model.lock_get; intros [|p d]; try done; intros; destruct (dget lock_key (p :: d)); by simplify_eq.
  Qed.
  Context (Hfc : float_codec frepr fread).
  Lemma get_text (d : dict text text) (r : json) : dget lock_key d = Some (dumps r) → plain_value r → lock_get (Some d) = Some (r, RrText (dumps r)).
  Proof.
    intros Hd Hr. unfold RecordText_model.lock_get. destruct d as [|p d]; [done|]. rewrite Hd. destruct (dumps_head frepr fread Hfc r) as (c&s&E&_).
    rewrite E at 1. by rewrite loads_dumps.
  Qed.
  Lemma create_get (r : json) : plain_value r → lock_get (lock_create frepr r) = Some (r, RrText (dumps r)).
  Proof. intros Hr. by apply get_text. Qed.
  Lemma update_get (d : dict text text) (r : json) : plain_value r → ∃ d', lock_update frepr (Some d) r = Some (Some d') ∧
    lock_get (Some d') = Some (r, RrText (dumps r)) ∧ ∀ k, k ≠ lock_key → dget k d' = dget k d.
  Proof.
    intros Hr. eexists. split; [done|]. split; [apply get_text; [by rewrite dget_dset_eq|done]|]. intros k Hk. by rewrite dget_dset_ne.
  Qed.
  Lemma raw_same (r q : json) : plain_value r → plain_value q → dumps r = dumps q ↔ r = q.
  Proof. intros Hr Hq. split; [by apply (dumps_inj frepr fread Hfc)|by intros ->]. Qed.
End lock.

(** ** Cases *)
Lemma codec2 : float_codec frepr2 fread2.
Proof.
  intros []; (split; [|done]).
  - apply (fl_frac (txt "") (txt "1700000000") (txt ".25")); [set_unfold; auto| |].
    + apply ip_pos; [done|done|]. repeat constructor; done.
    + apply (frac_ 50 [53]). repeat constructor; done.
  - apply (fl_exp (txt "") (txt "1") (txt "e-05")); [set_unfold; auto| |].
    + apply ip_pos; [done|done|constructor].
    + apply (exp_ (txt "-") 48 [53]); [repeat constructor; done|set_unfold; auto].
Qed.
Lemma case_plain : plain case_id.
Proof.
  split; [repeat constructor; done|]. intros i c d Hc _ Hh _. apply elem_of_list_lookup_2 in Hc. unfold high_surrogate in Hh.
  assert (c ∈ [97; 34; 233; 9; 128512]) as Hc' by exact Hc. set_unfold in Hc'. lia.
Qed.
Lemma case_text_eq : dumps frepr2 case_record = case_text ∧ loads fread2 case_text = Some case_record ∧
  dumps frepr2 case_list = case_list_text.
Proof. repeat split; vm_compute; reflexivity. Qed.
Lemma foreign_eq : loads id foreign_text = Some foreign_value ∧ loads id foreign_text' = Some foreign_value' ∧ Forall (λ t, loads id t = None) not_json.
Proof. split; [vm_compute; reflexivity|]. split; [vm_compute; reflexivity|]. repeat constructor; vm_compute; reflexivity. Qed.
Lemma split_eq : Forall code_point split_id ∧ ∃ r : json bool, lock_get fread2 (lock_create frepr2 (elector_record split_id 15 true (JFloat true) None)) = Some (r, RrText (dumps frepr2 (elector_record split_id 15 true (JFloat true) None))) ∧
  r = elector_record [128512] 15 true (JFloat true) None ∧ r ≠ elector_record split_id 15 true (JFloat true) None.
Proof. split; [repeat constructor; done|]. eexists. split; [vm_compute; reflexivity|]. split; [vm_compute; reflexivity|]. vm_compute. discriminate. Qed.
