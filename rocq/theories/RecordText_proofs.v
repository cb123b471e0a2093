(** Proofs about the text of records. *)
From Coq Require Import Ascii String Decimal.
From Coq Require DecimalN.
From Verif Require Import Base RecordText_model RecordText_spec.
Local Open Scope Z_scope.

(** ** Characters of a string *)
Lemma unhex_hex d : 0 ≤ d < 16 → unhex (hex d) = Some d.
Proof.
  intros Hd. unfold unhex, hex, is_digit. destruct (d <? 10) eqn:E; [apply Z.ltb_lt in E|apply Z.ltb_ge in E].
  - destruct (48 <=? 48 + d) eqn:E1; [|apply Z.leb_gt in E1; lia]. destruct (48 + d <=? 57) eqn:E2; [|apply Z.leb_gt in E2; lia]. simpl. f_equal. lia.
  - destruct (87 + d <=? 57) eqn:E2; [apply Z.leb_le in E2; lia|]. rewrite andb_false_r.
    destruct (97 <=? 87 + d) eqn:E3; [|apply Z.leb_gt in E3; lia]. destruct (87 + d <=? 102) eqn:E4; [|apply Z.leb_gt in E4; lia]. simpl. f_equal. lia.
Qed.
Definition hexes (n : Z) : text := [hex (n / 4096); hex (n / 256 mod 16); hex (n / 16 mod 16); hex (n mod 16)].
Lemma uescape_eq n T : uescape n ++ T = 92 :: 117 :: hexes n ++ T.
Proof. done. Qed.
Lemma unhex4_hexes n T : 0 ≤ n < 65536 → unhex4 (hexes n ++ T) = Some (n, T).
Proof.
  intros Hn. simpl.
  rewrite !unhex_hex by first [apply Z.mod_pos_bound; lia|split; [apply Z.div_pos; lia|apply Z.div_lt_upper_bound; lia]]. simpl. do 2 f_equal.
  Z.to_euclidean_division_equations. lia.
Qed.
Lemma high_spec c : high c = true ↔ high_surrogate c.
Proof. unfold high, high_surrogate. rewrite andb_true_iff, !Z.leb_le. lia. Qed.
Lemma low_spec c : low c = true ↔ low_surrogate c.
Proof. unfold low, low_surrogate. rewrite andb_true_iff, !Z.leb_le. lia. Qed.

(** the letters of short escapes *)
Definition short (e : Z) : option Z :=
  if decide (e = 34) then Some 34 else if decide (e = 92) then Some 92 else if decide (e = 47) then Some 47 else if decide (e = 98) then Some 8
  else if decide (e = 102) then Some 12 else if decide (e = 110) then Some 10 else if decide (e = 114) then Some 13 else if decide (e = 116) then Some 9 else None.
Lemma escape_cases c : code_point c →
  (escape c = [c] ∧ printable c ∧ c ≠ 34 ∧ c ≠ 92) ∨ (∃ e, escape c = [92; e] ∧ e ≠ 117 ∧ short e = Some c ∧ printable e ∧ c < 127) ∨
  (escape c = uescape c ∧ 0 ≤ c < 65536) ∨
  (escape c = uescape (55296 + (c - 65536) / 1024) ++ uescape (56320 + (c - 65536) mod 1024) ∧ 65536 ≤ c).
Proof.
  intros Hc. unfold code_point in Hc. unfold escape.
  repeat (case_decide; [subst; right; left; eexists; split; [reflexivity|]; repeat split; try done; unfold printable; lia|]).
  destruct ((32 <=? c) && (c <=? 126)) eqn:E.
  - left. apply andb_prop in E as [E1%Z.leb_le E2%Z.leb_le]. done.
  - right. right. destruct (c <? 65536) eqn:E2; [left; apply Z.ltb_lt in E2; split; [done|lia]|]. right. apply Z.ltb_ge in E2. split; [|done].
    rewrite (Z.mod_small ((c - 65536) / 1024)); [done|]. split; [apply Z.div_pos; lia|apply Z.div_lt_upper_bound; lia].
Qed.

Lemma scan_short n e d T : e ≠ 117 → short e = Some d → scanstring (S n) (92 :: e :: T) = p ← scanstring n T; Some (d :: p.1, p.2).
Proof. intros He. unfold short. simpl. rewrite (decide_False (P := e = 117)) by done. repeat case_decide; intros [= <-]; done. Qed.
Lemma scan_char n c T : 32 ≤ c → c ≠ 34 → c ≠ 92 → scanstring (S n) (c :: T) = p ← scanstring n T; Some (c :: p.1, p.2).
Proof. intros H1 H2 H3. simpl. rewrite !decide_False by done. destruct (c <? 32) eqn:E; [apply Z.ltb_lt in E; lia|done]. Qed.
(** an escape of 16 bits that is not the first half of a pair *)
Definition no_low (T : text) : Prop := ∀ s', T = 92 :: 117 :: s' → ∃ q, unhex4 s' = Some q ∧ low q.1 = false.
Lemma scan_u n c T : 0 ≤ c < 65536 → (high c = true → no_low T) → scanstring (S n) (uescape c ++ T) = p ← scanstring n T; Some (c :: p.1, p.2).
Proof.
  intros Hc Hl. rewrite uescape_eq. cbn [scanstring]. rewrite decide_False by done. rewrite decide_True by done. rewrite decide_True by done.
  rewrite unhex4_hexes by done. cbn -[scanstring unhex4]. destruct T as [|b [|u s']]; [done..|].
  destruct (high c) eqn:Hh; [|done]. simpl. destruct (decide (b = 92)) as [->|]; [|by rewrite bool_decide_eq_false_2].
  destruct (decide (u = 117)) as [->|]; [|by rewrite (bool_decide_eq_false_2 (u = 117))]. rewrite !bool_decide_eq_true_2 by done. cbn -[scanstring unhex4].
  destruct (Hl eq_refl s' eq_refl) as (q&->&Hq). simpl. by rewrite Hq.
Qed.
Lemma scan_pair n h l T : high_surrogate h → low_surrogate l →
  scanstring (S n) (uescape h ++ uescape l ++ T) = p ← scanstring n T; Some (65536 + (h - 55296) * 1024 + (l - 56320) :: p.1, p.2).
Proof.
  intros Hh Hl. pose proof Hh as Hh'. pose proof Hl as Hl'. unfold high_surrogate in Hh'. unfold low_surrogate in Hl'.
  rewrite !uescape_eq. cbn [scanstring]. rewrite decide_False by done. rewrite decide_True by done. rewrite decide_True by done.
  rewrite unhex4_hexes by lia. cbn -[scanstring unhex4 hexes]. rewrite (proj2 (high_spec h) Hh). simpl bool_decide. cbn -[scanstring unhex4 hexes].
  rewrite unhex4_hexes by lia. cbn -[scanstring]. by rewrite (proj2 (low_spec l) Hl).
Qed.
Lemma escape_no_low c T : code_point c → ¬ low_surrogate c → no_low (escape c ++ T).
Proof.
  intros Hc Hl s'. destruct (escape_cases c Hc) as [(->&_&_&?)|[(e&->&?&_)|[(->&?)|(->&?)]]].
  - simpl. intros [= ?]. done.
  - simpl. intros [= ?]. done.
  - rewrite uescape_eq. intros E. apply (f_equal (drop 2)) in E. change (hexes c ++ T = s') in E. subst s'. rewrite unhex4_hexes by done. eexists. split; [done|]. simpl. destruct (low c) eqn:E; [|done]. by apply low_spec in E.
  - rewrite <-app_assoc, uescape_eq. unfold code_point in *. assert (0 ≤ (c - 65536) / 1024 < 1024) by (split; [apply Z.div_pos; lia|apply Z.div_lt_upper_bound; lia]).
    intros E. apply (f_equal (drop 2)) in E. change (hexes (55296 + (c - 65536) / 1024) ++ uescape (56320 + (c - 65536) mod 1024) ++ T = s') in E. subst s'. rewrite unhex4_hexes by lia. eexists. split; [done|]. simpl. destruct (low _) eqn:E; [|done]. apply low_spec in E. unfold low_surrogate in E. lia.
Qed.
Lemma escape_ne c : code_point c → (1 ≤ length (escape c))%nat.
Proof. intros Hc. destruct (escape_cases c Hc) as [(->&_)|[(e&->&_)|[(->&_)|(->&_)]]]; simpl; lia. Qed.

(** ** Strings *)
Definition body (s : text) : text := mjoin (escape <$> s).
Lemma body_cons c s : body (c :: s) = escape c ++ body s.
Proof. done. Qed.
Lemma scan_body s t : joined s t → Forall code_point s → ∀ n rest, (length (body s) < n)%nat → scanstring n (body s ++ 34 :: rest) = Some (t, rest).
Proof.
  induction 1 as [|h l s t Hh Hl Hj IH|c s t Hno Hj IH]; intros Hf n rest Hn.
  - destruct n; [simpl in Hn; lia|done].
  - apply Forall_cons in Hf as [_ [_ Hf]%Forall_cons]. rewrite !body_cons in *.
    assert (escape h = uescape h ∧ escape l = uescape l) as [Eh El].
    { unfold high_surrogate, low_surrogate in *. split.
      - destruct (escape_cases h) as [(_&?&_)|[(e&_&_&_&_&?)|[(?&_)|(_&?)]]]; unfold code_point, printable in *; (done || lia).
      - destruct (escape_cases l) as [(_&?&_)|[(e&_&_&_&_&?)|[(?&_)|(_&?)]]]; unfold code_point, printable in *; (done || lia). }
    rewrite Eh, El in *. rewrite !app_length in Hn. destruct n; [lia|]. rewrite <-!app_assoc, scan_pair by done. rewrite IH; [done|done|]. simpl in Hn. lia.
  - apply Forall_cons in Hf as [Hc Hf]. rewrite body_cons in *. rewrite app_length in Hn. pose proof (escape_ne c Hc). destruct n; [lia|]. rewrite <-app_assoc.
    assert (scanstring n (body s ++ 34 :: rest) = Some (t, rest)) as IH' by (apply IH; [done|lia]).
    assert (high_surrogate c → no_low (body s ++ 34 :: rest)) as Hnl.
    { intros Hh. destruct s as [|d s']; [intros s' [=]|]. rewrite body_cons, <-app_assoc. apply escape_no_low; [by apply Forall_cons in Hf as [? _]|]. intros Hd. by eapply Hno. }
    destruct (escape_cases c Hc) as [(->&Hp&?&?)|[(e&->&?&He&_)|[(->&?)|(->&?)]]].
    + simpl app. rewrite scan_char; [|unfold printable in Hp; lia|done|done]. by rewrite IH'.
    + simpl app. rewrite (scan_short n e c) by done. by rewrite IH'.
    + rewrite scan_u; [by rewrite IH'|done|]. intros Hh%high_spec. by apply Hnl.
    + rewrite <-app_assoc. unfold code_point in Hc.
      assert (0 ≤ (c - 65536) / 1024 < 1024) by (split; [apply Z.div_pos; lia|apply Z.div_lt_upper_bound; lia]).
      pose proof (Z.mod_pos_bound (c - 65536) 1024 ltac:(lia)).
      rewrite scan_pair; [|unfold high_surrogate; lia|unfold low_surrogate; lia]. rewrite IH'. simpl. do 3 f_equal.
      pose proof (Z.div_mod (c - 65536) 1024 ltac:(lia)). lia.
Qed.
Lemma joined_ex n : ∀ s, (length s ≤ n)%nat → ∃ t, joined s t.
Proof.
  induction n as [|n IH]; intros [|c s] Hs; simpl in *; try lia; [eexists; constructor..|].
  destruct s as [|d s].
  - exists [c]. apply joined_one; [done|constructor].
  - destruct (high c) eqn:Hh; [destruct (low d) eqn:Hl|].
    + destruct (IH s) as [t ?]; [simpl in *; lia|]. eexists. apply joined_pair; [by apply high_spec|by apply low_spec|done].
    + destruct (IH (d :: s)) as [t ?]; [simpl in *; lia|]. exists (c :: t). apply joined_one; [|done]. intros ? ? [= <- <-] _ E%low_spec. congruence.
    + destruct (IH (d :: s)) as [t ?]; [simpl in *; lia|]. exists (c :: t). apply joined_one; [|done]. intros ? ? _ E%high_spec. congruence.
Qed.
Lemma joined_plain s t : plain s → joined s t → s = t.
Proof.
  intros [_ Hp] Hj. revert Hp. induction Hj as [|h l s t Hh Hl Hj IH|c s t Hno Hj IH]; intros Hp; [done|..].
  - exfalso. by apply (Hp 0%nat h l).
  - f_equal. apply IH. intros i. apply (Hp (S i)).
Qed.
Lemma plain_joined s : plain s → joined s s.
Proof. intros Hp. destruct (joined_ex (length s) s) as [t Ht]; [done|]. by rewrite <-(joined_plain s t Hp Ht) in Ht. Qed.
Lemma scan_quote s n rest : plain s → (length (body s) < n)%nat → scanstring n (body s ++ 34 :: rest) = Some (s, rest).
Proof. intros Hp. apply scan_body; [by apply plain_joined|apply Hp]. Qed.
Lemma quote_eq s rest : quote s ++ rest = 34 :: body s ++ 34 :: rest.
Proof. unfold quote, body. simpl. by rewrite <-app_assoc. Qed.

(** ** Numbers *)
Definition stop (rest : text) : Prop := ∀ c s, rest = c :: s → c ∈ [44; 93; 125].
Lemma is_digit_spec c : is_digit c = true ↔ digit c.
Proof. unfold is_digit, digit. rewrite andb_true_iff, !Z.leb_le. lia. Qed.
Lemma span_app ds rest : Forall digit ds → (∀ c s, rest = c :: s → is_digit c = false) → span_digits (ds ++ rest) = (ds, rest).
Proof.
  intros Hd Hr. induction Hd as [|d ds Hd _ IH].
  - destruct rest as [|c s]; [done|]. simpl. by rewrite (Hr c s eq_refl).
  - simpl. rewrite (proj2 (is_digit_spec d) Hd). simpl. by rewrite IH.
Qed.
Lemma stop_digit rest : stop rest → ∀ c s, rest = c :: s → is_digit c = false.
Proof. intros H c s E. specialize (H c s E). set_unfold. destruct H as [->|[->|[->|[]]]]; done. Qed.

Lemma digits_digit d : Forall digit (digits d).
Proof. induction d; simpl; constructor; try done; unfold digit; lia. Qed.
Lemma read_acc d (a : positive) : foldl (λ a d, a * 10 + (d - 48)) (Zpos a) (digits d) = Zpos (Pos.of_uint_acc d a).
Proof.
  revert a. induction d as [|d IH|d IH|d IH|d IH|d IH|d IH|d IH|d IH|d IH|d IH]; intros a; [done|..];
    cbn [digits foldl Pos.of_uint_acc]; rewrite <-IH; f_equal; lia.
Qed.
Lemma read_digits d : read_nat (digits d) = Z.of_N (N.of_uint d).
Proof.
  unfold read_nat. induction d as [|d IH|d IH|d IH|d IH|d IH|d IH|d IH|d IH|d IH|d IH]; [done|exact IH|..];
    cbn [digits foldl]; simpl (0 * 10 + _); (etransitivity; [apply read_acc|done]).
Qed.
Lemma to_uint_shape n : N.to_uint n = D0 Nil ∨ ∃ d ds, digits (N.to_uint n) = d :: ds ∧ d ≠ 48.
Proof.
  assert (N.to_uint n = unorm (N.to_uint n)) as Hu.
  { rewrite <-DecimalN.Unsigned.to_of. by rewrite DecimalN.Unsigned.of_to. }
  rewrite Hu. unfold unorm. clear Hu. generalize (N.to_uint n) as d. induction d; simpl; try (by right; eexists _, _); [by left|done].
Qed.
Lemma int_part_digits n : int_part (digits (N.to_uint n)).
Proof.
  destruct (to_uint_shape n) as [->|(d&ds&E&Hd)]; [apply ip_zero|]. pose proof (digits_digit (N.to_uint n)) as Hf. rewrite E in *.
  apply Forall_cons in Hf as [? ?]. by apply ip_pos.
Qed.
Lemma int_part_digit i : int_part i → Forall digit i.
Proof. intros []; [repeat constructor; unfold digit; simpl; lia|by constructor]. Qed.
Lemma scan_int_part sg i rest : sg ∈ [txt ""; txt "-"] → int_part i → (∀ c s, rest = c :: s → is_digit c = false) → scan_int (sg ++ i ++ rest) = Some (sg ++ i, rest).
Proof.
  intros Hs Hi Hr. unfold scan_int.
  assert (∀ c s, i ++ rest = c :: s → c ≠ 45) as Hne.
  { intros c s E ->. destruct Hi as [|d ds Hd]; simpl in E; simplify_eq. unfold digit in Hd. lia. }
  assert ((match sg ++ i ++ rest with c :: s' => if decide (c = 45) then ([c], s') else ([], sg ++ i ++ rest) | [] => ([], sg ++ i ++ rest) end) = (sg, i ++ rest)) as ->.
  { set_unfold in Hs. destruct Hs as [->|[->|[]]]; [|done]. simpl. destruct (i ++ rest) as [|c s] eqn:E; [done|]. by rewrite decide_False by (by eapply Hne). }
  destruct Hi as [|d ds Hd Hd0 Hds]; [done|]. simpl. rewrite decide_False by done. rewrite (proj2 (is_digit_spec d) Hd). rewrite span_app by done. done.
Qed.
Lemma scan_frac_none rest : (∀ c s, rest = c :: s → c ≠ 46) → scan_frac rest = ([], rest).
Proof. intros H. destruct rest as [|c s]; [done|]. simpl. rewrite decide_False; [done|]. by eapply H. Qed.
Lemma scan_exp_none rest : (∀ c s, rest = c :: s → c ≠ 101 ∧ c ≠ 69) → scan_exp rest = ([], rest).
Proof. intros H. destruct rest as [|c s]; [done|]. simpl. rewrite decide_False; [done|]. specialize (H c s eq_refl). tauto. Qed.
Lemma scan_frac_part f rest : frac_part f → (∀ c s, rest = c :: s → is_digit c = false) → scan_frac (f ++ rest) = (f, rest).
Proof.
  intros [d ds Hd] Hr. rewrite <-app_assoc. simpl (txt "."). cbn [app scan_frac]. rewrite decide_True by done.
  change (d :: ds ++ rest) with ((d :: ds) ++ rest). rewrite span_app by done. done.
Qed.
Lemma scan_exp_part e rest : exp_part e → (∀ c s, rest = c :: s → is_digit c = false) → scan_exp (e ++ rest) = (e, rest).
Proof.
  intros [sg d ds Hd Hs] Hr. rewrite <-!app_assoc. simpl (txt "e"). cbn [app scan_exp]. rewrite decide_True by (by left).
  assert ((match sg ++ (d :: ds) ++ rest with d0 :: s'' => if decide (d0 = 43 ∨ d0 = 45) then ([d0], s'') else ([], sg ++ (d :: ds) ++ rest) | [] => ([], sg ++ (d :: ds) ++ rest) end)
    = (sg, (d :: ds) ++ rest)) as E.
  { set_unfold in Hs. destruct Hs as [->|[->|[->|[]]]]; [|done..]. simpl. rewrite decide_False; [done|].
    apply Forall_cons in Hd as [Hd _]. unfold digit in Hd. lia. }
  cbn [app] in E |- *. rewrite E. change (d :: ds ++ rest) with ((d :: ds) ++ rest). rewrite span_app by done. done.
Qed.

(** ** Values *)
Section values.
  Context {F : Type} (frepr : F → text) (fread : text → F) (Hc : float_codec frepr fread).
  Notation json := (json F).
  Notation dumps := (dumps frepr).
  Notation scan := (scan fread).
  Notation scan_items := (scan_items fread).
  Notation scan_members := (scan_members fread).
  Notation loads := (loads fread).

  Fixpoint items (l : list json) : text := match l with [] => [] | [x] => dumps x | x :: l => dumps x ++ txt ", " ++ items l end.
  Fixpoint members (l : list (text * json)) : text :=
    match l with [] => [] | [(k, x)] => quote k ++ txt ": " ++ dumps x | (k, x) :: l => quote k ++ txt ": " ++ dumps x ++ txt ", " ++ members l end.
  Lemma dumps_arr l : dumps (JArr l) = [91] ++ items l ++ [93].
  Proof. done. Qed.
  Lemma dumps_obj l : dumps (JObj l) = [123] ++ members l ++ [125].
  Proof. done. Qed.

  Lemma scan_S n s : scan (S n) s =
    (match s with
        | [] => None
        | c :: s' =>
            if decide (c = 34) then p ← scanstring (S (length s')) s'; Some (JStr p.1, p.2)
            else if decide (c = 123) then
              match skip s' with
              | c :: s => if decide (c = 125) then Some (JObj [], s)
                          else if decide (c = 34) then p ← scan_members n s; Some (JObj (dict_of p.1), p.2) else None
              | [] => None
              end
            else if decide (c = 91) then
              match skip s' with
              | c :: s'' => if decide (c = 93) then Some (JArr [], s'') else p ← scan_items n (skip s'); Some (JArr p.1, p.2)
              | [] => None
              end
            else scan_atom fread s
        end).
  Proof. done. Qed.
  Lemma scan_items_S n s : scan_items (S n) s =
    (p ← scan n s;
        match skip p.2 with
        | c :: s => if decide (c = 93) then Some ([p.1], s)
                    else if decide (c = 44) then q ← scan_items n (skip s); Some (p.1 :: q.1, q.2) else None
        | [] => None
        end).
  Proof. done. Qed.
  Lemma scan_members_S n s : scan_members (S n) s =
    (k ← scanstring (S (length s)) s;
        match skip k.2 with
        | c :: s =>
            if decide (c = 58) then
              p ← scan n (skip s);
              match skip p.2 with
              | c :: s =>
                  if decide (c = 125) then Some ([(k.1, p.1)], s)
                  else if decide (c = 44) then
                    match skip s with
                    | c :: s => if decide (c = 34) then q ← scan_members n s; Some ((k.1, p.1) :: q.1, q.2) else None
                    | [] => None
                    end
                  else None
              | [] => None
              end
            else None
        | [] => None
        end).
  Proof. done. Qed.
  (** numbers *)
  Lemma word_head a w c s : a ≠ c → word (a :: w) (c :: s) = None.
  Proof. intros. simpl. by rewrite decide_False. Qed.
  Lemma scan_atom_number s p c s' : s = c :: s' → (c = 45 ∨ digit c) → scan_number fread s = Some p → scan_atom fread s = Some p.
  Proof.
    intros -> Hd Hp. unfold scan_atom, digit in *. cbn [txt]. do 3 (rewrite word_head by (simpl; lia)). by rewrite Hp.
  Qed.
  Lemma number_head sg i rest : sg ∈ [txt ""; txt "-"] → int_part i → ∃ c s', sg ++ i ++ rest = c :: s' ∧ (c = 45 ∨ digit c).
  Proof.
    intros Hs Hi. set_unfold in Hs. destruct Hs as [->|[->|[]]]; [|eexists _, _; split; [done|by left]].
    destruct Hi as [|d ds Hd]; eexists _, _; (split; [done|right]); [unfold digit; simpl; lia|done].
  Qed.
  Lemma stop_frac rest : stop rest → ∀ c s, rest = c :: s → c ≠ 46.
  Proof. intros H c s E. specialize (H c s E). set_unfold. lia. Qed.
  Lemma stop_exp rest : stop rest → ∀ c s, rest = c :: s → c ≠ 101 ∧ c ≠ 69.
  Proof. intros H c s E. specialize (H c s E). set_unfold. lia. Qed.
  Lemma frac_nodigit f rest : frac_part f → ∀ c s, f ++ rest = c :: s → is_digit c = false ∧ c ≠ 101 ∧ c ≠ 69.
  Proof. intros [d ds _] c s E. simpl in E. simplify_eq. done. Qed.
  Lemma exp_nodigit e rest : exp_part e → ∀ c s, e ++ rest = c :: s → is_digit c = false ∧ c ≠ 46.
  Proof. intros [sg d ds _ _] c s E. simpl in E. simplify_eq. done. Qed.
  Lemma sign_text z : (if z <? 0 then [45] else []) ∈ [txt ""; txt "-"].
  Proof. destruct (z <? 0); set_unfold; auto. Qed.
  Lemma read_irepr z : read_int (irepr z) = z.
  Proof.
    unfold irepr. set (n := Z.abs_N z). assert (read_nat (digits (N.to_uint n)) = Z.abs z) as E.
    { rewrite read_digits, DecimalN.Unsigned.of_to. subst n. lia. }
    destruct (z <? 0) eqn:Hz; [apply Z.ltb_lt in Hz|apply Z.ltb_ge in Hz].
    - simpl. rewrite E. lia.
    - simpl. pose proof (int_part_digits n) as Hi. destruct (digits (N.to_uint n)) as [|c ds] eqn:Ed; [by inversion Hi|]. simpl. rewrite decide_False; [rewrite E; lia|].
      intros ->. apply int_part_digit, Forall_cons in Hi as [Hi _]. unfold digit in Hi. lia.
  Qed.
  Lemma scan_irepr z rest : stop rest → scan_atom fread (irepr z ++ rest) = Some (JInt z, rest).
  Proof.
    intros Hr. unfold irepr at 1. rewrite <-app_assoc. pose proof (int_part_digits (Z.abs_N z)) as Hi.
    destruct (number_head (if z <? 0 then [45] else []) (digits (N.to_uint (Z.abs_N z))) rest (sign_text z) Hi) as (c&s'&E&Hd).
    eapply scan_atom_number; [done|done|]. unfold scan_number. rewrite scan_int_part; [|apply sign_text|done|by apply stop_digit]. cbn [mbind option_bind fst snd].
    rewrite scan_frac_none by (by apply stop_frac). cbn [fst snd]. rewrite scan_exp_none by (by apply stop_exp). cbn [fst snd app]. do 3 f_equal. apply read_irepr.
  Qed.
  Lemma scan_float t rest : float_literal t → stop rest → scan_atom fread (t ++ rest) = Some (JFloat (fread t), rest).
  Proof.
    intros Hl Hr. destruct Hl as [s Hs|sg i f Hs Hi Hf|sg i e Hs Hi He|sg i f e Hs Hi Hf He].
    - set_unfold in Hs. destruct Hs as [->|[->|[->|[]]]]; reflexivity.
    - rewrite <-!app_assoc. destruct (number_head sg i (f ++ rest) Hs Hi) as (c&s'&E&Hd). eapply scan_atom_number; [done|done|]. unfold scan_number.
      rewrite scan_int_part; [|done|done|intros ?? E'; apply (frac_nodigit f rest Hf) in E'; tauto]. cbn [mbind option_bind fst snd].
      rewrite scan_frac_part by (done || by apply stop_digit). cbn [fst snd]. rewrite scan_exp_none by (by apply stop_exp). cbn [fst snd]. rewrite !app_nil_r, <-app_assoc.
      by destruct Hf.
    - rewrite <-!app_assoc. destruct (number_head sg i (e ++ rest) Hs Hi) as (c&s'&E&Hd). eapply scan_atom_number; [done|done|]. unfold scan_number.
      rewrite scan_int_part; [|done|done|intros ?? E'; apply (exp_nodigit e rest He) in E'; tauto]. cbn [mbind option_bind fst snd].
      rewrite scan_frac_none by (intros ?? E'; apply (exp_nodigit e rest He) in E'; tauto). cbn [fst snd]. rewrite scan_exp_part by (done || by apply stop_digit). cbn [fst snd app].
      rewrite <-app_assoc. by destruct He.
    - rewrite <-!app_assoc. destruct (number_head sg i (f ++ e ++ rest) Hs Hi) as (c&s'&E&Hd). eapply scan_atom_number; [done|done|]. unfold scan_number.
      rewrite scan_int_part; [|done|done|intros ?? E'; apply (frac_nodigit f (e ++ rest) Hf) in E'; tauto]. cbn [mbind option_bind fst snd].
      rewrite scan_frac_part; [|done|intros ?? E'; apply (exp_nodigit e rest He) in E'; tauto]. cbn [fst snd]. rewrite scan_exp_part by (done || by apply stop_digit). cbn [fst snd].
      rewrite <-!app_assoc. by destruct Hf.
  Qed.
  (** the first character of a value *)
  Lemma float_head t : float_literal t → ∃ c s, t = c :: s ∧ (digit c ∨ c ∈ [45; 73; 78]).
  Proof.
    intros [s Hs|sg i f Hs Hi _|sg i e Hs Hi _|sg i f e Hs Hi _ _].
    - set_unfold in Hs. destruct Hs as [->|[->|[->|[]]]]; eexists _, _; (split; [done|right; set_unfold; auto]).
    - destruct (number_head sg i f Hs Hi) as (c&s'&->&[->|?]); eexists _, _; (split; [done|]); [right; set_unfold; auto|by left].
    - destruct (number_head sg i e Hs Hi) as (c&s'&->&[->|?]); eexists _, _; (split; [done|]); [right; set_unfold; auto|by left].
    - destruct (number_head sg i (f ++ e) Hs Hi) as (c&s'&->&[->|?]); eexists _, _; (split; [done|]); [right; set_unfold; auto|by left].
  Qed.
  Lemma irepr_head z : ∃ c s, irepr z = c :: s ∧ (digit c ∨ c ∈ [45; 73; 78]).
  Proof.
    destruct (number_head _ _ [] (sign_text z) (int_part_digits (Z.abs_N z))) as (c&s&E&H). rewrite app_nil_r in E. exists c, s. split; [done|].
    destruct H as [->|?]; [right; set_unfold; auto|by left].
  Qed.
  Lemma dumps_head v : ∃ c s, dumps v = c :: s ∧ is_ws c = false ∧ c ≠ 93 ∧ c ≠ 125 ∧ c ≠ 65279.
  Proof.
    destruct v as [|[]|z|f|s|l|l]; try (eexists _, _; split; [reflexivity|done]).
    - destruct (irepr_head z) as (c&s&E&H). exists c, s. split; [exact E|]. set_unfold. destruct H as [H|[->|[->|[->|[]]]]]; [|done..]. unfold digit in H.
      split; [|lia]. unfold is_ws. apply bool_decide_eq_false_2. set_unfold. lia.
    - destruct (float_head _ (proj1 (Hc f))) as (c&s&E&H). exists c, s. split; [exact E|]. set_unfold. destruct H as [H|[->|[->|[->|[]]]]]; [|done..]. unfold digit in H.
      split; [|lia]. unfold is_ws. apply bool_decide_eq_false_2. set_unfold. lia.
  Qed.
  Lemma skip_dumps v rest : skip (dumps v ++ rest) = dumps v ++ rest.
  Proof. destruct (dumps_head v) as (c&s&->&Hw&_). simpl. by rewrite Hw. Qed.
  Lemma dict_of_nodup l : NoDup l.*1 → dict_of (F := F) l = l.
  Proof.
    intros Hn. unfold dict_of. assert (∀ d, NoDup (d.*1 ++ l.*1) → foldl (λ d p, dset p.1 p.2 d) d l = d ++ l) as H; [|by apply (H [])].
    clear Hn. induction l as [|[k x] l IH]; intros d Hd; simpl; [by rewrite app_nil_r|].
    assert (dset k x d = d ++ [(k, x)]) as ->.
    { clear IH. assert (k ∉ d.*1) as Hk. { apply NoDup_app in Hd as (_&Hd&_). intros Hi. apply (Hd k Hi). simpl. by left. }
      clear Hd. induction d as [|[k' x'] d IHd]; [done|]. simpl in Hk. cbn [dset]. rewrite decide_False by set_solver. simpl. f_equal. apply IHd. set_solver. }
    rewrite IH; [by rewrite <-app_assoc|]. rewrite fmap_app, <-app_assoc. done.
  Qed.
  Lemma items_len x l : (length (dumps x) ≤ length (items (x :: l)))%nat.
  Proof. destruct l; cbn [items]; [lia|]. rewrite app_length. lia. Qed.

  Lemma scan_dumps n :
    (∀ v rest, plain_value v → stop rest → (length (dumps v) ≤ n)%nat → scan n (dumps v ++ rest) = Some (v, rest)) ∧
    (∀ x l rest, (∀ y, y ∈ x :: l → plain_value y) → (length (items (x :: l)) < n)%nat → scan_items n (items (x :: l) ++ 93 :: rest) = Some (x :: l, rest)) ∧
    (∀ k x l rest, (∀ k' y, (k', y) ∈ (k, x) :: l → plain k' ∧ plain_value y) → (length (members ((k, x) :: l)) < n)%nat →
       ∃ T, members ((k, x) :: l) ++ 125 :: rest = 34 :: T ∧ scan_members n T = Some ((k, x) :: l, rest)).
  Proof.
    induction n as [|n (IHv&IHi&IHm)].
    { split; [|split]; intros; try lia. destruct (dumps_head v) as (c&s&E&_). rewrite E in *. simpl in *. lia. }
    split; [|split].
    - intros v rest Hv Hr Hn. destruct v as [|[]|z|f|s|l|l]; try done.
      + destruct (irepr_head z) as (c&s&E&Hh). pose proof (scan_irepr z rest Hr) as Hs. cbn [RecordText_model.dumps]. rewrite E in *. cbn [app]. rewrite scan_S.
        set_unfold. destruct Hh as [Hh|[->|[->|[->|[]]]]]; [unfold digit in Hh|..]; rewrite !decide_False by lia; exact Hs.
      + destruct (Hc f) as [Hl Hrd]. destruct (float_head _ Hl) as (c&s&E&Hh). pose proof (scan_float _ rest Hl Hr) as Hs. rewrite Hrd in Hs. cbn [RecordText_model.dumps]. rewrite E in *.
        cbn [app]. rewrite scan_S. set_unfold. destruct Hh as [Hh|[->|[->|[->|[]]]]]; [unfold digit in Hh|..]; rewrite !decide_False by lia; exact Hs.
      + inversion Hv. cbn [RecordText_model.dumps]. rewrite quote_eq. rewrite scan_S. rewrite decide_True by done.
        rewrite scan_quote; [done|done|]. rewrite app_length. lia.
      + inversion Hv as [| | | | |? Hl|]; subst. rewrite dumps_arr in *. destruct l as [|x l]; [done|]. rewrite !app_length in Hn. cbn [length] in Hn.
        rewrite <-!app_assoc. cbn [app]. rewrite scan_S. rewrite (decide_False (P := 91 = 34)), (decide_False (P := 91 = 123)), decide_True by done.
        assert (∃ T, items (x :: l) ++ 93 :: rest = dumps x ++ T) as [T HT].
        { destruct l; [by eexists|]. cbn [items]. rewrite <-!app_assoc. by eexists. }
        rewrite HT, skip_dumps. destruct (dumps_head x) as (c&s&Ex&_&H93&_). rewrite Ex at 1. cbn [app]. rewrite decide_False by done. rewrite <-HT.
        rewrite IHi; [done|done|]. lia.
      + inversion Hv as [| | | | | |? Hnd Hl1 Hl2]; subst.
        assert (∀ k x, (k, x) ∈ l → plain k ∧ plain_value x) as Hl.
        { intros k x Hin. split; [apply Hl1, elem_of_list_fmap; by exists (k, x)|by eapply Hl2]. }
        rewrite dumps_obj in *. destruct l as [|[k x] l]; [done|]. rewrite !app_length in Hn. cbn [length] in Hn.
        rewrite <-!app_assoc. cbn [app]. rewrite scan_S. rewrite (decide_False (P := 123 = 34)), decide_True by done.
        destruct (IHm k x l rest Hl) as (T&HT&HS); [lia|]. rewrite HT. cbn [skip]. change (is_ws 34) with false. cbn [skip]. rewrite decide_False, decide_True by done.
        rewrite HS. cbn -[dict_of]. by rewrite dict_of_nodup.
    - intros x l rest Hl Hn. rewrite scan_items_S. pose proof (items_len x l) as Hx. destruct l as [|y l].
      + cbn [items] in *. rewrite IHv; [done|apply Hl; by left| |lia]. intros c s [= <- <-]. set_unfold. auto.
      + change (items (x :: y :: l)) with (dumps x ++ txt ", " ++ items (y :: l)) in *. rewrite !app_length in Hn. change (length (txt ", ")) with 2%nat in Hn. rewrite <-!app_assoc.
        rewrite IHv; [|apply Hl; by left| |lia]; [|intros c s [= <- <-]; set_unfold; auto]. cbn [mbind option_bind fst snd].
        change (skip (txt ", " ++ items (y :: l) ++ 93 :: rest)) with (44 :: 32 :: items (y :: l) ++ 93 :: rest). cbv beta iota. rewrite decide_False, decide_True by done.
        change (skip (32 :: items (y :: l) ++ 93 :: rest)) with (skip (items (y :: l) ++ 93 :: rest)).
        assert (∃ T, items (y :: l) ++ 93 :: rest = dumps y ++ T) as [T HT].
        { destruct l; [by eexists|]. cbn [items]. rewrite <-!app_assoc. by eexists. }
        rewrite HT, skip_dumps, <-HT. rewrite IHi; [done| |]; [intros z Hz; apply Hl; by right|]. lia.
    - intros k x l rest Hl Hn. destruct (Hl k x) as [Hk Hx]; [by left|].
      assert (∀ R, stop R → (length (quote k) + 2 + length (dumps x) ≤ n)%nat → ∃ T, (quote k ++ txt ": " ++ dumps x) ++ R = 34 :: T ∧
        scanstring (S (length T)) T = Some (k, 58 :: 32 :: dumps x ++ R) ∧ scan n (skip (32 :: dumps x ++ R)) = Some (x, R)) as Hstep.
      { intros R HR Hlen. rewrite <-!app_assoc, quote_eq. eexists. split; [done|]. split.
        - rewrite scan_quote; [done|done|]. rewrite app_length. simpl. lia.
        - cbn [skip]. change (is_ws 32) with true. cbn [skip]. rewrite skip_dumps. apply IHv; [done|done|lia]. }
      destruct l as [|[k2 y] l].
      + cbn [members] in *. rewrite !app_length in Hn. change (length (txt ": ")) with 2%nat in Hn. destruct (Hstep (125 :: rest)) as (T&ET&E1&E2); [intros c s [= <- <-]; set_unfold; auto|lia|].
        exists T. split; [exact ET|]. rewrite scan_members_S. rewrite E1. cbn [mbind option_bind fst snd skip]. change (is_ws 58) with false. cbn [skip].
        rewrite decide_True by done. cbn [skip] in E2. cbn [skip]. rewrite E2. done.
      + assert (members ((k, x) :: (k2, y) :: l) = (quote k ++ txt ": " ++ dumps x) ++ txt ", " ++ members ((k2, y) :: l)) as EM.
        { cbn [members]. by rewrite <-!app_assoc. }
        rewrite EM in *. rewrite !app_length in Hn. change (length (txt ": ")) with 2%nat in Hn. change (length (txt ", ")) with 2%nat in Hn.
        destruct (IHm k2 y l rest) as (T2&ET2&E3); [intros; apply Hl; by right|lia|].
        destruct (Hstep (txt ", " ++ members ((k2, y) :: l) ++ 125 :: rest)) as (T&ET&E1&E2); [intros c s [= <- <-]; set_unfold; auto|lia|].
        exists T. rewrite <-!app_assoc in *. split; [exact ET|]. rewrite scan_members_S. rewrite E1. cbn [mbind option_bind fst snd skip]. change (is_ws 58) with false. cbn [skip].
        rewrite decide_True by done. cbn [skip] in E2. cbn [skip]. rewrite E2. cbn [mbind option_bind fst snd]. rewrite ET2.
        change (skip (txt ", " ++ 34 :: T2)) with (44 :: 32 :: 34 :: T2). cbv beta iota. rewrite decide_False, decide_True by done.
        change (skip (32 :: 34 :: T2)) with (34 :: T2). cbv beta iota. rewrite decide_True by done. by rewrite E3.
  Qed.
  Lemma loads_dumps v : plain_value v → loads (dumps v) = Some v.
  Proof.
    intros Hv. unfold RecordText_model.loads. destruct (scan_dumps (2 * length (dumps v) + 2)) as (H&_&_).
    specialize (H v [] Hv). rewrite app_nil_r in H. pose proof (skip_dumps v []) as Hs. rewrite app_nil_r in Hs. rewrite Hs, H; [|done|lia].
    destruct (dumps_head v) as (c&s&E&_&_&_&Hb). rewrite E. rewrite decide_False by (simpl; congruence). done.
  Qed.
End values.
