(** Proofs about the requests of an informer. *)
From Verif Require Import Base Client_model Client_spec Client_proofs KeyFunc_model Reflector_model Reflector_spec Reflector_proofs Request_model Request_spec.
From Coq Require Import Strings.String.
From stdpp Require Import strings.

(** ** rounding *)
Lemma div_even_bounds n d a b : (0 < d → a * d <= n <= b * d → a <= div_even n d <= b)%Z.
Proof.
  intros Hd [Ha Hb]. unfold div_even.
  pose proof (Z.div_mod n d ltac:(lia)) as E. pose proof (Z.mod_pos_bound n d Hd) as Hr.
  set (q := (n / d)%Z) in *. set (r := (n mod d)%Z) in *.
  assert (a <= q)%Z by nia.
  assert (q < b ∨ q = b ∧ r = 0)%Z as Hq by nia.
  repeat case_match; lia.
Qed.
Lemma div_even_near n d : (0 < d → 2 * Z.abs (div_even n d * d - n) <= d)%Z.
Proof.
  intros Hd. unfold div_even. pose proof (Z.div_mod n d ltac:(lia)) as E. pose proof (Z.mod_pos_bound n d Hd) as Hr.
  set (q := (n / d)%Z) in *. set (r := (n mod d)%Z) in *.
  repeat case_match; rewrite ?Z.ltb_lt, ?Z.ltb_ge in *; nia.
Qed.
Lemma round53_at e n : (2 ^ (52 + e) <= n < 2 ^ (53 + e) → 0 <= e → round53 n = div_even n (2 ^ e) * 2 ^ e)%Z.
Proof.
  intros Hn He. unfold round53.
  assert (Z.log2 n = 52 + e)%Z as -> by (apply Z.log2_unique; [lia|]; replace (Z.succ (52 + e)) with (53 + e)%Z by lia; done).
  replace (52 + e - 52)%Z with e by lia.
  destruct (e <=? 0)%Z eqn:E; [|done]. apply Z.leb_le in E. assert (e = 0)%Z as -> by lia.
  change (2 ^ 0)%Z with 1%Z. unfold div_even. rewrite Z.div_1_r, Z.mod_1_r. simpl. lia.
Qed.

Lemma sum_cases k : (0 <= k < 2 ^ 53 → ∃ m, 2 ^ 52 <= m <= 2 ^ 53 ∧ round53 (k + 2 ^ 53) = 2 * m ∧ 2 * Z.abs (2 * m - (k + 2 ^ 53)) <= 2 ∧ (m = 2 ^ 53 ↔ k = 2 ^ 53 - 1))%Z.
Proof.
  intros Hk. exists (div_even (k + 2 ^ 53) 2).
  pose proof (div_even_bounds (k + 2 ^ 53) 2 (2 ^ 52) (2 ^ 53) ltac:(lia) ltac:(lia)).
  pose proof (div_even_near (k + 2 ^ 53) 2 ltac:(lia)).
  rewrite (round53_at 1) by lia. change (2 ^ 1)%Z with 2%Z.
  repeat split; try lia.
  intros ->. vm_compute. done.
Qed.

Lemma timeout_bounds k : (0 <= k < 2 ^ 53 → 300 <= timeout_seconds k <= 600)%Z.
Proof.
  intros Hk. unfold timeout_seconds, min_watch_timeout. destruct (sum_cases k Hk) as (m & Hm & -> & _ & _).
  change (5 * 60)%Z with 300%Z.
  assert (300 * 2 ^ 53 <= round53 (300 * (2 * m)) <= 600 * 2 ^ 53)%Z as Hr.
  { destruct (Z.lt_ge_cases (300 * (2 * m)) (2 ^ 62)).
    - rewrite (round53_at 9) by lia.
      pose proof (div_even_bounds (300 * (2 * m)) (2 ^ 9) (300 * 2 ^ 44) (600 * 2 ^ 44) ltac:(lia) ltac:(lia)). lia.
    - rewrite (round53_at 10) by lia.
      pose proof (div_even_bounds (300 * (2 * m)) (2 ^ 10) (300 * 2 ^ 43) (600 * 2 ^ 43) ltac:(lia) ltac:(lia)). lia. }
  split; [apply Z.div_le_lower_bound; lia|]. apply Z.lt_succ_r. apply Z.div_lt_upper_bound; lia.
Qed.
Lemma timeout_600 k : (0 <= k < 2 ^ 53 → timeout_seconds k = 600 ↔ k = 2 ^ 53 - 1)%Z.
Proof.
  intros Hk. split; [|intros ->; vm_compute; done].
  intros E. unfold timeout_seconds, min_watch_timeout in E. destruct (sum_cases k Hk) as (m & Hm & Es & _ & Hiff). rewrite Es in E.
  change (5 * 60)%Z with 300%Z in E. apply Hiff.
  assert (600 * 2 ^ 53 <= round53 (300 * (2 * m)))%Z as Hr.
  { pose proof (Z.mul_div_le (round53 (300 * (2 * m))) (2 ^ 53) ltac:(lia)). lia. }
  destruct (Z.lt_ge_cases (300 * (2 * m)) (2 ^ 62)).
  - rewrite (round53_at 9) in Hr by lia.
    pose proof (div_even_near (300 * (2 * m)) (2 ^ 9) ltac:(lia)). lia.
  - rewrite (round53_at 10) in Hr by lia.
    pose proof (div_even_near (300 * (2 * m)) (2 ^ 10) ltac:(lia)). lia.
Qed.

Section requests.
  Context {G T O RV S : Type} `{EqDecision G, EqDecision T} (cfg : rcfg O RV) (so : sops O RV S) (g : G) (ns : option string).
  Notation qstep := (qstep (T:=T) cfg so g ns).
  Notation hist := (list (qinput G T O RV * qoutput G O RV)).

  Local Arguments rstep : simpl never.
  Local Arguments cstep : simpl never.
  (** ** the two parts *)
  Lemma parts s0 (h : hist) x : exec qstep (q_init s0) h x →
    exec cstep reg_init (reg_part h) (q_reg x) ∧ exec (rstep cfg so) (refl_init, s0) (refl_part h) (q_refl x, q_store x).
  Proof.
    intros Hx. refine (exec_trace_inv qstep (λ h x, exec cstep reg_init (reg_part h) (q_reg x) ∧ exec (rstep cfg so) (refl_init, s0) (refl_part h) (q_refl x, q_store x)) _ h x _ _ Hx).
    - split; constructor.
    - clear h x Hx. intros h x o _ [Hr Hf]. unfold reg_part, refl_part. rewrite !omap_app. destruct o as [i k|o]; simpl.
      + destruct (answered _ _ _) eqn:Ea; simpl.
        * destruct (rstep cfg so (q_refl x, q_store x) i) as [[r s] out] eqn:Es. simpl. rewrite app_nil_r. split; [done|].
          apply exec_snoc. eauto.
        * rewrite !app_nil_r. done.
      + destruct (cstep (q_reg x) o) as [reg res] eqn:Ec. simpl. rewrite app_nil_r. split; [|done]. apply exec_snoc. eauto.
  Qed.

  Lemma step_of s0 (h : hist) i o x : exec qstep (q_init s0) (h ++ [(i, o)]) x → ∃ y, exec qstep (q_init s0) h y ∧ qstep y i = (x, o).
  Proof. by intros ?%exec_snoc. Qed.

  (** what a request looks like when it is sent *)
  Lemma sent_inv s0 (h : hist) i k q out x : exec qstep (q_init s0) (h ++ [(QIn i k, QSent (Some q) out)]) x →
    ∃ y c, exec qstep (q_init s0) h y ∧ qstep y (QIn i k) = (x, QSent (Some q) out) ∧ rest_client_for_gvk g (q_reg y) = CClient c ∧
      ((i = IListFails ∨ ∃ l rv, i = IList l rv) ∧ r_pc (q_refl y) = RIdle ∧ q = Request false c (get_lister ns) (get_kwargs ns list_options) ∨
       (i = IWatchFails ∨ i = IWatch) ∧ r_pc (q_refl y) = RReady ∧ q = Request true c (get_lister ns) (get_kwargs ns (watch_options (r_opt (q_refl y)) k))).
  Proof.
    intros (y & Hy & Hs)%step_of. pose proof Hs as Hs'. simpl in Hs. destruct (answered _ _ _); [|done].
    destruct (rstep _ _ _ _) as [[r s] out'] eqn:Er. injection Hs as <- Hq <-.
    unfold sent, list_func, watch_func in Hq. 
    destruct i, (r_pc (q_refl y)) eqn:Epc; try done; destruct (rest_client_for_gvk g (q_reg y)) eqn:Ec; try done; injection Hq as <-; exists y, c; naive_solver.
  Qed.

  Lemma truthy_cases : (truthy ns = None ∧ ∀ n, wanted ns n) ∨ ∃ n, truthy ns = Some n ∧ ∀ n', wanted ns n' ↔ n' = n.
  Proof.
    unfold truthy, wanted. destruct ns as [n|]; [destruct (decide (n = ""%string)) as [->|]|].
    - left. naive_solver.
    - right. exists n. naive_solver.
    - left. naive_solver.
  Qed.

  Lemma scope s0 (h : hist) i k q out x : exec qstep (q_init s0) (h ++ [(QIn i k, QSent (Some q) out)]) x →
    valid q ∧ ∀ n, selects q n ↔ wanted ns n.
  Proof.
    intros (y & c & _ & _ & _ & Hq)%sent_inv. unfold valid, selects, arg.
    assert (q_method q = get_lister ns ∧ ∃ o, q_kwargs q = get_kwargs ns o ∧ dget "namespace"%string o = None ∧ NoDup o.*1) as (-> & o & -> & Ho & Hnd).
    { destruct Hq as [(_ & _ & ->)|(_ & _ & ->)]; (split; [done|]); eexists; (split; [done|]); (split; [done|]); apply (bool_decide_unpack _); vm_compute; done. }
    unfold get_lister, get_kwargs. destruct truthy_cases as [[-> Hw]|(n & -> & Hw)].
    - rewrite Ho. repeat split; try done; by intros [??].
    - rewrite dget_dset_eq. repeat split; try done.
      + fold (dkeys (dset "namespace"%string (VNamespace n) o)). by apply dwf_dset.
      + intros [= ->]. by apply Hw.
      + intros ->%Hw. done.
  Qed.

  Lemma arg_kwargs (o : dict string (value RV)) a : a ≠ "namespace"%string → dget a (get_kwargs ns o) = dget a o.
  Proof. intros. unfold get_kwargs. destruct (truthy ns); [|done]. by rewrite dget_dset_ne. Qed.
  Lemma list_request s0 (h : hist) i k q out x : exec qstep (q_init s0) (h ++ [(QIn i k, QSent (Some q) out)]) x → q_watch q = false →
    arg q "resource_version" = Some (VText "0") ∧ (∀ a, is_Some (arg q a) → a = "resource_version" ∨ a = "namespace")%string.
  Proof.
    intros (y & c & _ & _ & _ & Hq)%sent_inv Hw. destruct Hq as [(_ & _ & ->)|(_ & _ & ->)]; [|done]. unfold arg. simpl.
    rewrite arg_kwargs by done. split; [done|]. intros a Ha. destruct (decide (a = "namespace"%string)); [by right|]. rewrite arg_kwargs in Ha by done.
    cbn [list_options dget] in Ha. left. case_decide; [done|]. by destruct Ha.
  Qed.
  Lemma watch_request s0 (h : hist) i k q out x : exec qstep (q_init s0) (h ++ [(QIn i k, QSent (Some q) out)]) x → q_watch q = true → (0 <= k < 2 ^ 53)%Z →
    (∃ v, arg q "resource_version" = Some (VVersion v) ∧ synced cfg (reverse (refl_part h)) v) ∧
    (∃ n, arg q "timeout_seconds" = Some (VInt n) ∧ 300 <= n <= 600)%Z ∧
    (∀ a, is_Some (arg q a) → a = "resource_version" ∨ a = "timeout_seconds" ∨ a = "namespace")%string.
  Proof.
    intros Hx Hw Hk. pose proof Hx as Hx'. apply parts in Hx as [_ Hx].
    apply sent_inv in Hx' as (y & c & Hy & Hs & _ & Hq). destruct Hq as [(_ & _ & ->)|(Hi & Hpc & ->)]; [done|]. unfold arg. simpl.
    rewrite !arg_kwargs by done. split; [|split].
    - exists (r_opt (q_refl y)). split; [done|].
      unfold refl_part in Hx. rewrite omap_app in Hx. simpl in Hx. eapply watch_from_synced; [exact Hx|].
      simpl in Hs. destruct (answered _ _ _); [|done]. unfold rstep in Hs. destruct Hi as [-> | ->]; rewrite Hpc in Hs; injection Hs as <- _ <-; by left.
    - exists (timeout_seconds k). split; [done|]. by apply timeout_bounds.
    - intros a Ha. destruct (decide (a = "namespace"%string)); [by auto|]. rewrite arg_kwargs in Ha by done.
      unfold watch_options in Ha. rewrite dget_dset in Ha. cbn [dget] in Ha. repeat case_decide; auto. by destruct Ha.
  Qed.
  Lemma client_request s0 (h : hist) i k q out x : exec qstep (q_init s0) (h ++ [(QIn i k, QSent (Some q) out)]) x →
    ∃ d, first_def g (defs (reg_part h)) = Some d ∧ q_client q = d_cls d.
  Proof.
    intros (y & c & Hy & _ & Hc & Hq)%sent_inv. apply parts in Hy as [Hr _]. pose proof (client_for _ _ g Hr) as Hf. simpl in Hf. rewrite Hc in Hf.
    destruct (first_def g _) as [d|]; [|done]. exists d. split; [done|]. injection Hf as ->. by destruct Hq as [(_ & _ & ->)|(_ & _ & ->)].
  Qed.

  (** an open watch was requested *)
  Definition open (p : rpc) : Prop := match p with RWatching _ | RHung => True | _ => False end.
  Lemma opens r s i r' s' out : rstep cfg so (r, s) i = ((r', s'), out) → open (r_pc r') → i = IWatch ∧ r_pc r = RReady ∨ open (r_pc r).
  Proof.
    unfold rstep. intros Hs Ho. destruct i; destruct (r_pc r) eqn:Epc; simpl; auto; repeat case_match; simplify_eq; simpl in *; rewrite ?Epc in Ho; done.
  Qed.
  Lemma snoc_none (h : hist) o o' : (∀ q out, o' ≠ QSent (Some q) out) → last_watch (h ++ [(o, o')]) = last_watch h.
  Proof. intros Hn. unfold last_watch. rewrite omap_app. simpl. destruct o' as [[q|] out| |]; simpl; rewrite ?app_nil_r; try done. by destruct (Hn q out). Qed.
  Lemma watch_open s0 (h : hist) x : exec qstep (q_init s0) h x → open (r_pc (q_refl x)) → ∃ q, last_watch h = Some q ∧ ∀ n, selects q n ↔ wanted ns n.
  Proof.
    intros Hx. pose (P := λ (h : hist) (x : qstate G T RV S), open (r_pc (q_refl x)) → ∃ q, last_watch h = Some q ∧ ∀ n, selects q n ↔ wanted ns n).
    refine (exec_trace_inv qstep P _ h x _ _ Hx); [intros []|]. clear h x Hx. subst P. intros h x o Hx IH. simpl in IH. simpl.
    destruct o as [i k|o].
    2:{ simpl. destruct (cstep _ _) as [reg res]. simpl. rewrite snoc_none by done. exact IH. }
    destruct (qstep x (QIn i k)) as [x' o'] eqn:Eq. simpl. pose proof Eq as Eq'. simpl in Eq. destruct (answered _ _ _) eqn:Ea; simpl.
    2:{ injection Eq as <- <-. rewrite snoc_none by done. exact IH. }
    destruct (rstep cfg so (q_refl x, q_store x) i) as [[r s] out] eqn:Es. injection Eq as <- <-. simpl. intros Ho.
    destruct (opens _ _ _ _ _ _ Es Ho) as [[-> Hpc]|Ho'].
    - unfold answered in Ea. unfold sent, watch_func in *. rewrite Hpc in *. destruct (rest_client_for_gvk g (q_reg x)) eqn:Ec; try done.
      eexists. split; [unfold last_watch; rewrite omap_app; simpl; by rewrite last_snoc|].
      assert (exec qstep (q_init s0) (h ++ [(QIn IWatch k, QSent (Some (Request true c (get_lister ns) (get_kwargs ns (watch_options (r_opt (q_refl x)) k)))) out)]) (QState r s (q_reg x))) as He.
      { apply exec_snoc. exists x. split; [done|]. rewrite Eq'. done. }
      apply scope in He as [_ Hs]. exact Hs.
    - assert (sent (T:=T) (q_reg x) g ns (q_refl x) i k = None) as ->.
      { unfold sent. destruct i, (r_pc (q_refl x)); done. }
      rewrite snoc_none by done. auto.
  Qed.
  (** nothing but what is wanted reaches the store *)
  Lemma only_wanted (nsof : O → string) s0 (h : hist) x : exec qstep (q_init s0) h x → honest nsof h →
    ∀ i q out c o, (i, QSent q out) ∈ h → c ∈ out → o ∈ call_objs c → wanted ns (nsof o).
  Proof.
    intros Hx Hh i0 q out c o (h1 & h2 & ->)%elem_of_list_split Hc Ho.
    apply exec_app in Hx as (y & Hy & (z & Hz & _)%exec_cons_iff).
    destruct i0 as [i k|cc]; [|simpl in Hz; by destruct (cstep _ _)].
    specialize (Hh h1 i k q out h2 eq_refl).
    assert (exec qstep (q_init s0) (h1 ++ [(QIn i k, QSent q out)]) z) as Hsn by (apply exec_snoc; eauto).
    simpl in Hz. destruct (answered _ _ _) eqn:Ea; [|done].
    destruct (rstep cfg so (q_refl y, q_store y) i) as [[r s] out'] eqn:Es. injection Hz as <- Eq <-. unfold rstep in Es.
    destruct i; destruct (r_pc (q_refl y)) eqn:Epc; try (repeat case_match; simplify_eq; repeat (apply elem_of_cons in Hc as [->|Hc]); try (by apply elem_of_nil in Hc); by apply elem_of_nil in Ho).
    - destruct (rest_client_for_gvk g (q_reg y)) eqn:Ec; simpl in Ea; rewrite Ec in Ea; try done.
      unfold sent, list_func in Eq. rewrite Epc, Ec in Eq. subst q. apply scope in Hsn as [_ Hs]. apply Hs. eapply Hh; [done|].
      destruct (so_replace _ _ _ _) as [? []]; simplify_eq; set_solver.
    - destruct (watch_open _ _ _ Hy) as (q' & Hl & Hs); [rewrite Epc; exact I|]. apply Hs. replace o with (e_obj e); [by apply Hh|].
      unfold apply_event in Es. repeat case_match; simplify_eq; try (by apply elem_of_nil in Hc);
        apply elem_of_list_singleton in Hc as ->; by apply elem_of_list_singleton in Ho as ->.
  Qed.
  (** a list that was answered, and a watch that was opened, was asked for *)
  Lemma asked_for s0 (h : hist) x i k q out c : exec qstep (q_init s0) h x → (QIn i k, QSent q out) ∈ h → c ∈ out →
    match c, i with
    | CReplace _ _ _, _ => ∃ q', q = Some q' ∧ q_watch q' = false
    | CWatch _, IWatch => ∃ q', q = Some q' ∧ q_watch q' = true
    | _, _ => True
    end.
  Proof.
    intros Hx (h1 & h2 & ->)%elem_of_list_split Hc. apply exec_app in Hx as (y & Hy & (z & Hz & _)%exec_cons_iff).
    simpl in Hz. destruct (answered _ _ _) eqn:Ea; [|done].
    destruct (rstep cfg so (q_refl y, q_store y) i) as [[r s] out'] eqn:Es. injection Hz as <- Eq <-. unfold rstep in Es.
    destruct c; try done; [|destruct i; try done]; [destruct i|]; destruct (r_pc (q_refl y)) eqn:Epc; unfold apply_event in Es; try (repeat case_match; simplify_eq; set_solver).
    - simpl in Ea. unfold sent, list_func in Eq. rewrite Epc in Eq. destruct (rest_client_for_gvk g (q_reg y)); try done. eauto.
    - simpl in Ea. unfold sent, watch_func in Eq. rewrite Epc in Eq. destruct (rest_client_for_gvk g (q_reg y)); try done. eauto.
  Qed.
  (** without a client nothing is asked for, and the store is left alone *)
  Lemma unregistered s0 (h : hist) x : exec qstep (q_init s0) h x → (∀ d, d ∈ defs (reg_part h) → d_gvk d ≠ Some g) →
    q_store x = s0 ∧ ∀ i q out, (i, QSent q out) ∈ h → q = None.
  Proof.
    intros Hx Hd.
    pose (P := λ (h : hist) (x : qstate G T RV S), (∀ d, d ∈ defs (reg_part h) → d_gvk d ≠ Some g) →
      (r_pc (q_refl x) = RIdle ∨ r_pc (q_refl x) = RCancelled) ∧ q_store x = s0 ∧ ∀ i q out, (i, QSent q out) ∈ h → q = None).
    assert (P h x) as HP; [|by apply HP].
    refine (exec_trace_inv qstep P _ h x _ _ Hx).
    { intros _. split; [by left|]. split; [done|]. intros ??? []%elem_of_nil. }
    clear h x Hx Hd. subst P. simpl. intros h x o Hx IH Hd.
    assert (∀ d, d ∈ defs (reg_part h) → d_gvk d ≠ Some g) as Hd'.
    { intros d Hdd. apply Hd. unfold defs, reg_part in *. rewrite !omap_app. apply elem_of_app. by left. }
    destruct (IH Hd') as (Hpc & Hst & Hq). apply parts in Hx as [Hr _].
    assert (rest_client_for_gvk g (q_reg x) = CKeyError) as Hc.
    { pose proof (client_for _ _ g Hr) as E. unfold cstep in E. simpl in E. rewrite E.
      destruct (first_def g (defs (reg_part h))) as [d|] eqn:Ef; [|done]. apply first_in in Ef as [Hin Hg]. by destruct (Hd' d Hin). }
    assert (∀ (o' : qinput G T O RV) o'', (∀ q out, o'' = QSent q out → q = None) → ∀ i q out, (i, QSent q out) ∈ h ++ [(o', o'')] → q = None) as Hnew.
    { intros o' o'' Ho i q out [?|Hi]%elem_of_app; [by eapply Hq|]. apply elem_of_list_singleton in Hi as [= -> <-]. eauto. }
    destruct o as [i k|o]; simpl.
    - unfold answered, sent, list_func, watch_func. rewrite Hc. destruct i; simpl; (destruct Hpc as [Hpc|Hpc]); rewrite ?Hpc; unfold rstep; rewrite ?Hpc; simpl;
        rewrite ?Hpc; (split; [by auto|]); (split; [done|]); apply Hnew; naive_solver.
    - destruct (cstep _ _) as [reg res]. simpl. split; [done|]. split; [done|]. by apply Hnew.
  Qed.
End requests.

(** ** a case: a kind that is registered late, in a cache for the namespace "a" *)
Definition rq_cfg : rcfg (string * nat) nat := Rcfg false (λ _, true) None (λ _, None) (λ _, None) (λ _, true) (λ o, Some o.2).
Definition rq_sops : sops (string * nat) nat (list (string * nat)) := Sops (λ _ l _, (l, true)) (λ s o, (s ++ [o], true)) (λ s o, (s ++ [o], true)) (λ s o, (s, true)) (λ s, (s, true)).
Definition rq_step := qstep (G:=nat) (T:=nat) rq_cfg rq_sops 1 (Some "a"%string).
Definition rq_h : list (qinput nat nat (string * nat) nat * qoutput nat (string * nat) nat) :=
  [(QIn IListFails 0, QSent None []);
   (QReg (CDefine (CDef 9 (Some 1) (OType 7))), QRes CDone);
   (QIn (IList [("a"%string, 4)] 5) 0, QSent (Some (Request false 9 MNamespaced [("resource_version", VText "0"); ("namespace", VNamespace "a")]%string)) [CReplace [("a"%string, 4)] 5 true]);
   (QIn IWatch (2 ^ 52), QSent (Some (Request true 9 MNamespaced [("resource_version", VVersion (Some 5)); ("timeout_seconds", VInt 450); ("namespace", VNamespace "a")]%string)) [CWatch (Some 5)]);
   (QIn (IEvent (Event EvAdded ("a"%string, 8))) 0, QSent None [CAdd ("a"%string, 8) true]);
   (QIn (IClose false) 0, QSent None []);
   (QIn IWatch (2 ^ 53 - 1), QSent (Some (Request true 9 MNamespaced [("resource_version", VVersion (Some 8)); ("timeout_seconds", VInt 600); ("namespace", VNamespace "a")]%string)) [CWatch (Some 8)])].
Lemma rq_case : (∃ x, exec rq_step (q_init []) rq_h x ∧ q_store x = [("a"%string, 4); ("a"%string, 8)]) ∧ honest fst rq_h.
Proof.
  split.
  - eexists. split; [apply exec_check; vm_compute; reflexivity|done].
  - intros h1 i k q out h2 E. unfold rq_h in E.
    repeat (destruct h1 as [|x1 h1]; [simpl in E; first [discriminate E|injection E as <- <- <- <- <-; simpl;
      first [exact I|intros ?? [= <-] ->%elem_of_list_singleton; reflexivity|intros ? [= <-]; reflexivity]]|]; injection E as <- E). destruct h1; discriminate E.
Qed.

Lemma timeout_half : timeout_seconds 30023997515803 = 301%Z ∧ timeout_seconds 60047995031605 = 301%Z.
Proof. by vm_compute. Qed.
