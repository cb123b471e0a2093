(** Shared vocabulary: Python containers and labelled machines.

    Nothing here is specific to aiok8s.  Python [set] is a list used through
    membership only, Python [dict] is an insertion-ordered association list
    (CPython >= 3.7 semantics: assignment to an existing key keeps its
    position), [collections.deque] and [list] are lists. *)
From stdpp Require Export prelude.

Section pyset.
  Context {A : Type} `{EqDecision A}.

  (** [s.add(x)] *)
  Definition sadd (x : A) (s : list A) : list A :=
    if decide (x ∈ s) then s else s ++ [x].

  (** [s.discard(x)]; [s.remove(x)] when [x in s] *)
  Definition srem (x : A) (s : list A) : list A := filter (.≠ x) s.

  Lemma elem_of_sadd x y s : y ∈ sadd x s ↔ y = x ∨ y ∈ s.
  Proof.
    unfold sadd. destruct (decide (x ∈ s)); [naive_solver|].
    rewrite elem_of_app, elem_of_list_singleton. naive_solver.
  Qed.

  Lemma elem_of_srem x y s : y ∈ srem x s ↔ y ∈ s ∧ y ≠ x.
  Proof. unfold srem. rewrite elem_of_list_filter. naive_solver. Qed.

  Lemma NoDup_sadd x s : NoDup s → NoDup (sadd x s).
  Proof.
    unfold sadd. intros. case_decide; [done|].
    apply NoDup_app. split; [done|]. split.
    - intros y Hy ->%elem_of_list_singleton. done.
    - apply NoDup_singleton.
  Qed.

  Lemma NoDup_srem x s : NoDup s → NoDup (srem x s).
  Proof. apply NoDup_filter. Qed.

  Lemma srem_notin x s : x ∉ s → srem x s = s.
  Proof.
    induction s as [|y s IH]; [done|]. intros Hx. unfold srem. rewrite filter_cons.
    apply not_elem_of_cons in Hx as [??]. rewrite decide_True by done.
    f_equal. by apply IH.
  Qed.
End pyset.

Notation dict K V := (list (K * V)) (only parsing).

Section pydict.
  Context {K V : Type} `{EqDecision K}.

  (** [d.get(k)] *)
  Fixpoint dget (k : K) (d : dict K V) : option V :=
    match d with
    | [] => None
    | (k', v) :: d' => if decide (k = k') then Some v else dget k d'
    end.

  (** [d[k] = v] *)
  Fixpoint dset (k : K) (v : V) (d : dict K V) : dict K V :=
    match d with
    | [] => [(k, v)]
    | (k', v') :: d' => if decide (k = k') then (k', v) :: d' else (k', v') :: dset k v d'
    end.

  (** [d.pop(k, None)] *)
  Definition ddel (k : K) (d : dict K V) : dict K V := filter (λ p, p.1 ≠ k) d.

  (** [list(d)] and [list(d.values())] *)
  Definition dkeys (d : dict K V) : list K := d.*1.
  Definition dvals (d : dict K V) : list V := d.*2.

  Definition dwf (d : dict K V) : Prop := NoDup (dkeys d).

  Lemma dget_dset k k' v d : dget k' (dset k v d) = if decide (k' = k) then Some v else dget k' d.
  Proof.
    induction d as [|[k1 v1] d IH]; simpl.
    - done.
    - destruct (decide (k = k1)) as [->|]; simpl.
      + destruct (decide (k' = k1)); done.
      + destruct (decide (k' = k1)) as [->|].
        * rewrite decide_False by done. done.
        * apply IH.
  Qed.
  Lemma dget_dset_eq k v d : dget k (dset k v d) = Some v.
  Proof. rewrite dget_dset. by rewrite decide_True. Qed.
  Lemma dget_dset_ne k k' v d : k' ≠ k → dget k' (dset k v d) = dget k' d.
  Proof. intros. rewrite dget_dset. by rewrite decide_False. Qed.

  Lemma dget_ddel k k' d : dget k' (ddel k d) = if decide (k' = k) then None else dget k' d.
  Proof.
    unfold ddel. induction d as [|[k1 v1] d IH].
    - by case_decide.
    - rewrite filter_cons. simpl. destruct (decide (k1 ≠ k)) as [Hn|Hn].
      + simpl. destruct (decide (k' = k1)) as [->|].
        * by rewrite decide_False.
        * apply IH.
      + apply dec_stable in Hn as ->. rewrite IH.
        destruct (decide (k' = k)); [done|]. done.
  Qed.
  Lemma dget_ddel_eq k d : dget k (ddel k d) = None.
  Proof. rewrite dget_ddel. by rewrite decide_True. Qed.
  Lemma dget_ddel_ne k k' d : k' ≠ k → dget k' (ddel k d) = dget k' d.
  Proof. intros. rewrite dget_ddel. by rewrite decide_False. Qed.

  Lemma elem_of_dkeys k d : k ∈ dkeys d ↔ is_Some (dget k d).
  Proof.
    unfold dkeys. induction d as [|[k1 v1] d IH]; simpl.
    - split; [by intros ?%elem_of_nil | by intros [??]].
    - rewrite elem_of_cons. destruct (decide (k = k1)); naive_solver.
  Qed.
  Lemma not_elem_of_dkeys k d : k ∉ dkeys d ↔ dget k d = None.
  Proof. rewrite elem_of_dkeys. symmetry. apply eq_None_not_Some. Qed.

  Lemma dget_elem_of k v d : dget k d = Some v → (k, v) ∈ d.
  Proof.
    induction d as [|[k1 v1] d IH]; simpl; [done|].
    destruct (decide (k = k1)) as [->|]; intros.
    - simplify_eq. by left.
    - right. by apply IH.
  Qed.
  Lemma elem_of_dget k v d : dwf d → (k, v) ∈ d → dget k d = Some v.
  Proof.
    unfold dwf, dkeys. induction d as [|[k1 v1] d IH]; simpl; [by intros _ ?%elem_of_nil|].
    rewrite NoDup_cons. intros [Hn Hd] [Heq|Hin]%elem_of_cons.
    - simplify_eq. by rewrite decide_True.
    - destruct (decide (k = k1)) as [->|].
      + exfalso. apply Hn. apply elem_of_list_fmap. exists (k1, v). done.
      + by apply IH.
  Qed.
  Lemma dget_iff k v d : dwf d → (k, v) ∈ d ↔ dget k d = Some v.
  Proof. split; [by apply elem_of_dget | apply dget_elem_of]. Qed.
  Lemma elem_of_dvals v d : dwf d → v ∈ dvals d ↔ ∃ k, dget k d = Some v.
  Proof.
    intros Hwf. unfold dvals. rewrite elem_of_list_fmap. split.
    - intros [[k v'] [-> Hin]]. exists k. by apply elem_of_dget.
    - intros [k Hk%dget_elem_of]. by exists (k, v).
  Qed.

  Lemma dkeys_dset k v d :
    dkeys (dset k v d) = if decide (k ∈ dkeys d) then dkeys d else dkeys d ++ [k].
  Proof.
    unfold dkeys. induction d as [|[k1 v1] d IH]; csimpl.
    - destruct (decide (k ∈ [])) as [?%elem_of_nil|]; done.
    - destruct (decide (k = k1)) as [->|]; csimpl.
      + rewrite decide_True; [done|by left].
      + rewrite IH. destruct (decide (k ∈ d.*1)) as [Hin|Hin].
        * rewrite decide_True; [done|by right].
        * rewrite decide_False; [done|]. by intros [?|?]%elem_of_cons.
  Qed.
  Lemma dkeys_ddel k d : dkeys (ddel k d) = srem k (dkeys d).
  Proof.
    unfold dkeys, ddel, srem. induction d as [|[k1 v1] d IH]; [done|].
    rewrite filter_cons. csimpl. rewrite filter_cons.
    destruct (decide (k1 ≠ k)); csimpl; by rewrite IH.
  Qed.
  Lemma dwf_dset k v d : dwf d → dwf (dset k v d).
  Proof.
    unfold dwf. rewrite dkeys_dset. intros. case_decide; [done|].
    apply NoDup_app. split; [done|]. split.
    - intros y Hy ->%elem_of_list_singleton. done.
    - apply NoDup_singleton.
  Qed.
  Lemma dwf_ddel k d : dwf d → dwf (ddel k d).
  Proof. unfold dwf. rewrite dkeys_ddel. apply NoDup_srem. Qed.
  Lemma dget_nil k : dget k [] = None.
  Proof. done. Qed.
  Lemma dget_cons k k' v d : dget k ((k', v) :: d) = if decide (k = k') then Some v else dget k d.
  Proof. done. Qed.
  Lemma dwf_nil : dwf [].
  Proof. apply NoDup_nil_2. Qed.
End pydict.
#[global] Opaque dget dset.

(** number of elements satisfying a test *)
Definition countb {X : Type} (f : X → bool) (l : list X) : nat := length (List.filter f l).
Lemma countb_nil {X} (f : X → bool) : countb f [] = 0.
Proof. done. Qed.
Lemma countb_cons {X} (f : X → bool) x l : countb f (x :: l) = (if f x then 1 else 0) + countb f l.
Proof. unfold countb. simpl. by destruct (f x). Qed.
Lemma countb_app {X} (f : X → bool) l1 l2 : countb f (l1 ++ l2) = countb f l1 + countb f l2.
Proof. induction l1 as [|x l1 IH]; [done|]. simpl. rewrite !countb_cons, IH. lia. Qed.
Lemma countb_perm {X} (f : X → bool) l1 l2 : l1 ≡ₚ l2 → countb f l1 = countb f l2.
Proof. induction 1; rewrite ?countb_cons; lia. Qed.
Lemma countb_zero {X} (f : X → bool) l : countb f l = 0 ↔ ∀ x, x ∈ l → f x = false.
Proof.
  induction l as [|x l IH]; rewrite ?countb_cons; [split; [intros _ x Hx; by apply elem_of_nil in Hx|done]|].
  destruct (f x) eqn:Hf; simpl.
  - split; [lia|]. intros Hall. specialize (Hall x ltac:(left)). congruence.
  - rewrite IH. split; [|intros Hall y Hy; apply Hall; by right].
    intros Hall y [->|Hy]%elem_of_cons; [done|by apply Hall].
Qed.

(** ** Labelled machines and their histories *)
Section machine.
  Context {S O R : Type} (step : S → O → S * R).

  (** [exec s h s']: starting in [s], performing the calls of [h] one after the
      other returns the recorded results and ends in [s']. *)
  Inductive exec : S → list (O * R) → S → Prop :=
  | exec_nil s : exec s [] s
  | exec_cons s o r s1 h s2 : step s o = (s1, r) → exec s1 h s2 → exec s ((o, r) :: h) s2.

  Lemma exec_app s h1 h2 s' : exec s (h1 ++ h2) s' ↔ ∃ m, exec s h1 m ∧ exec m h2 s'.
  Proof.
    revert s. induction h1 as [|[o r] h1 IH]; intros s; simpl.
    - split; [intros; by exists s; split; [constructor|] | by intros (m & H & ?); inversion H; subst].
    - split.
      + inversion 1; subst. edestruct IH as [IH' _]. destruct IH' as (m & ? & ?); [done|].
        exists m. split; [by econstructor|done].
      + intros (m & H & ?). inversion H; subst. econstructor; [done|]. apply IH. eauto.
  Qed.
  Lemma exec_one s o r s' : exec s [(o, r)] s' ↔ step s o = (s', r).
  Proof.
    split; [inversion 1; subst; by match goal with H : exec _ [] _ |- _ => inversion H; subst end|].
    intros. econstructor; [done|constructor].
  Qed.
  Lemma exec_snoc s h o r s' : exec s (h ++ [(o, r)]) s' ↔ ∃ m, exec s h m ∧ step m o = (s', r).
  Proof. rewrite exec_app. by setoid_rewrite exec_one. Qed.
  Lemma exec_cons_iff s o r h s' : exec s ((o, r) :: h) s' ↔ ∃ m, step s o = (m, r) ∧ exec m h s'.
  Proof. split; [inversion 1; subst; eauto | intros (m & ? & ?); by econstructor]. Qed.
  Lemma exec_nil_iff s s' : exec s [] s' ↔ s = s'.
  Proof. split; [by inversion 1 | intros ->; constructor]. Qed.
  Lemma exec_det s h s1 s2 : exec s h s1 → exec s h s2 → s1 = s2.
  Proof.
    intros H. revert s2. induction H; intros ?; inversion 1; subst; [done|].
    apply IHexec. congruence.
  Qed.
  Lemma exec_inv (P : S → Prop) s h s' :
    (∀ s o, P s → P (step s o).1) → P s → exec s h s' → P s'.
  Proof.
    intros Hstep Hs H. induction H as [|?????? Heq ? IH]; [done|].
    apply IH. specialize (Hstep s o Hs). by rewrite Heq in Hstep.
  Qed.
  (** trace-indexed invariant: induct on the history from the right *)
  Lemma exec_trace_inv (P : list (O * R) → S → Prop) s0 h s :
    P [] s0 →
    (∀ h s o, exec s0 h s → P h s → P (h ++ [(o, (step s o).2)]) (step s o).1) →
    exec s0 h s → P h s.
  Proof.
    intros H0 Hstep. revert s. induction h as [|[o r] h IH] using rev_ind; intros s.
    - by intros ->%exec_nil_iff.
    - intros (m & Hm & Hs)%exec_snoc. specialize (Hstep h m o Hm (IH m Hm)).
      by rewrite Hs in Hstep.
  Qed.
  (** the unique run of a list of calls *)
  Fixpoint run (s : S) (os : list O) : S * list (O * R) :=
    match os with
    | [] => (s, [])
    | o :: os => let '(s1, r) := step s o in let '(s2, h) := run s1 os in (s2, (o, r) :: h)
    end.
  Lemma run_exec s os : exec s (run s os).2 (run s os).1.
  Proof.
    revert s. induction os as [|o os IH]; intros s; simpl; [constructor|].
    destruct (step s o) as [s1 r] eqn:?. specialize (IH s1).
    destruct (run s1 os) as [s2 h] eqn:?. econstructor; eauto.
  Qed.
  Lemma run_calls s os : (run s os).2.*1 = os.
  Proof.
    revert s. induction os as [|o os IH]; intros s; simpl; [done|].
    destruct (step s o) as [s1 r]. specialize (IH s1). destruct (run s1 os). csimpl. by rewrite <-IH.
  Qed.
  Lemma exec_check s h s' : run s h.*1 = (s', h) → exec s h s'.
  Proof. intros Heq. pose proof (run_exec s h.*1) as Hx. by rewrite Heq in Hx. Qed.
  Lemma exec_run s h s' : exec s h s' → run s h.*1 = (s', h).
  Proof. induction 1 as [|?????? Heq ? IH]; [done|]. csimpl. by rewrite Heq, IH. Qed.
End machine.

(** ** Reachability in a labelled transition system *)
Section lts.
  Context {S L : Type} (trans : S → L → S → Prop).
  Inductive reach (s : S) : list L → S → Prop :=
  | reach_nil : reach s [] s
  | reach_snoc ls s1 l s2 : reach s ls s1 → trans s1 l s2 → reach s (ls ++ [l]) s2.

  Lemma reach_inv (P : S → Prop) s ls s' :
    (∀ s l s', P s → trans s l s' → P s') → P s → reach s ls s' → P s'.
  Proof. intros Hp Hs. induction 1; eauto. Qed.
  Lemma reach_trace_inv (P : list L → S → Prop) s0 ls s :
    P [] s0 →
    (∀ ls s l s', reach s0 ls s → P ls s → trans s l s' → P (ls ++ [l]) s') →
    reach s0 ls s → P ls s.
  Proof. intros Hs Hp. induction 1; eauto. Qed.
  Lemma reach_app s l1 s1 l2 s2 : reach s l1 s1 → reach s1 l2 s2 → reach s (l1 ++ l2) s2.
  Proof.
    intros H1. induction 1; [by rewrite app_nil_r|]. rewrite app_assoc. econstructor; eauto.
  Qed.
  Lemma reach_app_inv s l1 l2 s2 : reach s (l1 ++ l2) s2 → ∃ s1, reach s l1 s1 ∧ reach s1 l2 s2.
  Proof.
    revert s2. induction l2 as [|l l2 IH] using rev_ind; intros s2.
    - rewrite app_nil_r. intros. exists s2. split; [done|constructor].
    - rewrite app_assoc. inversion 1 as [|ls' s1 l' ? Hr Ht]; simplify_eq.
      + by destruct (l1 ++ l2).
      + match goal with H : _ ++ [_] = _ ++ [_] |- _ => apply app_inj_tail in H as [-> ->] end.
        destruct (IH _ Hr) as (m & ? & ?). exists m. split; [done|]. econstructor; eauto.
  Qed.
  Lemma reach_one s l s' : trans s l s' → reach s [l] s'.
  Proof. intros. eapply (reach_snoc _ []); [constructor|done]. Qed.
  Lemma reach_one_inv s l s' : reach s [l] s' → trans s l s'.
  Proof.
    inversion 1 as [|ls s1 l' s2 Hr Ht Heq]; subst.
    destruct ls as [|? ls]; [|by destruct ls]. simplify_eq/=. inversion Hr; [by subst|].
    by destruct ls.
  Qed.
  Lemma reach_cons s l s1 ls s2 : trans s l s1 → reach s1 ls s2 → reach s (l :: ls) s2.
  Proof. intros. apply (reach_app s [l] s1); [by apply reach_one|done]. Qed.
End lts.

(** concrete executions: take one transition with [tac], then compute the state *)
Ltac compute_state :=
  match goal with |- reach _ ?s _ _ =>
    let s' := eval vm_compute in s in
    let H := fresh in assert (H : s = s') by (vm_compute; reflexivity); rewrite H; clear H
  end.
Tactic Notation "do_step" tactic3(tac) := eapply reach_cons; [tac|]; compute_state.
