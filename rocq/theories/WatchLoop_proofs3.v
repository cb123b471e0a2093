(** Simulation: what list_and_watch does on the event loop is what Reflector_model does for some inputs. *)
From Verif Require Import Base Reflector_model WatchLoop_model WatchLoop_spec WatchLoop_proofs WatchLoop_proofs2.

Section loop.
  Context {O RV St : Type} (g : rcfg O RV) (q : sops O RV St).
  Implicit Types (s : wstate O RV St) (r : refl RV).
  Ltac explode s := destruct s as [pc rd wn fi ca re k ev er eq rs ct la op st pu se cs]; unfold in_wait in *; simpl in *.

  (** nothing before the task that gets the error can wake the handler *)
  Definition harmless (n : nat) (h : handle) : Prop := match h with HRead => True | HDone m => m ≠ n | _ => False end.
  Definition first (er : gtask unit) (eq : bool) (rd : list handle) (wn : nat) : Prop :=
    er = GDone tt ∨ eq = true ∧ (er = GNew false ∨ er = GWait (WWoken false)) ∧ ∃ l1 l2, rd = l1 ++ HError :: l2 ∧ Forall (harmless wn) l1.

  Definition err_rel s (x : rerr) : Prop :=
    match x with
    | ENone => w_errq s = false ∧ w_error s ≠ GDone tt
    | EQueued => w_errq s = true ∨ w_error s = GDone tt
    | EReady => match w_pc s with PWait => first (w_error s) (w_errq s) (w_ready s) (w_wait s) | PClosing _ => True | _ => False end
    end.

  Record Rel s r : Prop := {
    rel_last : r_last r = w_last s;
    rel_opt : r_opt r = w_opt s;
    rel_pc : r_pc r = place (w_pc s) (w_count s);
    rel_err : w_pc s ≠ PReturned → w_pc s ≠ PCancelled → err_rel s (r_err r);
    rel_resync : w_resync s = true → r_err r = ENone;
    rel_at : match w_pc s with
             | PReady => w_error s ≠ GDone tt
             | PStore e rv => classify g e = KTake rv
             | PClosing why => match why with
                               | ISeeError => r_err r ≠ ENone
                               | IClose _ => w_error s ≠ GDone tt ∧ r_err r ≠ EReady
                               | IEvent e => classify g e = KRaise
                               | ICancel => True
                               | _ => False
                               end
             | _ => True
             end
  }.

  (** ** The error comes first *)
  Lemma first_more er eq rd hs wn : first er eq rd wn → first er eq (rd ++ hs) wn.
  Proof. intros [?|(? & ? & l1 & l2 & -> & Hl)]; [by left|]. right. split; [done|]. split; [done|]. exists l1, (l2 ++ hs). by rewrite <-app_assoc. Qed.
  Lemma first_pop er eq h rd wn : first er eq (h :: rd) wn → er = GDone tt ∨ h = HError ∨ harmless wn h ∧ first er eq rd wn.
  Proof.
    intros [?|(? & ? & [|h' l1] & l2 & Heq & Hl)]; [by left| |]; simplify_eq/=; [by right; left|]. apply Forall_cons in Hl as [Hh Hl].
    right. right. split; [done|]. right. split; [done|]. split; [done|]. by exists l1, l2.
  Qed.

  Lemma first_split rd wn : countb isE rd = 0 → countb isH rd = 0 → countb isX rd = 1 → (∀ n, HDone n ∈ rd → n < wn) →
    ∃ l1 l2, rd = l1 ++ HError :: l2 ∧ Forall (harmless wn) l1.
  Proof.
    induction rd as [|h rd IH]; [done|]. rewrite !countb_cons. intros He Hh Hx Hn. destruct h as [| | |n|]; simpl in *; try lia.
    - destruct IH as (l1 & l2 & -> & Hl); try done; [intros n Hn1; apply Hn; by right|]. exists (HRead :: l1), l2. split; [done|]. by constructor.
    - by exists [], rd.
    - destruct IH as (l1 & l2 & -> & Hl); try done; [intros m Hm; apply Hn; by right|]. exists (HDone n :: l1), l2. split; [done|]. constructor; [|done].
      simpl. assert (n < wn) by (apply Hn; left). lia.
  Qed.

  (** when the handler waits again an error that is there comes first *)
  Lemma wait_first s x : x ≠ EReady → err_rel s x → live (w_error s) = true → (w_error s = GWait WPending → w_errq s = false) →
    countb isE (w_ready s) = 0 → countb isH (w_ready s) = 0 → countb isX (w_ready s) = b2n (sched (w_error s)) →
    (∀ n, HDone n ∈ w_ready s → n ≤ w_wait s) → err_rel (begin_wait s) (notice x).
  Proof.
    intros Hx Hr Hl Hp He Hh Hc Hn. destruct x; [exact Hr| |done]. simpl in *. destruct Hr as [Hq|Hd]; [|by left].
    destruct (w_error s) as [[]|[|[]|]|[]|]; try done; try (rewrite Hp in Hq by done; done); try (by left); right.
    all: split; [done|]; split; [auto|].
    all: destruct (first_split (w_ready s) (S (w_wait s))) as (l1 & l2 & -> & Hl1); [done|done|done|intros n Hn1; apply Hn in Hn1; lia|].
    all: exists l1, (l2 ++ [HEvent]); split; [by rewrite <-app_assoc|done].
  Qed.

  Definition same_rel s r s' : Prop := w_store s' = w_store s ∧ w_calls s' = w_calls s ∧ Rel s' r.
  (** which inputs are made *)
  Definition fits s (i : rinput O RV) s' : Prop :=
    match i with
    | ILast | IList _ _ | IListFails | IStreamRaises => False
    | IEvent e => (∃ rv, w_pc s = PStore e rv) ∨ (∀ rv, classify g e ≠ KTake rv) ∨ w_pc s = PWait ∧ w_seen s' = w_seen s ++ [e] ∧ stores (e_type e) = false
    | _ => True
    end.
  Definition moved s r s' : Prop :=
    same_rel s r s' ∨ ∃ i r' out, (fits s i s' ∧ rstep g q (r, w_store s) i = ((r', w_store s'), out)) ∧ w_calls s' = w_calls s ++ out ∧ Rel s' r'.

  Ltac fields :=
    match goal with H : Rel _ _ |- _ => destruct H as [Hla Hop Hpl Her Hrs Hat] end.


  Lemma Rel_quiet s r s' : Rel s r → w_pc s' = w_pc s → w_last s' = w_last s → w_opt s' = w_opt s → w_count s' = w_count s → w_resync s' = w_resync s →
    w_errq s' = w_errq s → w_error s' = w_error s →
    (w_pc s = PWait → first (w_error s) (w_errq s) (w_ready s) (w_wait s) → first (w_error s) (w_errq s) (w_ready s') (w_wait s')) → Rel s' r.
  Proof.
    intros [Hla Hop Hpl Her Hrs Hat] E1 E2 E3 E4 E5 E6 E7 E8. split; rewrite ?E1, ?E2, ?E3, ?E4, ?E5, ?E6, ?E7; try done.
    intros Hn1 Hn2. specialize (Her Hn1 Hn2). destruct (r_err r); simpl in *; rewrite ?E1, ?E6, ?E7; try done. destruct (w_pc s); try done. by apply E8.
  Qed.

  (** a callback other than the one of the error, and what becomes ready *)
  Lemma first_next er eq h hs xs wn : h ≠ HError → first er eq (h :: hs) wn → first er eq (hs ++ xs) wn.
  Proof. intros Hh Hf. apply first_more. apply first_pop in Hf as [?|[?|[_ ?]]]; [by left|done|done]. Qed.

  Lemma sim_reader s r hs : Rel s r → w_ready s = HRead :: hs → same_rel s r (run_reader (set_ready hs s)).
  Proof.
    intros HR Hrd.
    assert (∃ xs, w_ready (run_reader (set_ready hs s)) = hs ++ xs) as (xs & Hxs).
    { unfold run_reader; simpl. destruct (w_reader s) as [| |es f| |]; try (exists []; by rewrite app_nil_r).
      destruct ((Some <$> es) ++ _); [exists []; by rewrite app_nil_r|]. simpl. eauto. }
    assert (∀ f : wstate O RV St → wstate O RV St, True) as _ by done.
    split; [|split]; try (unfold run_reader; simpl; destruct (w_reader s) as [| |es f| |]; try done; destruct ((Some <$> es) ++ _); done).
    apply (Rel_quiet s); try done; try (unfold run_reader; simpl; destruct (w_reader s) as [| |es f| |]; try done; destruct ((Some <$> es) ++ _); done).
    intros _ Hf. rewrite Hxs. rewrite Hrd in Hf. replace (w_wait (run_reader (set_ready hs s))) with (w_wait s); [by apply (first_next _ _ HRead)|].
    unfold run_reader; simpl; destruct (w_reader s) as [| |es f| |]; try done; destruct ((Some <$> es) ++ _); done.
  Qed.

  Lemma sim_event s r hs : Rel s r → w_ready s = HEvent :: hs → same_rel s r (run_event (set_ready hs s)).
  Proof.
    intros HR Hrd.
    assert (∃ xs ev' k', run_event (set_ready hs s) = set_ready (hs ++ xs) (set_event ev' k' s)) as (xs & ev' & k' & ->).
    { explode s. unfold run_event, push, set_ready, set_event; simpl. destruct ev as [[]|[|[]|]|a|] eqn:Hev; try (destruct k as [|x k]).
      all: first [eexists [], _, _; rewrite app_nil_r; reflexivity|eexists _, _, _; reflexivity|idtac]. all: match goal with |- ?G => idtac G end. }
    split; [done|]. split; [done|]. apply (Rel_quiet s); try done. intros _ Hf. simpl. rewrite Hrd in Hf. by apply (first_next _ _ HEvent).
  Qed.

  Lemma sim_done s r n hs : Rel s r → w_ready s = HDone n :: hs →
    same_rel s r (if (n =? w_wait s) && negb (w_fired s) then push [HHandler] (set_fired true (set_ready hs s)) else set_ready hs s).
  Proof.
    intros HR Hrd. destruct (_ && _); (split; [done|]; split; [done|]; apply (Rel_quiet s); try done; intros _ Hf; simpl; rewrite Hrd in Hf).
    - by apply (first_next _ _ (HDone n)).
    - apply (first_next _ _ _ _ []) in Hf; [|done]. by rewrite app_nil_r in Hf.
  Qed.

  Lemma sim_error s r hs : Inv s → Rel s r → w_ready s = HError :: hs → same_rel s r (run_error (set_ready hs s)).
  Proof.
    intros [He Hx Hh Hf Hw Hpe Hpx Hr Hz Hp] HR Hrd. fields. explode s. subst rd. rewrite countb_cons in Hx. simpl in Hx.
    assert (sched er = true) as Hs by (destruct (sched er); simpl in Hx; [done|lia]).
    unfold run_error; simpl. destruct er as [[]|[|[]|]|[]|]; try done; [| | | |].
    1, 3, 5: (split; [done|]; split; [done|]; split; simpl; [done|done|done| |done| ]; [intros Hn1 Hn2; specialize (Her Hn1 Hn2);
      destruct (r_err r); simpl in *; [by destruct Her|by destruct Her as [?|[=]]; left|destruct pc; try done; by destruct Hp as (_ & [=] & _)]
      |destruct pc as [| | |[]| |]; try done; by destruct Hat]).
    all: assert (pc = PWait ∨ ∃ e rv, pc = PStore e rv) as Hpc by (destruct pc; first [by left|by right; eauto|by destruct Hp as (_ & [=] & _)]).
    all: destruct eq; (split; [done|]; split; [done|]; split; simpl; [done|done|done| |done| ]).
    all: try (by destruct Hpc as [->|(e & rv & ->)]).
    all: intros Hn1 Hn2; specialize (Her Hn1 Hn2); destruct (r_err r); simpl in *.
    all: try (by destruct Her); try (by right); try (by destruct Her as [[=]|[=]]).
    all: try (destruct Hpc as [->|(e & rv & ->)]; [|done]).
    all: try (by left).
    all: destruct Her as [[=]|([=] & _)].
  Qed.

  Lemma cancel_done {A} (x : gtask A) a : cancel_get x = GDone a ↔ x = GDone a.
  Proof. by destruct x as [?|[|?|]|?|]. Qed.

  (** the tasks of the watch are told to stop *)
  Lemma sim_close why s s1 r : Rel s r → w_pc s = PWait ∨ (∃ e rv, w_pc s = PStore e rv) → w_store s1 = w_store s → w_calls s1 = w_calls s →
    w_last s1 = w_last s → w_opt s1 = w_opt s → w_count s1 = w_count s → w_resync s1 = w_resync s → w_errq s1 = w_errq s → w_error s1 = w_error s →
    match why with
    | ISeeError => r_err r ≠ ENone
    | IClose _ => w_error s ≠ GDone tt ∧ r_err r ≠ EReady
    | IEvent e => classify g e = KRaise
    | ICancel => True
    | _ => False
    end → same_rel s r (close why s1).
  Proof.
    intros [Hla Hop Hpl Her Hrs Hat] Hpc E1 E2 E3 E4 E5 E6 E7 E8 Hwhy. split; [done|]. split; [done|]. split; simpl; rewrite ?E3, ?E4, ?E5, ?E6, ?E7, ?E8; try done.
    - rewrite Hpl. by destruct Hpc as [->|(e & rv & ->)].
    - intros _ _. assert (err_rel s (r_err r)) as Her1 by (destruct Hpc as [Hpc|(e & rv & Hpc)]; rewrite Hpc in Her; by apply Her).
      destruct (r_err r); simpl in *; rewrite ?E7, ?E8, ?cancel_done; done.
    - destruct why; try done. rewrite cancel_done. done.
  Qed.

  Lemma sim_handler short s r hs s' : Inv s → Rel s r → w_ready s = HHandler :: hs → run_handler g short (set_ready hs s) = Some s' → moved s r s'.
  Proof.
    intros HI HR Hrd Hs. destruct (Inv_pop_handler _ _ HI Hrd) as (Hpc & Hfi & Hh0 & Hov). pose proof HI as [He Hx Hh Hf Hw Hpe Hpx Hr Hz Hp].
    assert (err_rel s (r_err r)) as Her by (destruct HR as [_ _ _ Her _ _]; rewrite Hpc in Her; by apply Her).
    assert (w_error s ≠ GDone tt → r_err r ≠ EReady) as Hne.
    { intros Hd Hrr. rewrite Hrr in Her. simpl in Her. rewrite Hpc, Hrd in Her. apply first_pop in Her as [?|[[=]|[[] _]]]; done. }
    unfold run_handler in Hs. simpl in Hs. rewrite Hpc in Hs. destruct (w_cancel s).
    { injection Hs as <-. left. apply sim_close; auto. }
    assert (w_error s = GDone tt ∨ w_error s ≠ GDone tt) as [Hd|Hd] by (destruct (w_error s) as [?|?|[]|]; auto).
    { rewrite Hd in Hs. injection Hs as <-. left. apply sim_close; auto. intros Hrr. rewrite Hrr in Her. simpl in Her. by destruct Her. }
    specialize (Hne Hd).
    assert (Hs2 : match w_event s with
      | GDone None => s' = close (IClose short) (set_ready hs s)
      | GDone (Some e) => let s1 := set_seen (w_seen s ++ [e]) (set_ready hs s) in
          s' = match classify g e with KRaise => close (IEvent e) s1 | KSkip => begin_wait s1
               | KTake rv => if stores (e_type e) then set_pc (PStore e rv) s1 else begin_wait (took rv s1) end
      | _ => False end).
    { destruct (w_error s) as [?|?|[]|]; try done; destruct (w_event s) as [?|?|[e|]|]; try done; by injection Hs as <-. }
    clear Hs. destruct (w_event s) as [?|?|[e|]|] eqn:Hev; try done; [|subst s'; left; apply sim_close; auto].
    rewrite Hpc in Hp. destruct Hp as (_ & Hl & _). rewrite Hrd, countb_cons in He, Hx. simpl in He, Hx.
    assert (∀ n, HDone n ∈ hs → n ≤ w_wait s) as Hw' by (intros m Hm; apply Hw; rewrite Hrd; by right).
    (* the handler waits again *)
    assert (∀ s2, w_pc s2 = PWait → w_ready s2 = hs → w_wait s2 = w_wait s → w_error s2 = w_error s → w_errq s2 = w_errq s →
      w_resync s2 = w_resync s → ∀ r2, r_err r2 = notice (r_err r) → r_last r2 = w_last s2 → r_opt r2 = w_opt s2 → r_pc r2 = RWatching (w_count s2) →
      Rel (begin_wait s2) r2) as Hwait.
    { intros s2 E1 E2 E3 E4 E5 E6 r2 F1 F2 F3 F4. split; try done.
      - intros _ _. rewrite F1. apply wait_first; rewrite ?E2, ?E3, ?E4, ?E5; try done.
        destruct (r_err r); simpl in *; rewrite ?E4, ?E5; done.
      - simpl. rewrite E6. intros Hz1. rewrite F1. destruct HR as [_ _ _ _ Hrs _]. by rewrite Hrs. }
    destruct HR as [Hla Hop Hpl _ Hrs _]. rewrite Hpc in Hpl. simpl in Hpl.
    assert (r_noticed r = false) as Hno by (unfold r_noticed; by destruct (r_err r)).
    simpl in Hs2. destruct (classify g e) as [| |rv] eqn:Hc.
    - subst s'. left. apply sim_close; auto. split; try done; rewrite ?Hpc; done.
    - subst s'. right. exists (IEvent e). eexists _, _. simpl. rewrite Hpl, Hno, Hc. split; [split; [right; left; intros; congruence|reflexivity]|]. split; [by rewrite app_nil_r|].
      apply Hwait; done.
    - destruct (stores (e_type e)) eqn:Hst; subst s'.
      + left. split; [done|]. split; [done|]. split; try done; simpl. intros _ _. destruct (r_err r); done.
      + right. exists (IEvent e). eexists _, _. simpl. rewrite Hpl, Hno, Hc.
        assert (apply_event q e (w_store s) = (w_store s, [])) as -> by (unfold apply_event; by destruct (e_type e)).
        split; [split; [right; by right|reflexivity]|]. split; [by rewrite app_nil_r|]. apply Hwait; try done. simpl. by rewrite Nat.add_1_r.
  Qed.

  Lemma sim_step s r l s' : Inv s → Rel s r → wstep g q s l s' → moved s r s'.
  Proof.
    intros HI HR Hs. pose proof HI as [He Hx Hh Hf Hw Hpe Hpx Hr Hz Hp]. unfold wstep in Hs. destruct l as [short|ok|es f| | | | |]; unfold wrun in Hs.
    - destruct (w_ready s) as [|h hs] eqn:Hrd; [done|]. destruct h as [| | |n|]; try (injection Hs as <-; left).
      + by apply sim_reader.
      + by apply sim_event.
      + by apply sim_error.
      + by apply sim_done.
      + by eapply sim_handler.
    - destruct (w_pc s) eqn:Hpc; try (by destruct ok). destruct HR as [Hla Hop Hpl Her Hrs Hat]. rewrite Hpc in *. simpl in *. specialize (Her ltac:(done) ltac:(done)).
      destruct Hp as (Hp1 & Hp2 & Hp3). rewrite over_sched in He by done. rewrite over_sched in Hx by done. simpl in He, Hx.
      unfold in_wait in Hh. rewrite Hpc in Hh. simpl in Hh.
      destruct ok; injection Hs as <-; right.
      + exists IWatch. eexists _, _. simpl. rewrite Hpl. split; [split; [done|reflexivity]|]. rewrite Hop. split; [done|].
        split; try done; simpl; [|by intros Hz1; rewrite Hrs].
        intros _ _. apply wait_first; simpl; try done.
        * intros Hrr. rewrite Hrr in Her. simpl in Her. by rewrite Hpc in Her.
        * destruct (r_err r); simpl in *; rewrite ?Hpc in Her; try done; [by destruct Her|]. left. by destruct Her.
        * rewrite countb_app, !countb_cons, countb_nil. simpl. lia.
        * rewrite countb_app, !countb_cons, countb_nil. simpl. lia.
        * rewrite countb_app, !countb_cons, countb_nil. simpl. lia.
        * intros n. rewrite elem_of_app, !elem_of_cons, elem_of_nil. intros [?|[[=]|[[=]|[]]]]. by apply Hw.
      + exists IWatchFails. eexists _, _. simpl. rewrite Hpl. split; [split; [done|reflexivity]|]. rewrite Hop. split; [done|]. by split.
    - destruct (w_reader s); try (by destruct (w_pc s)).
      assert (Hs' : s' = push [HRead] (set_reader (RdHave es f) s)) by (by destruct (w_pc s); injection Hs). subst s'. left. split; [done|]. split; [done|].
      apply (Rel_quiet s); try done. intros _ Hf1. by apply first_more.
    - destruct (w_reader s); try (by destruct (w_pc s)).
      assert (Hs' : s' = set_reader RdOver s) by (by destruct (w_pc s); injection Hs). subst s'. left. split; [done|]. split; [done|].
      by apply (Rel_quiet s).
    - destruct (w_pc s) as [| |e rv| | |] eqn:Hpc; try done. destruct HR as [Hla Hop Hpl Her Hrs Hat]. rewrite Hpc in *. simpl in *. specialize (Her ltac:(done) ltac:(done)).
      unfold in_wait in Hh. rewrite Hpc in Hh. simpl in Hh.
      destruct Hp as (Hp1 & Hp2). rewrite over_sched in He by done. simpl in He.
      assert (r_err r ≠ EReady) as Hne by (intros Hrr; rewrite Hrr in Her; simpl in Her; by rewrite Hpc in Her).
      destruct (apply_event q e (w_store s)) as [x cs1] eqn:Ha. injection Hs as <-. right.
      exists (IEvent e). eexists _, _. simpl. rewrite Hpl. assert (r_noticed r = false) as -> by (unfold r_noticed; by destruct (r_err r)).
      rewrite Hat, Ha. split; [split; [left; rewrite Hpc; by eexists|reflexivity]|]. split; [done|]. split; simpl; try done; [by rewrite Nat.add_1_r| |by intros Hz1; rewrite Hrs].
      intros _ _. apply wait_first; simpl; try done.
    - assert (w_pc s ≠ PReturned ∧ w_pc s ≠ PCancelled) as [Hn1 Hn2] by (by destruct (w_pc s)).
      destruct HR as [Hla Hop Hpl Her Hrs Hat]. specialize (Her Hn1 Hn2).
      destruct (w_resync s) eqn:Hrs1; [|by destruct (w_pc s)]. specialize (Hrs eq_refl). destruct (so_resync q (w_store s)) as [x ok] eqn:Hre.
      assert (Hs' : s' = if ok then set_store x [CResync ok] s
        else push (roused HError (w_error s)) (set_error (wake_get (w_error s)) true (set_resync false (set_store x [CResync ok] s))))
        by (destruct (w_pc s); try done; by injection Hs). clear Hs. rewrite Hrs in Her. simpl in Her. right. exists (IResync true).
      eexists (Refl (r_pc r) (r_last r) (r_opt r) (if ok then ENone else EQueued)), _. split; [|split].
      + split; [done|]. simpl. rewrite Hpl. unfold r_failed. rewrite Hrs. simpl. rewrite Hre. destruct (w_pc s); try done; destruct ok; subst s'; reflexivity.
      + by destruct ok; subst s'.
      + destruct ok; subst s'; split; simpl; try done.
        * destruct (w_pc s) as [| | |[]| |]; try done. rewrite Hrs in Hat. done.
        * by intros; left.
        * destruct (w_pc s) as [| | |[]| |]; try done; [by destruct (w_error s) as [?|[|?|]|?|]|]. destruct Hat as [Hat _]. split; [|done]. by destruct (w_error s) as [?|[|?|]|?|].
    - destruct (w_pc s) as [| | |why| |] eqn:Hpc; try done. destruct (w_reader s); try done. destruct (_ && _); [|done]. injection Hs as <-.
      destruct HR as [Hla Hop Hpl Her Hrs Hat]. rewrite Hpc in *. simpl in *. specialize (Her ltac:(done) ltac:(done)). right.
      destruct why as [| | | |e|short| |due| | |]; try done.
      + exists (IEvent e). eexists _, _. simpl. rewrite Hpl, Hat. destruct (r_noticed r).
        all: split; [split; [right; left; intros; congruence|reflexivity]|]; split; [by rewrite app_nil_r|]; by split.
      + destruct Hat as [Hat1 Hat2]. exists (IClose short). assert (r_noticed r = false) as Hno by (unfold r_noticed; by destruct (r_err r)).
        destruct (short && (w_count s =? 0)) eqn:Hsc; eexists _, _; simpl; rewrite Hpl, Hno; simpl; rewrite Hsc.
        * split; [split; [done|reflexivity]|]; split; [by rewrite app_nil_r|]; by split.
        * split; [split; [done|reflexivity]|]; split; [by rewrite app_nil_r|]. split; simpl; try done. intros _ _. destruct (r_err r); done.
      + exists ISeeError. eexists _, _. simpl. rewrite Hpl. unfold r_failed. destruct (r_err r) eqn:Hrr; [done| |].
        all: split; [split; [done|reflexivity]|]; split; [by rewrite app_nil_r|]; by split.
      + exists ICancel. eexists _, _. simpl. rewrite Hpl. split; [split; [done|reflexivity]|]; split; [by rewrite app_nil_r|]; by split.
    - destruct (w_pc s) as [| |e rv|why| |] eqn:Hpc; try done; injection Hs as <-.
      + right. destruct HR as [Hla Hop Hpl Her Hrs Hat]. rewrite Hpc in *. simpl in *. exists ICancel. eexists _, _. simpl. rewrite Hpl.
        split; [split; [done|reflexivity]|]; split; [by rewrite app_nil_r|]; by split.
      + left. destruct (w_fired s); (split; [done|]; split; [done|]; apply (Rel_quiet s); try done).
        intros _ Hf1. by apply first_more.
      + left. apply sim_close; eauto.
      + left. split; [done|]. split; [done|]. destruct HR as [Hla Hop Hpl Her Hrs Hat]. rewrite Hpc in *. specialize (Her ltac:(done) ltac:(done)).
        split; simpl; try done. intros _ _. destruct (r_err r); simpl in *; done.
  Qed.

  Lemma sim_reach rv x ls s : reach (wstep g q) (w_init rv x) ls s →
    ∃ h r, exec (rstep g q) (Refl RReady (Some rv) (Some rv) ENone, x) h (r, w_store s) ∧ concat h.*2 = w_calls s ∧ Rel s r.
  Proof.
    intros Hr. pose proof (Inv_reach g q _ _ _ _ Hr) as _. induction Hr as [|ls s1 l s2 Hr IH Hs].
    - exists [], (Refl RReady (Some rv) (Some rv) ENone). split; [constructor|]. split; [done|]. by split.
    - destruct IH as (h & r & Hex & Hc & HR). pose proof (Inv_reach g q _ _ _ _ Hr) as HI.
      destruct (sim_step _ _ _ _ HI HR Hs) as [(E1 & E2 & HR2)|(i & r' & out & [_ Hst] & Hcs & HR2)].
      + exists h, r. rewrite E1, E2. done.
      + exists (h ++ [(i, out)]), r'. split; [|split; [|done]].
        * apply exec_snoc. by eexists.
        * rewrite fmap_app, concat_app, Hc. simpl. by rewrite app_nil_r.
  Qed.
End loop.
