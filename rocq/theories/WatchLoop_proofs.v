(** Invariant of the tasks inside list_and_watch, and the simulation by Reflector_model. *)
From Verif Require Import Base Reflector_model WatchLoop_model.

Section loop.
  Context {O RV St : Type} (g : rcfg O RV) (q : sops O RV St).
  Implicit Types (s : wstate O RV St) (r : refl RV).

  #[global] Instance handle_eq_dec : EqDecision handle.
  Proof. solve_decision. Defined.

  Definition isE (h : handle) : bool := match h with HEvent => true | _ => false end.
  Definition isX (h : handle) : bool := match h with HError => true | _ => false end.
  Definition isH (h : handle) : bool := match h with HHandler => true | _ => false end.
  Definition b2n (b : bool) : nat := if b then 1 else 0.
  (** the task is ready; has not been cancelled; has been cancelled or is over *)
  Definition sched {A} (x : gtask A) : bool := match x with GNew _ | GWait (WWoken _) | GWait WCancelled => true | _ => false end.
  Definition live {A} (x : gtask A) : bool := match x with GNew false | GWait WPending | GWait (WWoken false) | GDone _ => true | _ => false end.
  Definition quit {A} (x : gtask A) : bool := match x with GNew true | GWait WCancelled | GWait (WWoken true) | GDone _ | GGone => true | _ => false end.
  Definition in_wait s : bool := match w_pc s with PWait => true | _ => false end.

  Record Inv s : Prop := {
    i_event : countb isE (w_ready s) = b2n (sched (w_event s));
    i_error : countb isX (w_ready s) = b2n (sched (w_error s));
    i_handler : countb isH (w_ready s) = b2n (in_wait s && w_fired s);
    i_fired : in_wait s || w_fired s = true;
    i_waits : ∀ n, HDone n ∈ w_ready s → n ≤ w_wait s;
    i_pend_event : w_event s = GWait WPending → w_queue s = [];
    i_pend_error : w_error s = GWait WPending → w_errq s = false;
    i_read : match w_reader s with RdNew | RdHave _ _ => HRead ∈ w_ready s | _ => True end;
    i_resync : w_resync s = true → w_errq s = false ∧ w_error s ≠ GDone tt;
    i_pc : match w_pc s with
           | PReady | PReturned | PCancelled => is_over (w_event s) = true ∧ is_over (w_error s) = true ∧ w_reader s = RdOver
           | PWait => live (w_event s) = true ∧ live (w_error s) = true ∧
                      (if w_fired s then w_cancel s = true ∨ is_over (w_event s) || is_over (w_error s) = true
                       else w_cancel s = false ∧ (HDone (w_wait s) ∈ w_ready s ↔ is_over (w_event s) || is_over (w_error s) = true))
           | PStore _ _ => is_over (w_event s) = true ∧ live (w_error s) = true
           | PClosing _ => quit (w_event s) = true ∧ quit (w_error s) = true ∧ (w_reader s = RdExit ∨ w_reader s = RdOver)
           end
  }.

  Lemma Inv_init rv x : Inv (w_init rv x).
  Proof. split; simpl; try done. by intros n ?%elem_of_nil. Qed.

  Ltac cnt := repeat (rewrite ?countb_app, ?countb_cons, ?countb_nil in *; simpl in *).
  Ltac inr := repeat (rewrite ?elem_of_app, ?elem_of_cons, ?elem_of_nil in *; simpl in *).

  Lemma Inv_begin_wait s : countb isE (w_ready s) = 0 → countb isX (w_ready s) = b2n (sched (w_error s)) → countb isH (w_ready s) = 0 →
    (∀ n, HDone n ∈ w_ready s → n ≤ w_wait s) → (w_error s = GWait WPending → w_errq s = false) →
    match w_reader s with RdNew | RdHave _ _ => HRead ∈ w_ready s | _ => True end → (w_resync s = true → w_errq s = false ∧ w_error s ≠ GDone tt) →
    live (w_error s) = true → Inv (begin_wait s).
  Proof.
    intros He Hx Hh0 Hw Hpx Hr Hz Hl. destruct s as [pc rd wn fi ca re k ev er eq rs ct la op st pu se cs]; simpl in *.
    split; simpl; try done.
    - rewrite countb_app, countb_cons, He. simpl. by destruct (is_over er).
    - rewrite countb_app, countb_cons, Hx. simpl. destruct (is_over er); cnt; lia.
    - rewrite countb_app, countb_cons, Hh0. simpl. by destruct (is_over er).
    - intros n. inr. destruct (is_over er); inr; intros [Hn|[[=]|Hn]]; try (apply Hw in Hn; lia); try done.
      destruct Hn as [[= ->]|[]]; lia.
    - destruct re; try done; inr; by left.
    - split; [done|]. split; [done|]. split; [done|]. inr. destruct (is_over er); inr.
      + split; [done|]. intros _. right. right. by left.
      + split; [|done]. intros [Hn|[[=]|[]]]. apply Hw in Hn. lia.
  Qed.

  Lemma roused_count {A} f h (x : gtask A) : countb f (roused h x) = if f h then length (roused h x) else 0.
  Proof. destruct x as [?|[|?|]|?|]; simpl; rewrite ?countb_cons, ?countb_nil; by destruct (f h). Qed.
  Lemma roused_elem {A} h h' (x : gtask A) : h' ∈ roused h x → h' = h.
  Proof. destruct x as [?|[|?|]|?|]; simpl; rewrite ?elem_of_cons, ?elem_of_nil; tauto. Qed.
  Lemma cancel_sched {A} h (x : gtask A) : b2n (sched x) + length (roused h x) = b2n (sched (cancel_get x)).
  Proof. by destruct x as [?|[|?|]|?|]. Qed.
  Lemma wake_sched {A} h (x : gtask A) : b2n (sched x) + length (roused h x) = b2n (sched (wake_get x)).
  Proof. by destruct x as [?|[|?|]|?|]. Qed.
  Lemma cancel_quit {A} (x : gtask A) : quit (cancel_get x) = true.
  Proof. by destruct x as [?|[|?|]|?|]. Qed.
  Lemma wake_live {A} (x : gtask A) : live (wake_get x) = live x.
  Proof. by destruct x as [?|[|?|]|?|]. Qed.
  Lemma wake_quit {A} (x : gtask A) : quit x = true → wake_get x = x.
  Proof. by destruct x as [?|[|?|]|?|]. Qed.
  Lemma wake_over {A} (x : gtask A) : is_over (wake_get x) = is_over x.
  Proof. by destruct x as [?|[|?|]|?|]. Qed.
  Lemma over_sched {A} (x : gtask A) : is_over x = true → sched x = false.
  Proof. by destruct x as [?|[|?|]|?|]. Qed.

  Lemma Inv_close why s : Inv s → (w_pc s = PWait ∨ ∃ e rv, w_pc s = PStore e rv) → countb isH (w_ready s) = 0 → w_fired s = true →
    Inv (close why s).
  Proof.
    intros [He Hx Hh Hf Hw Hpe Hpx Hr Hz Hp] Hpc Hh0 Hfi. destruct s as [pc rd wn fi ca re k ev er eq rs ct la op st pu se cs]; simpl in *.
    split; simpl.
    - rewrite !countb_app, !roused_count, <-cancel_sched with (h := HEvent). simpl. lia.
    - rewrite !countb_app, !roused_count, <-cancel_sched with (h := HError). simpl. lia.
    - rewrite !countb_app, !roused_count. simpl. lia.
    - exact Hfi.
    - intros n. rewrite !elem_of_app. intros [Hn|[Hn%roused_elem|Hn%roused_elem]]; [by apply Hw|done|done].
    - by destruct ev as [[]|[|[]|]| |].
    - by destruct er as [[]|[|[]|]| |].
    - by destruct re.
    - intros Hz1. destruct (Hz Hz1) as [? Hne]. split; [done|]. by destruct er as [[]|[|[]|]| |].
    - rewrite !cancel_quit. split; [done|]. split; [done|]. destruct re; auto.
  Qed.

  Ltac explode s := destruct s as [pc rd wn fi ca re k ev er eq rs ct la op st pu se cs]; unfold in_wait in *; simpl in *.

  (** by cases on where the handler is; [Hd]: the callbacks of waits have not changed *)
  Ltac pcs pc fi Hp Hd :=
    destruct pc; first
      [ exact Hp
      | by destruct Hp as (_ & _ & [=])
      | by destruct Hp as (_ & _ & [[=]|[=]])
      | destruct Hp as (? & ? & Hp); split; [done|]; split; [done|]; destruct fi; [exact Hp|rewrite Hd in Hp; exact Hp]
      | idtac ].

  (** the first of the ready callbacks is taken away, and is one without effect *)
  Lemma Inv_reader s hs : Inv s → w_ready s = HRead :: hs → Inv (run_reader (set_ready hs s)).
  Proof.
    intros [He Hx Hh Hf Hw Hpe Hpx Hr Hz Hp] Hrd. explode s. subst rd. rewrite countb_cons in He, Hx, Hh. simpl in He, Hx, Hh.
    assert (∀ n, HDone n ∈ hs → n ≤ wn) as Hw' by (intros n Hn; apply Hw; by right).
    assert (∀ n, HDone n ∈ HRead :: hs ↔ HDone n ∈ hs) as Hd by (intros n; rewrite elem_of_cons; naive_solver).
    unfold run_reader; simpl. destruct re as [| |es f| |].
    - split; simpl; try done. pcs pc fi Hp Hd.
    - split; simpl; try done. pcs pc fi Hp Hd.
    - assert ((∃ e rv, pc = PStore e rv) ∨ pc = PWait) as Hpc.
      { destruct pc; first [by right|by left; eauto|by destruct Hp as (_ & _ & [=])|by destruct Hp as (_ & _ & [[=]|[=]])]. }
      set (items := (Some <$> es) ++ match f with SEnd => [None] | _ => [] end).
      destruct items as [|i0 items0] eqn:Hi.
      + split; simpl; try done; [by destruct f|]. destruct Hpc as [(e & rv & ->)| ->]; [done|].
        destruct Hp as (? & ? & Hp). split; [done|]. split; [done|]. destruct fi; [exact Hp|rewrite Hd in Hp; exact Hp].
      + split; unfold in_wait; simpl; try done.
        * rewrite countb_app, roused_count, <-wake_sched with (h := HEvent). simpl. lia.
        * rewrite countb_app, roused_count. simpl. lia.
        * rewrite countb_app, roused_count. simpl. lia.
        * intros n. rewrite elem_of_app. intros [Hn|Hn%roused_elem]; [by apply Hw'|done].
        * intros Hc. destruct ev as [?|[|?|]|?|]; done.
        * by destruct f.
        * rewrite wake_live, wake_over. destruct Hpc as [(e & rv & ->)| ->]; [done|]. destruct Hp as (Hp1 & Hp2 & Hp3).
          split; [done|]. split; [done|]. destruct fi; [done|]. destruct Hp3 as [-> Hp3]. split; [done|]. rewrite <-Hp3, Hd, elem_of_app.
          split; [intros [?|Hn%roused_elem]; done|auto].
    - split; simpl; try done. pcs pc fi Hp Hd.
    - split; simpl; try done. pcs pc fi Hp Hd.
  Qed.

  Lemma on_done_count f s : f (HDone (w_wait s)) = false → countb f (on_done s) = 0.
  Proof. unfold on_done. intros Hf. destruct (w_pc s); rewrite ?countb_cons, ?countb_nil, ?Hf; done. Qed.

  Lemma Inv_event s hs : Inv s → w_ready s = HEvent :: hs → Inv (run_event (set_ready hs s)).
  Proof.
    intros [He Hx Hh Hf Hw Hpe Hpx Hr Hz Hp] Hrd. explode s. subst rd. rewrite countb_cons in He, Hx, Hh. simpl in He, Hx, Hh.
    assert (∀ n, HDone n ∈ hs → n ≤ wn) as Hw' by (intros n Hn; apply Hw; by right).
    assert (∀ n, HDone n ∈ HEvent :: hs ↔ HDone n ∈ hs) as Hd by (intros n; rewrite elem_of_cons; naive_solver).
    assert (match re with RdNew | RdHave _ _ => HRead ∈ hs | _ => True end) as Hr' by (destruct re; try done; by apply elem_of_cons in Hr as [[=]|]).
    assert (sched ev = true) as Hs by (destruct (sched ev); simpl in He; [done|lia]). rewrite Hs in He. simpl in He.
    unfold run_event; simpl. set (od := on_done _).
    assert (∀ n, HDone n ∈ od → n = wn) as Hod.
    { intros n. unfold od, on_done; simpl. destruct pc; rewrite ?elem_of_cons, ?elem_of_nil; naive_solver. }
    assert (countb isE od = 0 ∧ countb isX od = 0 ∧ countb isH od = 0) as (Ho1 & Ho2 & Ho3).
    { unfold od. rewrite !on_done_count by done. done. }
    assert (HRead ∈ od → False) as Hod'. { unfold od, on_done; simpl. destruct pc; rewrite ?elem_of_cons, ?elem_of_nil; naive_solver. }
    destruct ev as [[]|[|[]|]|a|]; try done.
    all: try (destruct k as [|x k]).
    all: split; unfold in_wait; simpl; try done.
    all: try (rewrite countb_app; lia).
    all: try lia.
    all: try (intros n; rewrite elem_of_app; intros [Hn|Hn%Hod]; [by apply Hw'|lia]).
    all: try (destruct re; try done; rewrite elem_of_app; by left).
    all: clear He Hx Hh Hf Hw Hpe Hpx Hr Hz Hw' Hr' Ho1 Ho2 Ho3 Hod Hod'.
    all: destruct pc; simpl in Hp; try (by destruct Hp as [[=] _]); try (by destruct Hp as (? & ? & ?)).
    all: destruct Hp as (? & ? & Hp); try done; split; [done|]; split; [done|].
    all: destruct fi; [destruct Hp as [Hp|Hp]; [by left|right; rewrite ?orb_true_r; done]|].
    all: destruct Hp as [Hp1 Hp]; split; [done|]; rewrite Hd in Hp; unfold od, on_done; simpl; rewrite ?elem_of_app, ?elem_of_cons; try exact Hp.
    all: split; [done|intros _; right; by left].
  Qed.

  Lemma Inv_error s hs : Inv s → w_ready s = HError :: hs → Inv (run_error (set_ready hs s)).
  Proof.
    intros [He Hx Hh Hf Hw Hpe Hpx Hr Hz Hp] Hrd. explode s. subst rd. rewrite countb_cons in He, Hx, Hh. simpl in He, Hx, Hh.
    assert (∀ n, HDone n ∈ hs → n ≤ wn) as Hw' by (intros n Hn; apply Hw; by right).
    assert (∀ n, HDone n ∈ HError :: hs ↔ HDone n ∈ hs) as Hd by (intros n; rewrite elem_of_cons; naive_solver).
    assert (match re with RdNew | RdHave _ _ => HRead ∈ hs | _ => True end) as Hr' by (destruct re; try done; by apply elem_of_cons in Hr as [[=]|]).
    assert (sched er = true) as Hs by (destruct (sched er); simpl in Hx; [done|lia]). rewrite Hs in Hx. simpl in Hx.
    unfold run_error; simpl. set (od := on_done _).
    assert (∀ n, HDone n ∈ od → n = wn) as Hod.
    { intros n. unfold od, on_done; simpl. destruct pc; rewrite ?elem_of_cons, ?elem_of_nil; naive_solver. }
    assert (countb isE od = 0 ∧ countb isX od = 0 ∧ countb isH od = 0) as (Ho1 & Ho2 & Ho3).
    { unfold od. rewrite !on_done_count by done. done. }
    destruct er as [[]|[|[]|]|a|]; try done.
    all: try (destruct eq).
    all: split; unfold in_wait; simpl; try done.
    all: try (rewrite countb_app; lia).
    all: try lia.
    all: try (intros n; rewrite elem_of_app; intros [Hn|Hn%Hod]; [by apply Hw'|lia]).
    all: try (destruct re; try done; rewrite elem_of_app; by left).
    all: try (intros Hz1; by destruct (Hz Hz1) as [[=] _]).
    all: try (intros Hz1; destruct (Hz Hz1); done).
    all: clear He Hx Hh Hf Hw Hpe Hpx Hr Hz Hw' Hr' Ho1 Ho2 Ho3 Hod.
    all: destruct pc; simpl in Hp; try (by destruct Hp as (_ & [=] & _)); try (by destruct Hp as (? & ? & ?)); try (by destruct Hp as [? [=]]).
    all: try (by destruct Hp as [? ?]).
    all: destruct Hp as (? & ? & Hp); try done; split; [done|]; split; [done|].
    all: destruct fi; [destruct Hp as [Hp|Hp]; [by left|right; rewrite ?orb_true_r, ?orb_false_r in *; done]|].
    all: destruct Hp as [Hp1 Hp]; split; [done|]; rewrite Hd in Hp; unfold od, on_done; simpl; rewrite ?elem_of_app, ?elem_of_cons; rewrite ?orb_true_r, ?orb_false_r in *; try exact Hp.
    all: split; [done|intros _; right; by left].
  Qed.

  Lemma Inv_done s n hs : Inv s → w_ready s = HDone n :: hs →
    Inv (if (n =? w_wait s) && negb (w_fired s) then push [HHandler] (set_fired true (set_ready hs s)) else set_ready hs s).
  Proof.
    intros [He Hx Hh Hf Hw Hpe Hpx Hr Hz Hp] Hrd. explode s. subst rd. rewrite countb_cons in He, Hx, Hh. simpl in He, Hx, Hh.
    assert (∀ n, HDone n ∈ hs → n ≤ wn) as Hw' by (intros m Hm; apply Hw; by right).
    assert (match re with RdNew | RdHave _ _ => HRead ∈ hs | _ => True end) as Hr' by (destruct re; try done; by apply elem_of_cons in Hr as [[=]|]).
    destruct ((n =? wn) && negb fi) eqn:Hn.
    - apply andb_true_iff in Hn as [->%Nat.eqb_eq ->%negb_true_iff].
      destruct pc; try done. destruct Hp as (? & ? & ? & Hp).
      split; unfold in_wait; simpl; try done.
      * rewrite countb_app, countb_cons, countb_nil. simpl. lia.
      * rewrite countb_app, countb_cons, countb_nil. simpl. lia.
      * rewrite countb_app, countb_cons, countb_nil. simpl in *. lia.
      * intros m. rewrite elem_of_app, elem_of_cons, elem_of_nil. intros [Hm|[[=]|[]]]. by apply Hw'.
      * destruct re; try done; rewrite elem_of_app; by left.
      * split; [done|]. split; [done|]. right. apply Hp. left.
    - split; unfold in_wait; simpl; try done. destruct pc; try done. destruct Hp as (? & ? & Hp). split; [done|]. split; [done|].
      destruct fi; [done|]. rewrite andb_true_r in Hn. apply Nat.eqb_neq in Hn. destruct Hp as [? Hp]. split; [done|]. rewrite <-Hp, elem_of_cons.
      split; [by right|]. intros [[= Hm]|?]; [by subst|done].
  Qed.

  Lemma Inv_pop_handler s hs : Inv s → w_ready s = HHandler :: hs → w_pc s = PWait ∧ w_fired s = true ∧ countb isH hs = 0 ∧
    (w_cancel s = true ∨ is_over (w_event s) || is_over (w_error s) = true).
  Proof.
    intros [_ _ Hh _ _ _ _ _ _ Hp] Hrd. explode s. subst rd. rewrite countb_cons in Hh. simpl in Hh.
    destruct pc, fi; simpl in Hh; try lia. split; [done|]. split; [done|]. split; [lia|]. tauto.
  Qed.
  (** the handler is taken from the ready callbacks; it will leave the wait at once *)
  Lemma Inv_handler short s hs : Inv s → w_ready s = HHandler :: hs →
    ∃ s', run_handler g short (set_ready hs s) = Some s' ∧ Inv s'.
  Proof.
    intros HI Hrd. destruct (Inv_pop_handler _ _ HI Hrd) as (Hpc & Hfi & Hh0 & Hov). pose proof HI as [He Hx Hh Hf Hw Hpe Hpx Hr Hz Hp].
    explode s. subst rd pc fi. rewrite countb_cons in He, Hx. simpl in He, Hx. destruct Hp as (Hp1 & Hp2 & _).
    assert (∀ n, HDone n ∈ hs → n ≤ wn) as Hw' by (intros m Hm; apply Hw; by right).
    assert (match re with RdNew | RdHave _ _ => HRead ∈ hs | _ => True end) as Hr' by (destruct re; try done; by apply elem_of_cons in Hr as [[=]|]).
    (* with any place outside the wait the invariant holds again *)
    assert (∀ why la' op' ct' se', Inv (close why (W PWait hs wn true ca re k ev er eq rs ct' la' op' st pu se' cs))) as Hclose.
    { intros why la' op' ct' se'. split; simpl.
      - rewrite !countb_app, !roused_count, <-cancel_sched with (h := HEvent). simpl. lia.
      - rewrite !countb_app, !roused_count, <-cancel_sched with (h := HError). simpl. lia.
      - rewrite !countb_app, !roused_count. simpl. lia.
      - done.
      - intros n. rewrite !elem_of_app. intros [Hn|[Hn%roused_elem|Hn%roused_elem]]; [by apply Hw'|done|done].
      - by destruct ev as [[]|[|[]|]| |].
      - by destruct er as [[]|[|[]|]| |].
      - by destruct re.
      - intros Hz1. destruct (Hz Hz1) as [? Hne]. split; [done|]. by destruct er as [[]|[|[]|]| |].
      - rewrite !cancel_quit. split; [done|]. split; [done|]. destruct re; auto. }
    assert (∀ e rv la' op' ct' se', is_over ev = true → Inv (W (PStore e rv) hs wn true ca re k ev er eq rs ct' la' op' st pu se' cs)) as Hstore.
    { intros e rv la' op' ct' se' Ho. split; simpl; try done. }
    assert (∀ la' op' ct' se', is_over ev = true → Inv (begin_wait (W PWait hs wn true ca re k ev er eq rs ct' la' op' st pu se' cs))) as Hwait.
    { intros la' op' ct' se' Ho. rewrite over_sched in He by done. by apply Inv_begin_wait. }
    unfold run_handler; simpl. destruct ca; [eauto|]. destruct Hov as [[=]|Hov].
    destruct er as [[]|[|[]|]|[]|]; try done; eauto.
    all: simpl in Hov; rewrite orb_false_r in Hov; destruct ev as [?|?|[e|]|]; try done; eauto.
    all: destruct (classify g e) as [| |rv]; eauto; simpl.
    all: eexists; split; [done|]; destruct (stores (e_type e)); simpl; try (by apply Hstore); by apply Hwait.
  Qed.
End loop.
