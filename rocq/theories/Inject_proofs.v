(** Lemmas for Inject_props.v. *)
From Verif Require Import Base Inject_model Inject_spec.

Global Instance ilabel_eq : EqDecision ilabel.
Proof. solve_decision. Defined.
Lemma lookup_snoc_Some {A} (l : list A) a i x : (l ++ [a]) !! i = Some x → (i < length l ∧ l !! i = Some x) ∨ (i = length l ∧ a = x).
Proof.
  intros H. apply lookup_app_Some in H as [H|[Hl H]]; [left; split; [by eapply lookup_lt_Some|done]|]. right.
  apply list_lookup_singleton_Some in H as [H ->]. split; [lia|done].
Qed.
Lemma watches_snoc c ls l : watches_of c (ls ++ [l]) = watches_of c ls ++ watches_of c [l].
Proof. unfold watches_of. by rewrite omap_app. Qed.
Lemma sources_snoc c r ls l : sources_of c r (ls ++ [l]) = sources_of c r ls ++ sources_of c r [l].
Proof. unfold sources_of. by rewrite omap_app. Qed.
Lemma manager_snoc c ls l : manager_of c (ls ++ [l]) = match manager_of c [l] with Some m => Some m | None => manager_of c ls end.
Proof.
  unfold manager_of. rewrite omap_app, last_app. by destruct (last (omap _ [l])).
Qed.

(** the controller after a step *)
Definition ctl_of (s : inj) c : option ictl := n_ctls s !! c.
Definition phase_of (s : inj) c r : option sphase := x ← n_ctls s !! c; i_runs x !! r.

Ltac look := repeat match goal with
  | H : context [<[?c:=_]> _ !! ?c'] |- _ => destruct (decide (c = c')) as [<-|?]; [rewrite list_lookup_insert in H by (by eapply lookup_lt_Some)|rewrite list_lookup_insert_ne in H by done]
  | |- context [<[?c:=_]> _ !! ?c'] => destruct (decide (c = c')) as [<-|?]; [rewrite list_lookup_insert by (by eapply lookup_lt_Some)|rewrite list_lookup_insert_ne by done]
  | H : (_ ++ [_]) !! _ = Some _ |- _ => apply lookup_snoc_Some in H as [[??]|[??]]
  end; simplify_eq/=.

(** ** the records of the controllers agree with the history *)
Definition rec_inv ls s : Prop :=
  (∀ c x, n_ctls s !! c = Some x → i_watches x = watches_of c ls ∧ manager_of c ls = Some (i_func x)) ∧
  (∀ c, length (n_ctls s) ≤ c → watches_of c ls = []).
Lemma rec_reach ls s : reach istep inj_init ls s → rec_inv ls s.
Proof.
  apply (reach_trace_inv istep rec_inv); [split; [by intros ? ? ?%elem_of_list_lookup_2%elem_of_nil|done]|]. clear. intros ls s l s' _ [H1 H2] Hst. split.
  - intros c x Hx. rewrite watches_snoc, manager_snoc. destruct Hst; simpl in Hx.
    2:{ apply lookup_snoc_Some in Hx as [[Hl Hx]|[-> <-]]; simpl.
        - destruct (H1 _ _ Hx) as [-> ->]. unfold manager_of. simpl. rewrite app_nil_r. by rewrite decide_False by lia.
        - unfold manager_of. simpl. rewrite decide_True by done. rewrite H2 by done. done. }
    all: try (rewrite app_nil_r); unfold put_ctl in *; simpl in *.
    1: by apply H1.
    all: destruct (decide (c = c0)) as [->|Hne]; [rewrite list_lookup_insert in Hx by (by eapply lookup_lt_Some)|rewrite list_lookup_insert_ne in Hx by done]; simplify_eq/=.
    all: unfold manager_of; simpl; rewrite ?decide_True, ?decide_False by done; simpl; rewrite ?app_nil_r; try (by apply H1).
    all: edestruct H1 as [Hw Hm]; [eassumption|]; rewrite ?Hw; done.
  - intros c Hc. rewrite watches_snoc. destruct Hst; simpl in Hc; unfold put_ctl in *; simpl in *; rewrite ?app_length, ?insert_length in Hc; simpl in *;
      rewrite ?app_nil_r; rewrite H2 by lia; try done.
    rewrite decide_False; [done|]. apply lookup_lt_Some in H. lia.
Qed.

(** ** the cache of a source is the one of the first watch *)
Definition first_watch (k : nat) ls (c : nat) ls1 ls2 : Prop := ls = ls1 ++ IWatch c k :: ls2 ∧ ∀ c', IWatch c' k ∉ ls1.
Definition kind_inv ls s : Prop :=
  (∀ k ca, n_kinds s !! k = Some (Some ca) → ∃ c ls1 ls2, first_watch k ls c ls1 ls2 ∧ manager_of c ls1 = Some ca) ∧
  (∀ k, n_kinds s !! k = Some None ∨ length (n_kinds s) ≤ k → ∀ c, IWatch c k ∉ ls).
Lemma first_snoc k ls c ls1 ls2 l : first_watch k ls c ls1 ls2 → first_watch k (ls ++ [l]) c ls1 (ls2 ++ [l]).
Proof. intros [-> H]. split; [by rewrite <-app_assoc|done]. Qed.
Lemma kind_reach ls s : reach istep inj_init ls s → kind_inv ls s.
Proof.
  apply (reach_trace_inv istep kind_inv); [split; [by intros ? ? ?%elem_of_list_lookup_2%elem_of_nil|intros ? _ ? ?%elem_of_nil; done]|]. clear.
  intros ls s l s' Hr [H1 H2] Hst. pose proof (rec_reach _ _ Hr) as [HR _].
  assert (Hk : (∀ c k, l ≠ IWatch c k) → n_kinds s' = n_kinds s ∨ n_kinds s' = n_kinds s ++ [None]).
  { intros Hn. destruct Hst; simpl; auto. by edestruct Hn. }
  assert ((∀ c k, l ≠ IWatch c k) ∨ ∃ c k, l = IWatch c k) as [Hn|(c & k & ->)] by (destruct l; eauto; left; naive_solver).
  - split.
    + intros k ca Hka. destruct (H1 k ca) as (c & ls1 & ls2 & Hf & Hm).
      { destruct (Hk Hn) as [<-|E]; [done|]. rewrite E in Hka. by apply lookup_snoc_Some in Hka as [[??]|[??]]. }
      exists c, ls1, (ls2 ++ [l]). split; [by apply first_snoc|done].
    + intros k Hx c. rewrite elem_of_app, elem_of_list_singleton. intros [Hi|Hi]; [|by apply (Hn c k)]. revert c Hi. apply H2.
      destruct (Hk Hn) as [<-|E]; [done|]. rewrite E in Hx. destruct Hx as [Hx|Hx]; [apply lookup_snoc_Some in Hx as [[??]|[??]]; [by left|right; lia]|].
      rewrite app_length in Hx. right. lia.
  - inversion Hst as [| | |c' k' x o Hc Ho Hl| | | | | | |]; subst. simpl in *. destruct (HR _ _ Hc) as [_ Hm]. split; simpl.
    + intros k2 ca Hka. destruct (decide (k = k2)) as [<-|Hne].
      * rewrite list_lookup_insert in Hka by (by eapply lookup_lt_Some). destruct o as [ca'|]; simplify_eq/=.
        -- destruct (H1 k ca Ho) as (c2 & ls1 & ls2 & Hf & Hm2). exists c2, ls1, (ls2 ++ [IWatch c k]). split; [by apply first_snoc|done].
        -- exists c, ls, []. split; [|done]. split; [done|]. apply H2. by left.
      * rewrite list_lookup_insert_ne in Hka by done. destruct (H1 k2 ca Hka) as (c2 & ls1 & ls2 & Hf & Hm2).
        exists c2, ls1, (ls2 ++ [IWatch c k]). split; [by apply first_snoc|done].
    + intros k2 Hx c2. rewrite insert_length in Hx. rewrite elem_of_app, elem_of_list_singleton.
      destruct (decide (k = k2)) as [<-|Hne].
      * exfalso. pose proof (lookup_lt_Some _ _ _ Ho). rewrite list_lookup_insert in Hx by done. destruct Hx as [Hx|]; [|lia]. by destruct o.
      * rewrite list_lookup_insert_ne in Hx by done. intros [Hi|Hi]; [by apply (H2 _ Hx c2)|congruence].
Qed.

Lemma never_uninjected ls s c r k : reach istep inj_init ls s → ISourceFails c r k ∉ ls.
Proof.
  apply (reach_trace_inv istep (λ ls _, ISourceFails c r k ∉ ls)); [by intros ?%elem_of_nil|]. clear. intros ls s l s' Hr IH Hst.
  rewrite elem_of_app, elem_of_list_singleton. intros [|<-]; [done|]. inversion Hst as [| | | | | | |c' r' j k' x Hc Hr' Hw Hk| | |]; subst.
  destruct (rec_reach _ _ Hr) as [HR _]. destruct (HR _ _ Hc) as [Hwx _]. rewrite Hwx in Hw. destruct (kind_reach _ _ Hr) as [_ HK].
  apply elem_of_list_lookup_2 in Hw. unfold watches_of in Hw. apply elem_of_list_omap in Hw as (l & Hl & He). destruct l; try done. case_decide; [|done]. simplify_eq.
  eapply HK; [by left|done].
Qed.
Lemma source_cache ls s c r k ca : reach istep inj_init ls s → ISource c r k ca ∈ ls →
  ∃ c1 ls1 ls2, ls = ls1 ++ IWatch c1 k :: ls2 ∧ (∀ c', IWatch c' k ∉ ls1) ∧ manager_of c1 ls1 = Some ca.
Proof.
  apply (reach_trace_inv istep (λ ls _, ISource c r k ca ∈ ls → ∃ c1 ls1 ls2, ls = ls1 ++ IWatch c1 k :: ls2 ∧ (∀ c', IWatch c' k ∉ ls1) ∧ manager_of c1 ls1 = Some ca)).
  { by intros ?%elem_of_nil. }
  clear. intros ls s l s' Hr IH Hst. rewrite elem_of_app, elem_of_list_singleton. intros [Hi|<-].
  - destruct (IH Hi) as (c1 & ls1 & ls2 & -> & Hn & Hm). exists c1, ls1, (ls2 ++ [l]). split; [by rewrite <-app_assoc|done].
  - inversion Hst as [| | | | | |c' r' j k' ca' x Hc Hr' Hw Hk| | | |]; subst. destruct (kind_reach _ _ Hr) as [HK _].
    destruct (HK _ _ Hk) as (c1 & ls1 & ls2 & [-> Hn] & Hm). exists c1, ls1, (ls2 ++ [ISource c r k ca]). split; [by rewrite <-app_assoc|done].
Qed.
Lemma manager_elem c ls m : manager_of c ls = Some m → ∃ l, l ∈ ls ∧ (l = INewCtl c m ∨ l = IAdd m c).
Proof.
  unfold manager_of. intros H%last_Some_elem_of. apply elem_of_list_omap in H as (l & Hl & He). exists l. split; [done|].
  destruct l; try done; case_decide; simplify_eq; auto.
Qed.
Lemma sync_cache ls s c r ca : reach istep inj_init ls s → ISync c r ca ∈ ls → INewCtl c ca ∈ ls.
Proof.
  assert (∀ ls s, reach istep inj_init ls s → ∀ c x, n_ctls s !! c = Some x → INewCtl c (i_cache x) ∈ ls) as HC.
  { intros ls0 s0. apply (reach_trace_inv istep (λ ls s, ∀ c x, n_ctls s !! c = Some x → INewCtl c (i_cache x) ∈ ls)); [by intros ? ? ?%elem_of_list_lookup_2%elem_of_nil|].
    clear. intros ls0 s0 l s1 _ IH Hst c0 x Hx. apply elem_of_app. destruct Hst; unfold put_ctl in *; simpl in *; look; try (left; by eauto).
    - right. by apply elem_of_list_singleton. }
  apply (reach_trace_inv istep (λ ls _, ISync c r ca ∈ ls → INewCtl c ca ∈ ls)); [by intros ?%elem_of_nil|].
  clear -HC. intros ls s l s' Hr IH Hst. rewrite !elem_of_app, elem_of_list_singleton. intros [Hi|<-]; [left; by apply IH|]. left.
  inversion Hst; subst. by eapply HC.
Qed.
Lemma one_manager ls s m c r k ca : reach istep inj_init ls s → only_manager m ls → ISource c r k ca ∈ ls ∨ ISync c r ca ∈ ls → ca = m.
Proof.
  intros Hr Ho [H|H].
  - destruct (source_cache _ _ _ _ _ _ Hr H) as (c1 & ls1 & ls2 & -> & _ & (l & Hl & Hc)%manager_elem).
    assert (l ∈ ls1 ++ IWatch c1 k :: ls2) as Hi by (apply elem_of_app; by left). specialize (Ho _ Hi). by destruct Hc as [-> | ->].
  - pose proof (sync_cache _ _ _ _ _ Hr H) as Hi. apply (Ho _ Hi).
Qed.

(** ** a start starts the watches there were when it took the mutex *)
Definition fresh_inv c r ls s : Prop :=
  (phase_of s c r = None ∨ phase_of s c r = Some SQueued → sources_of c r ls = []) ∧
  (ILock c r ∉ ls → sources_of c r ls = [] ∧ (phase_of s c r = None ∨ phase_of s c r = Some SQueued ∨ phase_of s c r = Some SEnd)).
Lemma phase_put s c x r c' r' p l : n_ctls s !! c = Some x → is_Some (i_runs x !! r) →
  phase_of (put_ctl c (with_run r p l x) s) c' r' = if decide (c = c' ∧ r = r') then Some p else phase_of s c' r'.
Proof.
  intros Hx [q Hq]. unfold phase_of, put_ctl. simpl. case_decide as Hd.
  - destruct Hd as [<- <-]. rewrite list_lookup_insert by (by eapply lookup_lt_Some). simpl. apply list_lookup_insert. by eapply lookup_lt_Some.
  - destruct (decide (c = c')) as [<-|]; [|by rewrite list_lookup_insert_ne]. rewrite list_lookup_insert by (by eapply lookup_lt_Some). rewrite Hx. simpl.
    apply list_lookup_insert_ne. naive_solver.
Qed.
(** how the phases change *)
Lemma phase_step s l s' c r : istep s l s' →
  match l with
  | ISource c' r' _ _ => if decide (c = c' ∧ r = r') then (∃ j, phase_of s c r = Some (SSource j) ∧ phase_of s' c r = Some (SSource (S j))) else phase_of s' c r = phase_of s c r
  | ILock c' r' => if decide (c = c' ∧ r = r') then phase_of s c r = Some SQueued ∧ phase_of s' c r = Some (SSource 0) else phase_of s' c r = phase_of s c r
  | ISync c' r' _ => if decide (c = c' ∧ r = r') then (∃ j, phase_of s c r = Some (SSource j)) ∧ phase_of s' c r = Some SSync else phase_of s' c r = phase_of s c r
  | IWork c' r' => if decide (c = c' ∧ r = r') then phase_of s c r = Some SSync ∧ phase_of s' c r = Some SWork else phase_of s' c r = phase_of s c r
  | ISourceFails c' r' _ | IEnd c' r' => if decide (c = c' ∧ r = r') then is_Some (phase_of s c r) ∧ phase_of s' c r = Some SEnd else phase_of s' c r = phase_of s c r
  | IStart c' r' => if decide (c = c' ∧ r = r') then phase_of s c r = None ∧ phase_of s' c r = Some SQueued else phase_of s' c r = phase_of s c r
  | _ => phase_of s' c r = phase_of s c r
  end.
Proof.
  intros Hst. destruct Hst; simpl.
  - done.
  - unfold phase_of. simpl. destruct (n_ctls s !! c) eqn:E; [by rewrite (lookup_app_l_Some _ _ _ _ E)|]. destruct (decide (c = length (n_ctls s))) as [->|Hne].
    + by rewrite list_lookup_middle.
    + apply lookup_ge_None in E. rewrite (proj2 (lookup_ge_None (_ ++ _) c)); [done|]. rewrite app_length. simpl. lia.
  - unfold phase_of, put_ctl. simpl. destruct (decide (c0 = c)) as [->|Hne]; [|by rewrite list_lookup_insert_ne]. rewrite list_lookup_insert by (by eapply lookup_lt_Some). by rewrite H.
  - unfold phase_of. simpl. destruct (decide (c0 = c)) as [->|Hne]; [|by rewrite list_lookup_insert_ne]. rewrite list_lookup_insert by (by eapply lookup_lt_Some). by rewrite H.
  - unfold phase_of, put_ctl. simpl. destruct (decide (c0 = c)) as [->|Hne].
    + rewrite list_lookup_insert by (by eapply lookup_lt_Some). rewrite H. simpl. case_decide as Hd.
      * destruct Hd as [_ ->]. split; [apply lookup_ge_None; lia|]. by rewrite list_lookup_middle.
      * destruct (i_runs x !! r) eqn:E; [by rewrite (lookup_app_l_Some _ _ _ _ E)|]. apply lookup_ge_None in E. apply lookup_ge_None. rewrite app_length. simpl.
        assert (r ≠ length (i_runs x)) by naive_solver. lia.
    + rewrite decide_False by naive_solver. by rewrite list_lookup_insert_ne.
  - case_decide as Hd; rewrite (phase_put _ _ _ _ _ _ _ _ H) by eauto.
    + destruct Hd as [-> ->]. rewrite decide_True by done. split; [|done]. unfold phase_of. by rewrite H.
    + by rewrite decide_False by naive_solver.
  - case_decide as Hd; [|rewrite (phase_put _ _ _ _ _ _ _ _ H) by eauto; by rewrite decide_False by naive_solver].
    destruct Hd as [-> ->]. exists j. rewrite (phase_put _ _ _ _ _ _ _ _ H) by eauto. rewrite decide_True by done. split; [|done]. unfold phase_of. by rewrite H.
  - case_decide as Hd; rewrite (phase_put _ _ _ _ _ _ _ _ H) by eauto.
    + destruct Hd as [-> ->]. rewrite decide_True by done. split; [|done]. unfold phase_of. rewrite H. eauto.
    + by rewrite decide_False by naive_solver.
  - case_decide as Hd; rewrite (phase_put _ _ _ _ _ _ _ _ H) by eauto.
    + destruct Hd as [-> ->]. rewrite decide_True by done. split; [|done]. unfold phase_of. rewrite H. eauto.
    + by rewrite decide_False by naive_solver.
  - case_decide as Hd; rewrite (phase_put _ _ _ _ _ _ _ _ H) by eauto.
    + destruct Hd as [-> ->]. rewrite decide_True by done. split; [|done]. unfold phase_of. by rewrite H.
    + by rewrite decide_False by naive_solver.
  - case_decide as Hd; rewrite (phase_put _ _ _ _ _ _ _ _ H) by eauto.
    + destruct Hd as [-> ->]. rewrite decide_True by done. split; [|done]. unfold phase_of. rewrite H. eauto.
    + by rewrite decide_False by naive_solver.
Qed.
Lemma fresh_reach c r ls s : reach istep inj_init ls s → fresh_inv c r ls s.
Proof.
  apply (reach_trace_inv istep (fresh_inv c r)). { split; [done|]. intros _. split; [done|]. by left. }
  clear. intros ls s l s' _ [H1 H2] Hst. pose proof (phase_step _ _ _ c r Hst) as Hp.
  assert (Hs : ((∀ k ca, l ≠ ISource c r k ca) → sources_of c r (ls ++ [l]) = sources_of c r ls)).
  { intros Hn. rewrite sources_snoc. destruct l; simpl; rewrite ?app_nil_r; try done. case_decide as Hd; [|by rewrite app_nil_r]. destruct Hd; subst. by edestruct Hn. }
  unfold fresh_inv. rewrite elem_of_app, elem_of_list_singleton.
  assert ((∃ k ca, l = ISource c r k ca) ∨ (∀ k ca, l ≠ ISource c r k ca)) as [(k & ca & ->)|Hn].
  { destruct l as [| | | | | |c' r' k ca| | | |]; try (right; done). destruct (decide (c = c' ∧ r = r')) as [[-> ->]|]; [left; eauto|right; naive_solver]. }
  { rewrite decide_True in Hp by done. destruct Hp as (j & Hp & Hp'). rewrite Hp' . split; [intros [|]; done|]. intros Hni. destruct H2 as [_ H2]; [tauto|]. rewrite Hp in H2. naive_solver. }
  rewrite (Hs Hn). destruct l as [| | | |c' r'|c' r'|c' r' k ca|c' r'|c' r'|c' r'|c' r']; simpl in Hp; try (rewrite Hp; tauto); case_decide as Hd; try (rewrite Hp; naive_solver); destruct Hd as [<- <-].
  - destruct Hp as [Hp ->]. rewrite Hp in H1, H2. split; [intros _; apply H1; by left|]. intros Hni. destruct H2 as [H2 _]; [tauto|]. auto.
  - destruct Hp as [Hp ->]. split; [intros [|]; done|]. intros Hni. tauto.
  - by edestruct Hn.
  - destruct Hp as [Hp ->]. split; [intros [|]; done|]. intros Hni. split; [|auto]. destruct H2 as [H2 _]; tauto.
  - destruct Hp as [[j Hp] ->]. split; [intros [|]; done|]. intros Hni. destruct H2 as [H2 H3]; [tauto|]. rewrite Hp in H3. naive_solver.
  - destruct Hp as [Hp ->]. split; [intros [|]; done|]. intros Hni. destruct H2 as [H2 H3]; [tauto|]. rewrite Hp in H3. naive_solver.
  - destruct Hp as [Hp ->]. split; [intros [|]; done|]. intros Hni. split; [|auto]. destruct H2 as [H2 _]; tauto.
Qed.

(** while a start holds the mutex the watches stay *)
Definition hold_inv c r (w : list nat) ls s : Prop :=
  ∃ x, n_ctls s !! c = Some x ∧
    match i_runs x !! r with
    | Some (SSource j) => i_lock x = Some r ∧ i_watches x = w ∧ sources_of c r ls = take j w ∧ j ≤ length w ∧ IWork c r ∉ ls
    | Some SSync => i_lock x = Some r ∧ i_watches x = w ∧ sources_of c r ls = w
    | Some SWork => sources_of c r ls = w
    | Some SEnd => sources_of c r ls `prefix_of` w ∧ (IWork c r ∈ ls → sources_of c r ls = w)
    | _ => False
    end.
Lemma release_ne r r' l : r ≠ r' → l = Some r → release r' l = Some r.
Proof. intros Hne ->. unfold release. by rewrite decide_False. Qed.
Lemma hold_step c r w ls s l s' : hold_inv c r w ls s → istep s l s' → hold_inv c r w (ls ++ [l]) s'.
Proof.
  intros (x & Hx & HI) Hst.
  (* the label concerns this start, or not *)
  assert (Hsame : ∀ x', n_ctls s' !! c = Some x' → i_runs x' !! r = i_runs x !! r →
    (i_lock x = Some r → i_lock x' = Some r ∧ i_watches x' = i_watches x) → sources_of c r [l] = [] → l ≠ IWork c r → hold_inv c r w (ls ++ [l]) s').
  { intros x' Hx' Hru Hl Hs Hw. exists x'. split; [done|]. rewrite Hru, sources_snoc, Hs, app_nil_r.
    destruct (i_runs x !! r) as [[]|]; rewrite ?elem_of_app, ?elem_of_list_singleton; try done.
    - destruct HI as (H1 & H2 & H3 & H4 & H5). destruct (Hl H1) as [? ->]. repeat split; try done. intros [|]; [done|]. naive_solver.
    - destruct HI as (H1 & H2 & H3). destruct (Hl H1) as [? ->]. done.
    - destruct HI as (H1 & H2). split; [done|]. intros [|]; [tauto|]. naive_solver. }
  destruct Hst as [|m|m c0 x0 H0|c0 k x0 o H0 Hk Hl|c0 x0 H0|c0 r0 x0 H0 Hr0 Hl|c0 r0 j k ca x0 H0 Hr0 Hw Hk|c0 r0 j k x0 H0 Hr0 Hw Hk|c0 r0 j x0 H0 Hr0 Hw|c0 r0 x0 H0 Hr0|c0 r0 p x0 H0 Hr0].
  1: by apply (Hsame x).
  1: { apply (Hsame x); [|done..]. simpl. by apply lookup_app_l_Some. }
  all: destruct (decide (c0 = c)) as [->|Hne];
    [|apply (Hsame x); [simpl; by rewrite list_lookup_insert_ne|done|done|simpl; rewrite ?decide_False by naive_solver; done|naive_solver]]; (assert (x0 = x) as -> by congruence).
  1: { eapply Hsame; [simpl; apply list_lookup_insert; by eapply lookup_lt_Some|done|done|done|done]. }
  1: { eapply Hsame; [simpl; apply list_lookup_insert; by eapply lookup_lt_Some|done|simpl; intros; congruence|done|done]. }
  1: { eapply Hsame; [simpl; apply list_lookup_insert; by eapply lookup_lt_Some| |done|done|done]. simpl.
       destruct (i_runs x !! r) eqn:E; [by apply lookup_app_l_Some|done]. }
  all: destruct (decide (r0 = r)) as [->|Hnr];
    [rewrite Hr0 in HI|eapply Hsame; [simpl; apply list_lookup_insert; by eapply lookup_lt_Some|simpl; by rewrite list_lookup_insert_ne| |simpl; rewrite ?decide_False by naive_solver; done|naive_solver]].
  all: try (simpl; intros E; rewrite E; split; [|done]; unfold release; rewrite ?decide_False by done; done).
  - done.
  - intros. congruence.
  - destruct HI as (H1 & H2 & H3 & H4 & H5). exists (with_run r (SSource (S j)) (i_lock x) x). split; [simpl; apply list_lookup_insert; by eapply lookup_lt_Some|].
    simpl. rewrite list_lookup_insert by (by eapply lookup_lt_Some). split; [done|]. split; [done|]. rewrite sources_snoc, H3. simpl. rewrite decide_True by done.
    rewrite H2 in Hw. pose proof (lookup_lt_Some _ _ _ Hw). split; [by rewrite (take_S_r _ _ _ Hw)|]. split; [lia|].
    rewrite elem_of_app, elem_of_list_singleton. naive_solver.
  - destruct HI as (H1 & H2 & H3 & H4 & H5). eexists. split; [simpl; apply list_lookup_insert; by eapply lookup_lt_Some|].
    simpl. rewrite list_lookup_insert by (by eapply lookup_lt_Some). rewrite sources_snoc, H3. simpl. rewrite app_nil_r, elem_of_app, elem_of_list_singleton.
    split; [eexists; by rewrite take_drop|naive_solver].
  - destruct HI as (H1 & H2 & H3 & H4 & H5). eexists. split; [simpl; apply list_lookup_insert; by eapply lookup_lt_Some|].
    simpl. rewrite list_lookup_insert by (by eapply lookup_lt_Some). split; [done|]. split; [done|]. rewrite sources_snoc, H3. simpl. rewrite app_nil_r.
    apply lookup_ge_None in Hw. rewrite H2 in Hw. by apply take_ge.
  - destruct HI as (H1 & H2 & H3). eexists. split; [simpl; apply list_lookup_insert; by eapply lookup_lt_Some|].
    simpl. rewrite list_lookup_insert by (by eapply lookup_lt_Some). rewrite sources_snoc, H3. simpl. by rewrite app_nil_r.
  - eexists. split; [simpl; apply list_lookup_insert; by eapply lookup_lt_Some|]. simpl. rewrite list_lookup_insert by (by eapply lookup_lt_Some).
    rewrite sources_snoc. simpl. rewrite app_nil_r, elem_of_app, elem_of_list_singleton. destruct p; try done.
    + destruct HI as (H1 & H2 & H3 & H4 & H5). rewrite H3. split; [eexists; by rewrite take_drop|naive_solver].
    + destruct HI as (H1 & H2 & H3). rewrite H3. split; [done|naive_solver].
    + rewrite HI. split; [done|naive_solver].
    + destruct HI as [H1 H2]. split; [done|]. intros [|]; [tauto|done].
Qed.
Lemma started_watches c r ls1 ls2 s : reach istep inj_init (ls1 ++ ILock c r :: ls2) s →
  sources_of c r (ls1 ++ ILock c r :: ls2) `prefix_of` watches_of c ls1 ∧
  (IWork c r ∈ ls2 → sources_of c r (ls1 ++ ILock c r :: ls2) = watches_of c ls1).
Proof.
  intros (s1 & Hr1 & Hr2)%reach_app_inv. change (ILock c r :: ls2) with ([ILock c r] ++ ls2) in *.
  apply reach_app_inv in Hr2 as (s2 & Hl%reach_one_inv & Hr2).
  destruct (fresh_reach c r _ _ Hr1) as [HF _]. pose proof (phase_step _ _ _ c r Hl) as Hp. simpl in Hp. rewrite decide_True in Hp by done. destruct Hp as [Hp _].
  specialize (HF (or_intror Hp)). destruct (rec_reach _ _ Hr1) as [HR _].
  assert (H0 : hold_inv c r (watches_of c ls1) [] s2).
  { inversion Hl as [| | | | |c' r' x Hx Hq Hn| | | | |]; subst. destruct (HR _ _ Hx) as [Hw _].
    eexists. split; [simpl; apply list_lookup_insert; by eapply lookup_lt_Some|]. simpl. rewrite list_lookup_insert by (by eapply lookup_lt_Some).
    repeat split; try done; [lia|by intros ?%elem_of_nil]. }
  assert (HI : hold_inv c r (watches_of c ls1) ls2 s).
  { clear -Hr2 H0. induction Hr2 as [|ls s1 l s3 Hr IH Hst]; [done|]. by eapply hold_step. }
  assert (Hs : sources_of c r (ls1 ++ [ILock c r] ++ ls2) = sources_of c r ls2). { unfold sources_of in *. rewrite omap_app, HF. done. }
  rewrite Hs. destruct HI as (x & Hx & HI). destruct (i_runs x !! r) as [[]|]; try done.
  - destruct HI as (H1 & H2 & H3 & H4 & H5). rewrite H3. split; [eexists; by rewrite take_drop|done].
  - destruct HI as (H1 & H2 & H3). by rewrite H3.
  - by rewrite HI.
Qed.
Lemma source_locked c r ls s : reach istep inj_init ls s → sources_of c r ls ≠ [] → ILock c r ∈ ls.
Proof. intros Hr Hn. destruct (fresh_reach c r _ _ Hr) as [_ HF]. destruct (decide (ILock c r ∈ ls)) as [|Hd]; [done|]. by destruct (HF Hd). Qed.

(** ** concrete runs *)
Lemma start_eq s c r x : n_ctls s !! c = Some x → r = length (i_runs x) →
  istep s (IStart c r) (put_ctl c (ICtl (i_func x) (i_cache x) (i_watches x) (i_lock x) (i_runs x ++ [SQueued])) s).
Proof. intros H ->. by apply i_start. Qed.
Lemma sync_eq s c r ca j x : n_ctls s !! c = Some x → i_runs x !! r = Some (SSource j) → i_watches x !! j = None → ca = i_cache x →
  istep s (ISync c r ca) (put_ctl c (with_run r SSync (i_lock x) x) s).
Proof. intros H1 H2 H3 ->. by eapply i_sync. Qed.
Definition late_ls : list ilabel :=
  [INewKind 0; INewKind 1; INewCtl 0 7; IWatch 0 0; IStart 0 0; ILock 0 0; ISource 0 0 0 7; ISync 0 0 7; IWork 0 0; IWatch 0 1].
Definition late_s : inj := Inj [Some 7; Some 7] [ICtl 7 7 [0; 1] None [SWork]].
Lemma late_runs : reach istep inj_init late_ls late_s.
Proof.
  unfold late_ls. eapply reach_cons; [apply i_new_kind|]. eapply reach_cons; [apply i_new_kind|]. eapply reach_cons; [apply i_new_ctl|]. simpl.
  eapply reach_cons; [by eapply i_watch|]. simpl. eapply reach_cons; [by eapply start_eq|]. simpl. eapply reach_cons; [by eapply i_lock_step|]. simpl.
  eapply reach_cons; [by eapply (i_source _ 0 0 0 0 7)|]. eapply reach_cons; [by eapply sync_eq|]. eapply reach_cons; [by eapply (i_work _ 0 0)|].
  eapply reach_cons; [by eapply (i_watch _ 0 1)|]. apply reach_nil.
Qed.
Lemma late_never : ∀ ls' s', reach istep late_s ls' s' → (∀ r, IStart 0 r ∉ ls') → ∀ r k ca, ISource 0 r k ca ∉ ls'.
Proof.
  intros ls' s' Hr Hn.
  enough ((∀ r k ca, ISource 0 r k ca ∉ ls') ∧ ∀ r, phase_of s' 0 r ∈ [None; Some SWork; Some SEnd]) by tauto.
  induction Hr as [|ls s1 l s2 Hr IH Hst].
  { split; [by intros ??? ?%elem_of_nil|]. intros [|r]; [by right; left|by left]. }
  destruct IH as [IH1 IH2]. { intros r Hi. apply (Hn r), elem_of_app. by left. }
  assert (Hl : ∀ r, l ≠ IStart 0 r). { intros r ->. apply (Hn r), elem_of_app. right. by left. }
  split.
  - intros r k ca. rewrite elem_of_app, elem_of_list_singleton. intros [?|<-]; [by eapply IH1|].
    pose proof (phase_step _ _ _ 0 r Hst) as Hp. simpl in Hp. rewrite decide_True in Hp by done. destruct Hp as (j & Hp & _). specialize (IH2 r). rewrite Hp in IH2.
    repeat (apply elem_of_cons in IH2 as [|IH2]; [done|]). by apply elem_of_nil in IH2.
  - intros r. pose proof (phase_step _ _ _ 0 r Hst) as Hp. specialize (IH2 r).
    destruct l; try (by rewrite Hp); case_decide as Hd; try (by rewrite Hp); destruct Hd; subst.
    + by edestruct Hl.
    + destruct Hp as [Hp _]. rewrite Hp in IH2. repeat (apply elem_of_cons in IH2 as [|IH2]; [done|]). by apply elem_of_nil in IH2.
    + destruct Hp as (j & Hp & _). rewrite Hp in IH2. repeat (apply elem_of_cons in IH2 as [|IH2]; [done|]). by apply elem_of_nil in IH2.
    + destruct Hp as [_ ->]. right; right; by left.
    + destruct Hp as [[j Hp] _]. rewrite Hp in IH2. repeat (apply elem_of_cons in IH2 as [|IH2]; [done|]). by apply elem_of_nil in IH2.
    + destruct Hp as [_ ->]. by right; left.
    + destruct Hp as [_ ->]. by right; right; left.
Qed.
Lemma late_refuted : ∃ ls s, reach istep inj_init ls s ∧ IWork 0 0 ∈ ls ∧ IWatch 0 1 ∈ ls ∧
  ∀ ls' s', reach istep s ls' s' → (∀ r, IStart 0 r ∉ ls') → ∀ r ca, ISource 0 r 1 ca ∉ ls ++ ls'.
Proof.
  exists late_ls, late_s. split; [apply late_runs|]. split; [by repeat constructor|]. split; [by repeat constructor|].
  intros ls' s' Hr Hn r ca [Hi|Hi]%elem_of_app; [|by eapply late_never].
  unfold late_ls in Hi. repeat (apply elem_of_cons in Hi as [|Hi]; [done|]). by apply elem_of_nil in Hi.
Qed.

Definition two_ls : list ilabel := [INewKind 0; INewCtl 0 0; INewCtl 1 1; IWatch 0 0; IWatch 1 0; IStart 1 0; ILock 1 0; ISource 1 0 0 0; ISync 1 0 1].
Lemma two_refuted : ∃ ls s, reach istep inj_init ls s ∧ manager_of 1 ls = Some 1 ∧ ISource 1 0 0 0 ∈ ls ∧ ISync 1 0 1 ∈ ls.
Proof.
  exists two_ls. eexists. split; [|split; [done|split; by repeat constructor]].
  unfold two_ls. eapply reach_cons; [apply i_new_kind|]. eapply reach_cons; [apply i_new_ctl|]. simpl. eapply reach_cons; [apply i_new_ctl|]. simpl.
  eapply reach_cons; [by eapply (i_watch _ 0 0)|]. eapply reach_cons; [by eapply (i_watch _ 1 0)|]. simpl. eapply reach_cons; [by eapply start_eq|]. simpl.
  eapply reach_cons; [by eapply (i_lock_step _ 1 0)|]. eapply reach_cons; [by eapply (i_source _ 1 0 0 0 0)|]. eapply reach_cons; [by eapply sync_eq|]. apply reach_nil.
Qed.
Lemma late_only : only_manager 7 late_ls.
Proof. intros l Hl. unfold late_ls in Hl. repeat (apply elem_of_cons in Hl as [->|Hl]; [done|]). by apply elem_of_nil in Hl. Qed.
