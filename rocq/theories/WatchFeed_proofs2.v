(** The loop connected to a server, with a plain store; a case. *)
From Verif Require Import Base KeyFunc_model Reflector_model Store_model Store_spec Reflector_spec Reflector_proofs World_model World_proofs
  WatchLoop_model WatchLoop_spec WatchLoop_proofs WatchLoop_proofs2 WatchLoop_proofs3 WatchLoop_proofs4 WatchLoop_proofs5 WatchFeed_model WatchFeed_spec WatchFeed_proofs.

Section plain.
  Context {K O V N : Type} `{EqDecision K} `{EqDecision V} `{EqDecision N} (keyf : O → option K) (g : rcfg O nat) (fs : dict N (index_func O V)) (Hfs : good_indexers fs).
  Lemma feed_store ls f v k : reach (fstep keyf g (plain_sops keyf)) (fed_init (store_init fs)) ls f → version (f_at f) = Some v →
    (sstep keyf (stored (f_at f)) (SGetByKey k)).2 = SOpt (server_at keyf (f_changes f) v k).
  Proof.
    intros Hr Hv. destruct (feed_refines _ _ _ _ _ _ Hr) as (wls & w & Hw & Hch & Hl). rewrite <-Hch. rewrite Hv in Hl. by eapply store_is_server_state.
  Qed.
  Lemma feed_in_sync ls cs b s k : reach (fstep keyf g (plain_sops keyf)) (fed_init (store_init fs)) ls (Fed cs (length cs) (FIn b s)) → w_ready s = [] → w_pc s = PWait →
    (sstep keyf (w_store s) (SGetByKey k)).2 = SOpt (server_at keyf cs (length cs) k).
  Proof. intros Hr Hrd Hpc. apply (feed_store _ _ (length cs) k Hr). by eapply feed_caught_up. Qed.
End plain.

(** ** A case *)
Definition calm {O} (l : WatchLoop_model.wlabel O) : bool := match l with WWatch true | WRead _ _ => false | _ => true end.
Lemma loops_reach {K O St} `{EqDecision K} (keyf : O → option K) (g : rcfg O nat) (q : sops O nat St) cs c b s ls s' :
  wruns g q s ls = Some s' → forallb calm ls = true → reach (fstep keyf g q) (Fed cs c (FIn b s)) (FLoop <$> ls) (Fed cs c (FIn b s')).
Proof.
  revert s. induction ls as [|l ls IH]; simpl; intros s Hs Hc; [injection Hs as <-; constructor|]. apply andb_true_iff in Hc as [Hc1 Hc2]. destruct (wrun g q s l) as [s1|] eqn:E; [|done].
  eapply reach_cons; [|by apply IH]. apply f_loop; [exact E|]. by destruct l as [|[]| | | | | |].
Qed.
Notation fq := (plain_sops (V:=nat) (N:=nat) ocase_key).
Notation fcase_step := (fstep ocase_key ocase_cfg fq).
Definition fcase_changes : list (event (nat * nat)) := [Event EvAdded (1, 1); Event EvAdded (2, 2); Event EvModified (1, 3)].
Definition fcase_read : list (event (nat * nat)) := [Event EvAdded (2, 2); Event EvBookmark (5, 2); Event EvAdded (99, 7); Event EvModified (1, 3)].
Definition fcase_runs : list (WatchLoop_model.wlabel (nat * nat)) := run_n 4 ++ [WStored] ++ run_n 9 ++ [WStored] ++ run_n 1.
Definition fcase_s0 : wstate (nat * nat) nat (store nat (nat * nat) nat nat) := w_init 1 (so_replace fq (store_init []) [(1, 1)] 1).1.
Definition fcase_s1 := Eval vm_compute in default fcase_s0 (wruns ocase_cfg fq fcase_s0 [WWatch true]).
Definition fcase_s2 := Eval vm_compute in default fcase_s0 (wruns ocase_cfg fq fcase_s1 (run_n 3)).
Definition fcase_s3 := Eval vm_compute in default fcase_s0 (wruns ocase_cfg fq fcase_s2 [WRead fcase_read SMore]).
Definition fcase_s4 := Eval vm_compute in default fcase_s0 (wruns ocase_cfg fq fcase_s3 fcase_runs).
Definition fcase_run : list (flabel (nat * nat)) :=
  [FChange (Event EvAdded (1, 1)); FList [(1, 1)] 1; FLoop (WWatch true); FChange (Event EvAdded (2, 2)); FChange (Event EvModified (1, 3))] ++
  (FLoop <$> run_n 3) ++ [FLoop (WRead fcase_read SMore)] ++ (FLoop <$> fcase_runs).
Lemma fcase_runs_ok : reach fcase_step (fed_init (store_init [])) fcase_run (Fed fcase_changes 3 (FIn 1 fcase_s4)) ∧
  w_ready fcase_s4 = [] ∧ w_pc fcase_s4 = PWait ∧ w_last fcase_s4 = Some 3 ∧ w_calls fcase_s4 = [CWatch (Some 1); CAdd (2, 2) true; CUpdate (1, 3) true].
Proof.
  split; [|done]. assert (∀ k v t, k ≠ 99 → v ≠ 0 → t ≠ EvError → accepted ocase_cfg (Event t (k, v)) v) as Hacc by (intros k v t ? ? ?; by apply ocase_accepted).
  eapply reach_cons; [apply (f_change ocase_key ocase_cfg fq); split; [by left|split; [by eexists|by apply Hacc]]|].
  eapply reach_cons; [apply (f_list ocase_key ocase_cfg fq _ _ _ _ _ _ (so_replace fq (store_init []) [(1, 1)] 1).1 true); [|reflexivity]|].
  { split; [simpl; lia|]. split; [intros o _; by eexists|]. intros k. unfold server_at, ocase_key. simpl. vm_compute (reverse _). simpl. destruct (decide (k = 1)) as [->|Hk]; [reflexivity|].
    cbn. repeat case_decide; simpl in *; congruence. }
  eapply reach_cons; [apply (f_loop ocase_key ocase_cfg fq _ _ _ _ (WWatch true) fcase_s1 1); [vm_compute; reflexivity|done]|].
  eapply reach_cons; [apply (f_change ocase_key ocase_cfg fq); split; [by left|split; [by eexists|by apply Hacc]]|].
  eapply reach_cons; [apply (f_change ocase_key ocase_cfg fq); split; [by right; left|split; [by eexists|by apply Hacc]]|].
  eapply reach_app; [apply (loops_reach _ _ _ _ _ _ _ _ fcase_s2); [vm_compute; reflexivity|reflexivity]|].
  eapply reach_cons; [apply (f_loop ocase_key ocase_cfg fq _ _ _ _ _ fcase_s3 3); [vm_compute; reflexivity|]|].
  { simpl. eapply feeds_change; [reflexivity|]. apply feeds_other; [right; split; [by left|by apply Hacc]|]. apply feeds_other; [left|].
    - intros rv (_ & Hty & _). by specialize (Hty eq_refl).
    - eapply feeds_change; [reflexivity|]. constructor. }
  apply loops_reach; [vm_compute; reflexivity|reflexivity].
Qed.
