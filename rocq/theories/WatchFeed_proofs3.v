(** The loop connected to a server comes to rest, and has applied what was delivered if the watch is not over then. *)
From Verif Require Import Base KeyFunc_model Reflector_model Store_model Reflector_spec World_model
  WatchLoop_model WatchLoop_spec WatchLoop_proofs WatchLoop_proofs2 WatchLoop_proofs3 WatchLoop_proofs4 WatchLoop_proofs5 WatchLoop_proofs7 WatchFeed_model WatchFeed_spec WatchFeed_proofs.

Section feed.
  Context {K O St : Type} `{EqDecision K} (keyf : O → option K) (g : rcfg O nat) (q : sops O nat St).

  Lemma inside_loops cs c b s gs f : reach (fstep keyf g q) (Fed cs c (FIn b s)) gs f → ∀ ls, gs = FLoop <$> ls → (∀ l, l ∈ ls → inside l = true) →
    ∃ s', f = Fed cs c (FIn b s') ∧ reach (wstep g q) s ls s'.
  Proof.
    induction 1 as [|gs f1 gl f2 Hr IH Hs]; intros ls Hls Hall.
    - symmetry in Hls. apply fmap_nil_inv in Hls as ->. exists s. split; [done|constructor].
    - symmetry in Hls. apply fmap_app_inv in Hls as (ls1 & ls2 & -> & Hls2 & ->). symmetry in Hls2. destruct ls2 as [|l [|]]; simplify_eq/=.
      destruct (IH ls1 eq_refl) as (s1 & -> & Hr1); [intros l1 ?; apply Hall; apply elem_of_app; by left|].
      assert (inside l = true) as Hl by (apply Hall; apply elem_of_app; right; left).
      inversion Hs as [|? ? ? ? ? s2 c' Hw Hc| |]; subst. exists s2. assert (c' = c) as -> by (by destruct l as [|[]| | | | | |]).
      split; [done|]. by econstructor.
  Qed.
  Lemma feed_settles x0 ls cs c b s : reach (fstep keyf g q) (fed_init x0) ls (Fed cs c (FIn b s)) →
    ∃ n, ∀ ls2 f, reach (fstep keyf g q) (Fed cs c (FIn b s)) (FLoop <$> ls2) f → (∀ l, l ∈ ls2 → inside l = true) →
      length ls2 ≤ n ∧ ((∀ l f', inside l = true → ¬ fstep keyf g q f (FLoop l) f') →
        ∃ s', f = Fed cs c (FIn b s') ∧ (w_pc s' = PWait ∧ w_last s' = Some c ∨ between (w_pc s'))).
  Proof.
    intros Hr. destruct (FI_reach keyf g q _ _ _ Hr) as (_ & wls & w & Hw & Hch & v0 & x & ls1 & v & Hr1 & _). exists (owed s). intros ls2 f Hf Hall.
    destruct (inside_loops _ _ _ _ _ _ Hf ls2 eq_refl Hall) as (s' & -> & Hr2).
    pose proof (own_bounded g q s ls2 s' (Inv_reach g q _ _ _ _ Hr1) Hr2 Hall). split; [lia|]. intros Hn. exists s'. split; [done|].
    destruct (settled g q _ _ _ s' (reach_app _ _ _ _ _ _ Hr1 Hr2)) as [Hrd [Hpc|?]]; [| |by right].
    - intros l s3 Hl Hs3. eapply (Hn l); [done|]. eapply f_loop; [exact Hs3|]. by destruct l as [|[]| | | | | |].
    - left. split; [done|]. eapply feed_caught_up; [|exact Hrd|exact Hpc]. eapply reach_app; [exact Hr|exact Hf].
  Qed.
End feed.
