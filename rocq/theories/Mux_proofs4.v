(** Every event returned by a watcher answers a call of its __anext__. *)
From Verif Require Import Base Mux_model Mux_spec Mux_proofs Mux_proofs2.
From Coq Require Import ZArith.
Section mux4.
  Context {E : Type} (len : Z) (mode : behavior).
  Implicit Types (ws : list (mwatcher E)) (w : mwatcher E) (tr : list (mlabel E)).
  Definition lv ws (i : nat) : nat := match ws !! i with Some w => mw_live w | None => 0 end.
  Lemma calls_snoc i tr l : calls i (tr ++ [l]) = calls i tr + match l with MNext j => if bool_decide (j = i) then 1 else 0 | _ => 0 end.
  Proof. unfold calls. rewrite omap_app, app_length. f_equal. destruct l; try done; simpl; by destruct (bool_decide _). Qed.
  Lemma lv_insert ws i k w : is_Some (ws !! k) → lv (<[k := w]> ws) i = if bool_decide (k = i) then mw_live w else lv ws i.
  Proof. intros [? H]. unfold lv. case_bool_decide; subst; [by rewrite list_lookup_insert by (by eapply lookup_lt_Some)|by rewrite list_lookup_insert_ne]. Qed.
  Lemma lv_alter ws i k : lv (alter mstop k ws) i = lv ws i.
  Proof. unfold lv. destruct (decide (k = i)) as [->|]; [rewrite list_lookup_alter; by destruct (ws !! i)|by rewrite list_lookup_alter_ne]. Qed.
  Lemma lv_drop e ids ws i : lv (drop_dist e ids ws).1 i = lv ws i.
  Proof.
    revert ws. induction ids as [|k ids IH]; intros ws; [done|]. simpl. destruct (ws !! k) as [w|] eqn:Hk; [|apply IH]. destruct (mw_stopped w); [apply IH|]. destruct (mfull w).
    - specialize (IH ws). by destruct (drop_dist e ids ws).
    - rewrite IH, lv_insert by done. case_bool_decide; [|done]. subst. unfold lv. rewrite Hk. by destruct w.
  Qed.
  Lemma calls_answered i tr s : reach (mstep len mode) mux_init tr s → lv (m_ws s) i + length (received i tr) + leaves i tr = calls i tr.
  Proof.
    induction 1 as [|tr s1 l s2 Hr IH Hs]; [by destruct i|]. rewrite calls_snoc, leaves_snoc, received_snoc, app_length.
    destruct Hs as [| | | ? ? ? ? ? ? ? Hd | | | | | | | | | | |]; simpl in *; try lia.
    - unfold lv in *. destruct (decide (i < length ws)) as [Hl|Hl]; [rewrite lookup_app_l by done; lia|]. rewrite lookup_ge_None_2 in IH by lia.
      destruct (decide (i = length ws)) as [->|]; [rewrite list_lookup_middle by done; destruct pre; simpl; lia|]. rewrite lookup_ge_None_2; [lia|]. rewrite app_length. simpl. lia.
    - assert (H : lv (foldr (λ k ws, alter mstop k ws) ws reg) i = lv ws i); [|lia]. clear. induction reg as [|k reg IH]; [done|]. simpl. by rewrite lv_alter.
    - rewrite <-(lv_drop e reg), Hd in IH. simpl in IH. lia.
    - rewrite lv_insert by done. case_bool_decide; [subst; unfold lv in IH; rewrite H in IH; destruct w; simpl in *|]; lia.
    - rewrite lv_insert by done. case_bool_decide; [subst; unfold lv in IH; rewrite H in IH; destruct w; simpl in *|]; lia.
    - rewrite lv_insert by done. case_bool_decide; [subst; unfold lv in IH; rewrite H in IH; simpl in *|]; lia.
    - rewrite lv_insert by done. case_bool_decide; [subst; unfold lv in IH; rewrite H in IH; simpl in *|simpl]; lia.
    - rewrite lv_insert by done. case_bool_decide; [subst; unfold lv in IH; rewrite H in IH; simpl in *|]; lia.
    - rewrite lv_insert by done. case_bool_decide; [subst; unfold lv in IH; rewrite H in IH; simpl in *|]; lia.
    - rewrite lv_insert by done. case_bool_decide; [subst; unfold lv in IH; rewrite H in IH; simpl in *|]; lia.
  Qed.
  Lemma answers_calls i tr s : reach (mstep len mode) mux_init tr s → length (received i tr) + leaves i tr ≤ calls i tr.
  Proof. intros Hr. pose proof (calls_answered i tr s Hr). lia. Qed.
End mux4.
