(** C85. *)
From Verif Require Import Base Client_model Client_spec KeyFunc_model Reflector_model Reflector_spec Request_model Request_spec Request_proofs.
From Coq Require Import Strings.String.
From stdpp Require Import strings.

Section props.
  Context {G T O RV S : Type} `{EqDecision G, EqDecision T} (cfg : rcfg O RV) (so : sops O RV S) (g : G) (ns : option string).
  Notation qstep := (qstep (T:=T) cfg so g ns).
  Notation hist := (list (qinput G T O RV * qoutput G O RV)).

  (** C85: every request is one the API accepts, and asks for the objects of the cache's namespace, all and only these *)
  Theorem C85_namespace s0 (h : hist) i k q out x : exec qstep (q_init s0) (h ++ [(QIn i k, QSent (Some q) out)]) x → valid q ∧ ∀ n, selects q n ↔ wanted ns n.
  Proof. exact (scope cfg so g ns s0 h i k q out x). Qed.
  (** it is made with the client that was registered first for the kind *)
  Theorem C85_client s0 (h : hist) i k q out x : exec qstep (q_init s0) (h ++ [(QIn i k, QSent (Some q) out)]) x →
    ∃ d, first_def g (defs (reg_part h)) = Some d ∧ q_client q = d_cls d.
  Proof. exact (client_request cfg so g ns s0 h i k q out x). Qed.
  (** a list asks for any version, *)
  Theorem C85_list s0 (h : hist) i k q out x : exec qstep (q_init s0) (h ++ [(QIn i k, QSent (Some q) out)]) x → q_watch q = false →
    arg q "resource_version" = Some (VText "0") ∧ (∀ a, is_Some (arg q a) → a = "resource_version" ∨ a = "namespace")%string.
  Proof. exact (list_request cfg so g ns s0 h i k q out x). Qed.
  (** a watch for what comes after the version the reflector has, for 5 to 10 minutes *)
  Theorem C85_watch s0 (h : hist) i k q out x : exec qstep (q_init s0) (h ++ [(QIn i k, QSent (Some q) out)]) x → q_watch q = true → (0 <= k < 2 ^ 53)%Z →
    (∃ v, arg q "resource_version" = Some (VVersion v) ∧ synced cfg (reverse (refl_part h)) v) ∧
    (∃ n, arg q "timeout_seconds" = Some (VInt n) ∧ 300 <= n <= 600)%Z ∧
    (∀ a, is_Some (arg q a) → a = "resource_version" ∨ a = "timeout_seconds" ∨ a = "namespace")%string.
  Proof. exact (watch_request cfg so g ns s0 h i k q out x). Qed.
  (** what the reflector works with was asked for *)
  Theorem C85_asked_for s0 (h : hist) x i k q out c : exec qstep (q_init s0) h x → (QIn i k, QSent q out) ∈ h → c ∈ out →
    match c, i with
    | CReplace _ _ _, _ => ∃ q', q = Some q' ∧ q_watch q' = false
    | CWatch _, IWatch => ∃ q', q = Some q' ∧ q_watch q' = true
    | _, _ => True
    end.
  Proof. exact (asked_for cfg so g ns s0 h x i k q out c). Qed.
  (** so with a server that answers requests with what they select, nothing from other namespaces reaches the store *)
  Theorem C85_only_wanted (nsof : O → string) s0 (h : hist) x : exec qstep (q_init s0) h x → honest nsof h →
    ∀ i q out c o, (i, QSent q out) ∈ h → c ∈ out → o ∈ call_objs c → wanted ns (nsof o).
  Proof. exact (only_wanted cfg so g ns nsof s0 h x). Qed.
  (** as long as no client is registered for the kind, nothing is asked for and the store stays as it is *)
  Theorem C85_unregistered s0 (h : hist) x : exec qstep (q_init s0) h x → (∀ d, d ∈ defs (reg_part h) → d_gvk d ≠ Some g) →
    q_store x = s0 ∧ ∀ i q out, (i, QSent q out) ∈ h → q = None.
  Proof. exact (unregistered cfg so g ns s0 h x). Qed.
End props.
(** C85: the timeout is below ten minutes, except for one random number: its sum with 1 is rounded to 2 *)
Theorem C85_timeout_below k : (0 <= k < 2 ^ 53 → timeout_seconds k = 600 ↔ k = 2 ^ 53 - 1)%Z.
Proof. exact (timeout_600 k). Qed.

(** random numbers whose sums with 1 lie halfway between doubles: one is rounded up, one down, and the timeouts are those of the roundings *)
Theorem C85_timeout_half : timeout_seconds 30023997515803 = 301%Z ∧ timeout_seconds 60047995031605 = 301%Z.
Proof. exact timeout_half. Qed.

(** a case: in a cache for the namespace "a", a list before and one after the kind is registered, then two watches *)
Theorem C85_case : (∃ x, exec rq_step (q_init []) rq_h x ∧ q_store x = [("a"%string, 4); ("a"%string, 8)]) ∧ honest fst rq_h.
Proof. exact rq_case. Qed.

Print Assumptions C85_namespace.
Print Assumptions C85_client.
Print Assumptions C85_list.
Print Assumptions C85_watch.
Print Assumptions C85_asked_for.
Print Assumptions C85_only_wanted.
Print Assumptions C85_unregistered.
Print Assumptions C85_timeout_below.
Print Assumptions C85_timeout_half.
Print Assumptions C85_case.
