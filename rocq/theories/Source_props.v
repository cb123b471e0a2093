(** Properties of the event handlers: C64-C66. *)
From Verif Require Import Base KeyFunc_model KeyFunc_spec DeltaFifo_model Store_model Informer_model SharedInformer_model Source_model Source_spec Source_proofs.
From Coq Require Import Strings.String.
From stdpp Require Import strings.
Local Open Scope nat_scope.

(** C64: a notification accepted by the predicates puts the object's name on the queue *)
Theorem C64_create_enqueues ps o ns name b : named o ns name → (∀ p e, p ∈ ps → p e = PTrue) →
  let r := on_notif ps (NAdd (DObj o) b) in o_adds r = [NsName ns name] ∧ o_raised r = false.
Proof. exact (create_enqueues ps o ns name b). Qed.
Theorem C64_update_enqueues ps o1 ns1 name1 o2 ns2 name2 b : named o1 ns1 name1 → named o2 ns2 name2 → (∀ p e, p ∈ ps → p e = PTrue) →
  let r := on_notif ps (NUpdate (DObj o1) (DObj o2) b) in o_adds r = [NsName ns1 name1; NsName ns2 name2] ∧ o_raised r = false.
Proof. exact (update_enqueues ps o1 ns1 name1 o2 ns2 name2 b). Qed.

(** C65: so does a deletion reported by the watch, *)
Theorem C65_watched_deletion ps o ns name : named o ns name → (∀ p e, p ∈ ps → p e = PTrue) →
  let r := on_notif ps (NDelete (DObj o)) in o_adds r = [NsName ns name] ∧ o_raised r = false.
Proof. exact (delete_enqueues ps o ns name). Qed.
(** but no other: in every history of an informer, whatever deletion put something on the queue came from the watch *)
Theorem C65_only_watched {V N : Type} `{EqDecision V} `{EqDecision N} second dflt fs h s l d ps :
  exec (hstep (V:=V) (N:=N) queue_key second dflt) (shared_init dflt fs) h s → l ∈ p_ls (h_proc s) → NDelete d ∈ l_log l →
  o_adds (on_notif ps (NDelete d)) ≠ [] → ∃ o r, d = DObj o ∧ (HInf (QDelete o), r) ∈ h.
Proof. exact (only_watched second dflt fs h s l d ps). Qed.
Theorem C65_relist_dropped ps k o : on_notif ps (NDelete (DTomb k o)) = Outcome [] None [] false.
Proof. exact (tomb_dropped ps k o). Qed.
(** ns/a was listed, then gone from the next list: the cache no longer has it, and its only request is that of its creation *)
Theorem C65_relist_refuted : ∃ s l, exec sr_step sr_init relist_h s ∧ p_ls (h_proc s) = [l] ∧
  (HInf PDelta, HI (ICallback (NAdd (DObj (pod "a")) true))) ∈ relist_h ∧
  NDelete (DTomb (Some "ns/a"%string) (Some (DObj (pod "a")))) ∈ l_log l ∧
  (istep queue_key (h_inf s) (SLook (Some "ns/a"%string))).2 = IObj None ∧
  feed [] (l_log l) = NsName (Some "ns") (Some "a") :: replicate 3 (NsName (Some "ns") (Some "b")).
Proof. exact relist_deletion. Qed.

(** C66: the handler is called exactly for the events with metadata that all predicates accept, *)
Theorem C66_reaches_handler ps n e : o_handled (on_notif ps n) = Some e ↔ event_of n e ∧ ∀ p, p ∈ ps → p e = PTrue.
Proof. exact (reaches_iff ps n e). Qed.
Theorem C66_events n : (∃ e, event_of n e) ↔ ∀ o, o ∈ objects n → ∃ o', o = DObj o' ∧ has_meta o'.
Proof. exact (event_of_meta n). Qed.
(** each predicate is asked once and in order, *)
Theorem C66_asked_all ps n e : event_of n e → (∀ p, p ∈ ps → p e = PTrue) → o_asked (on_notif ps n) = replicate (length ps) e.
Proof. exact (asked_all ps n e). Qed.
(** up to the first that refuses or raises *)
Theorem C66_stops_at_refusal ps1 p ps2 n e : event_of n e → (∀ q, q ∈ ps1 → q e = PTrue) → p e ≠ PTrue →
  on_notif (ps1 ++ p :: ps2) n = Outcome (replicate (S (length ps1)) e) None [] (match p e with PRaise => true | _ => false end).
Proof. exact (asked_until ps1 p ps2 n e). Qed.
(** without metadata nobody is asked *)
Theorem C66_no_metadata ps n : (∃ o, o ∈ objects n ∧ ∀ o', o = DObj o' → ¬ has_meta o') → on_notif ps n = Outcome [] None [] false.
Proof. exact (no_meta_dropped ps n). Qed.
(** an object with metadata but no name or namespace: the handler raises, having added the requests of the objects before it *)
Theorem C66_nameless_raises ps n e l1 o l2 rs : event_of n e → (∀ p, p ∈ ps → p e = PTrue) → objects n = l1 ++ o :: l2 → nameless o →
  Forall2 (λ o r, ∃ o', o = DObj o' ∧ named o' (nn_namespace r) (nn_name r)) l1 rs → o_adds (on_notif ps n) = rs ∧ o_raised (on_notif ps n) = true.
Proof. exact (nameless_raises ps n e l1 o l2 rs). Qed.

(** cases *)
Example C66_nameless_case : nameless (DObj bare) ∧ o_adds (on_notif [] (NUpdate (DObj (Typed (Some (Some (Some "ns", Some "a"))) "")) (DObj bare) false)) = [NsName (Some "ns") (Some "a")]%string ∧
  o_raised (on_notif [] (NUpdate (DObj (Typed (Some (Some (Some "ns", Some "a"))) "")) (DObj bare) false)) = true.
Proof. exact nameless_case. Qed.
Example C66_case : on_notif [no_b; λ _, PTrue] (NAdd (DObj (pod "b")) false) = Outcome [CreateEvent (MTyped (Some (Some "ns", Some "b"))) (pod "b")]%string None [] false ∧
  o_adds (on_notif [no_b; λ _, PTrue] (NUpdate (DObj (pod "b")) (DObj (pod "b")) true)) = replicate 2 (NsName (Some "ns") (Some "b"))%string.
Proof. exact gate_case. Qed.

Print Assumptions C64_create_enqueues.
Print Assumptions C64_update_enqueues.
Print Assumptions C65_watched_deletion.
Print Assumptions C65_only_watched.
Print Assumptions C65_relist_dropped.
Print Assumptions C65_relist_refuted.
Print Assumptions C66_reaches_handler.
Print Assumptions C66_events.
Print Assumptions C66_asked_all.
Print Assumptions C66_stops_at_refusal.
Print Assumptions C66_no_metadata.
Print Assumptions C66_nameless_raises.
