(** C102: the text in which a record is kept. *)
From Coq Require Import Ascii String.
From Verif Require Import Base RecordText_model RecordText_spec RecordText_proofs RecordText_proofs2.
Local Open Scope Z_scope.

Section C102.
  Context {F : Type} (frepr : F → text) (fread : text → F) (Hfc : float_codec frepr fread).

  (** a value read back from its text is the value *)
  Theorem C102_text v : plain_value v → loads fread (dumps frepr v) = Some v.
  Proof. exact (loads_dumps frepr fread Hfc v). Qed.
  (** any str: pairs of surrogates are joined *)
  Theorem C102_str s t : Forall code_point s → joined s t → loads fread (dumps frepr (JStr s)) = Some (JStr t).
  Proof. exact (loads_str frepr fread s t). Qed.
  (** the text is printable ASCII *)
  Theorem C102_ascii v : plain_value v → Forall printable (dumps frepr v).
  Proof. exact (txt_printable frepr fread Hfc v). Qed.
  (** a value read from any text that can be encoded can be written and read again *)
  Theorem C102_again s v : loads fread s = Some v → Forall unicode_scalar s → plain_value v ∧ loads fread (dumps frepr v) = Some v.
  Proof. exact (λ H Hs, conj (loads_plain frepr fread s v H Hs) (loads_again frepr fread Hfc s v H Hs)). Qed.

  (** create, then get *)
  Theorem C102_create r : plain_value r → lock_get fread (lock_create frepr r) = Some (r, RrText (dumps frepr r)).
  Proof. exact (create_get frepr fread Hfc r). Qed.
  (** update, then get; the other annotations stay *)
  Theorem C102_update d r : plain_value r → ∃ d', lock_update frepr (Some d) r = Some (Some d') ∧
    lock_get fread (Some d') = Some (r, RrText (dumps frepr r)) ∧ ∀ k, k ≠ lock_key → dget k d' = dget k d.
  Proof. exact (update_get frepr fread Hfc d r). Qed.
  (** raw records differ exactly if the records do *)
  Theorem C102_raw r q : plain_value r → plain_value q → dumps frepr r = dumps frepr q ↔ r = q.
  Proof. exact (raw_same frepr fread Hfc r q). Qed.
  (** the records of an elector are such values: its own, with what it carries over from the
      record that get returned *)
  Theorem C102_elector identity lease renew acquire transitions : plain identity → plain_value acquire → (∀ n, transitions = Some n → plain_value n) →
    plain_value (F := F) (elector_record identity lease renew acquire transitions) ∧ ∀ n : json F, plain_value n → plain_value (released_record n).
  Proof. exact (λ Hi Ha Ht, conj (elector_plain identity lease renew acquire transitions Hi Ha Ht) released_plain). Qed.
  Theorem C102_carried a (r : json F) t : lock_get fread a = Some (r, RrText t) → Forall unicode_scalar t → plain_value r.
  Proof. exact (get_plain frepr fread a r t). Qed.
  (** without the annotation there is no record; without annotations {} or None is returned twice, "" for an empty text *)
  Theorem C102_absent : lock_get fread None = Some (JNull, RrNone) ∧ lock_get fread (Some []) = Some (JObj [], RrEmptyDict) ∧
    (∀ d, d ≠ [] → dget lock_key d = None → lock_get fread (Some d) = Some (JNull, RrNone)) ∧
    (∀ d, dget lock_key d = Some [] → lock_get fread (Some d) = Some (JStr [], RrText [])) ∧ ∀ r, lock_update frepr None r = None.
  Proof. exact (get_absent frepr fread). Qed.
End C102.

(** an identity made of two surrogates comes back as another identity *)
Theorem C102_split_refuted : Forall code_point split_id ∧ ∃ r : json bool,
  lock_get fread2 (lock_create frepr2 (elector_record split_id 15 true (JFloat true) None)) = Some (r, RrText (dumps frepr2 (elector_record split_id 15 true (JFloat true) None))) ∧
  r = elector_record [128512] 15 true (JFloat true) None ∧ r ≠ elector_record split_id 15 true (JFloat true) None.
Proof. exact split_eq. Qed.
(** a record with escapes, floats and a negative number; a list *)
Theorem C102_case : float_codec frepr2 fread2 ∧ plain case_id ∧ dumps frepr2 case_record = case_text ∧ loads fread2 case_text = Some case_record ∧
  dumps frepr2 case_list = case_list_text.
Proof. exact (conj codec2 (conj case_plain case_text_eq)). Qed.
(** texts of others, and texts that are not JSON *)
Theorem C102_foreign : loads id foreign_text = Some foreign_value ∧ loads id foreign_text' = Some foreign_value' ∧ Forall (λ t, loads id t = None) not_json.
Proof. exact foreign_eq. Qed.

Print Assumptions C102_text.
Print Assumptions C102_str.
Print Assumptions C102_ascii.
Print Assumptions C102_again.
Print Assumptions C102_create.
Print Assumptions C102_update.
Print Assumptions C102_raw.
Print Assumptions C102_elector.
Print Assumptions C102_carried.
Print Assumptions C102_absent.
Print Assumptions C102_split_refuted.
Print Assumptions C102_case.
Print Assumptions C102_foreign.
