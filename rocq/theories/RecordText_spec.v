(** Vocabulary for the text of records. *)
From Coq Require Import Ascii String.
From Verif Require Import Base RecordText_model.
Local Open Scope Z_scope.

(** a code point of a Python str; surrogates *)
Definition code_point (c : Z) : Prop := 0 ≤ c ≤ 1114111.
Definition high_surrogate (c : Z) : Prop := 55296 ≤ c < 56320.
Definition low_surrogate (c : Z) : Prop := 56320 ≤ c < 57344.
(** a character that can be encoded, as those of a text that a server sent *)
Definition unicode_scalar (c : Z) : Prop := code_point c ∧ ¬ high_surrogate c ∧ ¬ low_surrogate c.
Definition printable (c : Z) : Prop := 32 ≤ c ≤ 126.
(** a str in which no high surrogate is followed by a low one *)
Definition plain (s : text) : Prop :=
  Forall code_point s ∧ ∀ i c d, s !! i = Some c → s !! S i = Some d → high_surrogate c → low_surrogate d → False.
(** such pairs replaced by the character they stand for in UTF-16 *)
Inductive joined : text → text → Prop :=
| joined_nil : joined [] []
| joined_pair h l s t : high_surrogate h → low_surrogate l → joined s t → joined (h :: l :: s) (65536 + (h - 55296) * 1024 + (l - 56320) :: t)
| joined_one c s t : (∀ d s', s = d :: s' → high_surrogate c → low_surrogate d → False) → joined s t → joined (c :: s) (c :: t).

(** a float in decimal: an integer part, a fraction, an exponent, not only the first *)
Definition digit (c : Z) : Prop := 48 ≤ c ≤ 57.
Inductive int_part : text → Prop :=
| ip_zero : int_part (txt "0")
| ip_pos d ds : digit d → d ≠ 48 → Forall digit ds → int_part (d :: ds).
Inductive frac_part : text → Prop := frac_ d ds : Forall digit (d :: ds) → frac_part (txt "." ++ d :: ds).
Inductive exp_part : text → Prop := exp_ sg d ds : Forall digit (d :: ds) → sg ∈ [txt ""; txt "+"; txt "-"] → exp_part (txt "e" ++ sg ++ d :: ds).
Inductive float_literal : text → Prop :=
| fl_word s : s ∈ [txt "NaN"; txt "Infinity"; txt "-Infinity"] → float_literal s
| fl_frac sg i f : sg ∈ [txt ""; txt "-"] → int_part i → frac_part f → float_literal (sg ++ i ++ f)
| fl_exp sg i e : sg ∈ [txt ""; txt "-"] → int_part i → exp_part e → float_literal (sg ++ i ++ e)
| fl_both sg i f e : sg ∈ [txt ""; txt "-"] → int_part i → frac_part f → exp_part e → float_literal (sg ++ i ++ f ++ e).
(** repr and float of floats: what Python promises *)
Definition float_codec {F} (frepr : F → text) (fread : text → F) : Prop :=
  ∀ x, float_literal (frepr x) ∧ fread (frepr x) = x.

(** values made of plain strings and dicts *)
Inductive plain_value {F} : json F → Prop :=
| pv_null : plain_value JNull | pv_bool b : plain_value (JBool b) | pv_int z : plain_value (JInt z) | pv_float f : plain_value (JFloat f)
| pv_str s : plain s → plain_value (JStr s)
| pv_arr l : (∀ x, x ∈ l → plain_value x) → plain_value (JArr l)
| pv_obj l : NoDup l.*1 → (∀ k, k ∈ l.*1 → plain k) → (∀ k x, (k, x) ∈ l → plain_value x) → plain_value (JObj l).

(** the records of leaderelection.py: 140-145, 186-195, 125-127 *)
Definition elector_record {F} (identity : text) (lease : Z) (renew : F) (acquire : json F) (transitions : option (json F)) : json F :=
  JObj ([(txt "holderIdentity", JStr identity); (txt "leaseDurationSeconds", JInt lease); (txt "renewTime", JFloat renew); (txt "acquireTime", acquire)]
        ++ match transitions with Some n => [(txt "leaderTransitions", n)] | None => [] end).
Definition released_record {F} (transitions : json F) : json F := JObj [(txt "leaderTransitions", transitions)].

(** ** Cases *)
(** two floats *)
Definition frepr2 (b : bool) : text := if b then txt "1700000000.25" else txt "1e-05".
Definition fread2 (s : text) : bool := bool_decide (s = txt "1700000000.25").
(** the identity: a quote, é, a tab, an emoji *)
Definition case_id : text := txt "a""" ++ [233; 9; 128512].
Definition case_record : json bool := elector_record case_id (-15) true (JFloat false) (Some (JInt 1234567890)).
Definition case_text : text :=
  txt "{""holderIdentity"": ""a\""\u00e9\t\ud83d\ude00"", ""leaseDurationSeconds"": -15, ""renewTime"": 1700000000.25, ""acquireTime"": 1e-05, ""leaderTransitions"": 1234567890}".
(** values of all other kinds *)
Definition case_list : json bool := JArr [JInt 0; JInt 100; JNull; JBool true; JBool false; JArr []; JObj []; JStr [127; 47; 8; 12; 10; 13; 92; 65535]].
Definition case_list_text : text := txt "[0, 100, null, true, false, [], {}, ""\u007f/\b\f\n\r\\\uffff""]".
(** a text that dumps does not make *)
Definition foreign_text : text := txt " { ""a"" :[1 , -0,2.5E+3, {}, [ ], ""\/\u00E9\ud83d"" ] ,""b"":null, ""a"": true}" ++ [10].
Definition foreign_value : json text := JObj [(txt "a", JBool true); (txt "b", JNull)].
Definition foreign_text' : text := txt "[1 , -0,2.5E+3, {}, [ ], ""\/\u00E9\ud83dx"" ]".
Definition foreign_value' : json text := JArr [JInt 1; JInt 0; JFloat (txt "2.5E+3"); JObj []; JArr []; JStr [47; 233; 55357; 120]].
Definition not_json : list text :=
  [txt ""; txt "[1,]"; txt "{""a"":1,}"; txt "01"; txt "1."; txt "'a'"; txt """\x"""; txt """\u12g4"""; [34; 10; 34]; txt "nul"; txt "1 2"; txt "{1:2}"; txt "[1"; 65279 :: txt "1"].
(** an identity of two surrogates *)
Definition split_id : text := [55357; 56832].
