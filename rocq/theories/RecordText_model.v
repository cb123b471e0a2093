(** Model of the text in which aiok8s/leaderelection/resourcelock.py keeps a record:
    [json.dumps] and [json.loads] with their default arguments (lines 50, 54, 69), as in
    the json package of CPython 3.11, and the methods of [ConfigMapLock] around them.

    A character is its code point; a text is a list of them.  [loads] follows
    json/scanner.py, json/decoder.py ([JSONObject], [JSONArray], [py_scanstring]); digits
    are ASCII digits, as in the C scanner that CPython uses.
    Floats are a type with a function to texts ([float.__repr__], and "NaN", "Infinity",
    "-Infinity") and one back ([float]); nothing is said about their arithmetic.
    Not modelled: the recursion limit; the limit on the digits of an int (4300);
    dictionaries with keys that are not strings, tuples, and values that json.dumps
    rejects; the text of error messages. *)
From Coq Require Import Ascii String Decimal.
From Verif Require Import Base.
Local Open Scope Z_scope.

Notation text := (list Z).
(** a literal *)
Fixpoint txt (s : string) : text :=
  match s with EmptyString => [] | String c s => Z.of_N (N_of_ascii c) :: txt s end.
Definition ch (c : ascii) : Z := Z.of_N (N_of_ascii c).

Section json.
  Context {F : Type} (frepr : F → text) (fread : text → F).

  (** what json.loads returns *)
  Inductive json :=
  | JNull | JBool (b : bool) | JInt (z : Z) | JFloat (f : F) | JStr (s : text) | JArr (l : list json) | JObj (l : list (text * json)).

  (** ** json.dumps *)
  Definition hex (d : Z) : Z := if d <? 10 then 48 + d else 87 + d.
  (** '\\u{0:04x}' *)
  Definition uescape (n : Z) : text := txt "\u" ++ [hex (n / 4096); hex (n / 256 mod 16); hex (n / 16 mod 16); hex (n mod 16)].
  (** encoder.py, ESCAPE_DCT and [replace] in py_encode_basestring_ascii *)
  Definition escape (c : Z) : text :=
    if decide (c = 34) then txt "\""" else if decide (c = 92) then txt "\\"
    else if decide (c = 8) then txt "\b" else if decide (c = 12) then txt "\f" else if decide (c = 10) then txt "\n"
    else if decide (c = 13) then txt "\r" else if decide (c = 9) then txt "\t"
    else if (32 <=? c) && (c <=? 126) then [c]
    else if c <? 65536 then uescape c
    else let n := c - 65536 in uescape (55296 + n / 1024 mod 1024) ++ uescape (56320 + n mod 1024).
  Definition quote (s : text) : text := [34] ++ mjoin (escape <$> s) ++ [34].

  (** int.__repr__ *)
  Fixpoint digits (d : uint) : text :=
    match d with
    | Nil => [] | D0 d => 48 :: digits d | D1 d => 49 :: digits d | D2 d => 50 :: digits d | D3 d => 51 :: digits d | D4 d => 52 :: digits d
    | D5 d => 53 :: digits d | D6 d => 54 :: digits d | D7 d => 55 :: digits d | D8 d => 56 :: digits d | D9 d => 57 :: digits d
    end.
  Definition irepr (z : Z) : text := (if z <? 0 then [45] else []) ++ digits (N.to_uint (Z.abs_N z)).

  (** _iterencode: item separator ", ", key separator ": " *)
  Fixpoint dumps (v : json) : text :=
    match v with
    | JNull => txt "null" | JBool true => txt "true" | JBool false => txt "false"
    | JInt z => irepr z | JFloat f => frepr f | JStr s => quote s
    | JArr l => [91] ++ (fix items l := match l with [] => [] | [x] => dumps x | x :: l => dumps x ++ txt ", " ++ items l end) l ++ [93]
    | JObj l => [123] ++ (fix members l := match l with [] => [] | [(k, x)] => quote k ++ txt ": " ++ dumps x
                                                   | (k, x) :: l => quote k ++ txt ": " ++ dumps x ++ txt ", " ++ members l end) l ++ [125]
    end.

  (** ** json.loads *)
  Definition is_ws (c : Z) : bool := bool_decide (c ∈ [32; 9; 10; 13]).
  Fixpoint skip (s : text) : text := match s with c :: s' => if is_ws c then skip s' else s | [] => [] end.
  Definition is_digit (c : Z) : bool := (48 <=? c) && (c <=? 57).
  Definition unhex (c : Z) : option Z :=
    if is_digit c then Some (c - 48) else if (97 <=? c) && (c <=? 102) then Some (c - 87) else if (65 <=? c) && (c <=? 70) then Some (c - 55) else None.
  (** _decode_uXXXX *)
  Definition unhex4 (s : text) : option (Z * text) :=
    match s with
    | a :: b :: c :: d :: s => a ← unhex a; b ← unhex b; c ← unhex c; d ← unhex d; Some (a * 4096 + b * 256 + c * 16 + d, s)
    | _ => None
    end.
  Definition high (c : Z) : bool := (55296 <=? c) && (c <=? 56319).
  Definition low (c : Z) : bool := (56320 <=? c) && (c <=? 57343).
  (** py_scanstring, after the opening quote; strict.  [n] bounds the number of steps *)
  Fixpoint scanstring (n : nat) (s : text) : option (text * text) :=
    match n with
    | O => None
    | S n =>
        let cons (c : Z) (s : text) := p ← scanstring n s; Some (c :: p.1, p.2) in
        match s with
        | [] => None                                 (* unterminated string *)
        | c :: s =>
            if decide (c = 34) then Some ([], s)
            else if decide (c = 92) then
              match s with
              | [] => None
              | e :: s =>
                  if decide (e = 117) then
                    p ← unhex4 s;
                    match p.2 with
                    | b :: u :: s' =>
                        if high p.1 && bool_decide (b = 92) && bool_decide (u = 117) then
                          q ← unhex4 s';
                          if low q.1 then cons (65536 + (p.1 - 55296) * 1024 + (q.1 - 56320)) q.2 else cons p.1 p.2
                        else cons p.1 p.2
                    | _ => cons p.1 p.2
                    end
                  else if decide (e = 34) then cons 34 s else if decide (e = 92) then cons 92 s else if decide (e = 47) then cons 47 s
                  else if decide (e = 98) then cons 8 s else if decide (e = 102) then cons 12 s else if decide (e = 110) then cons 10 s
                  else if decide (e = 114) then cons 13 s else if decide (e = 116) then cons 9 s
                  else None
              end
            else if c <? 32 then None                (* invalid control character *)
            else cons c s
        end
    end.

  (** \d* *)
  Fixpoint span_digits (s : text) : text * text :=
    match s with c :: s' => if is_digit c then let p := span_digits s' in (c :: p.1, p.2) else ([], s) | [] => ([], []) end.
  (** NUMBER_RE = (-?(?:0|[1-9]\d* ))(\.\d+)?([eE][-+]?\d+)? *)
  Definition scan_int (s : text) : option (text * text) :=
    let '(sign, s) := match s with c :: s' => if decide (c = 45) then ([c], s') else ([], s) | [] => ([], s) end in
    match s with
    | c :: s' => if decide (c = 48) then Some (sign ++ [c], s')
                 else if is_digit c then let p := span_digits s' in Some (sign ++ c :: p.1, p.2) else None
    | [] => None
    end.
  Definition scan_frac (s : text) : text * text :=
    match s with
    | c :: s' => if decide (c = 46) then match span_digits s' with ([], _) => ([], s) | (ds, s'') => (c :: ds, s'') end else ([], s)
    | [] => ([], s)
    end.
  Definition scan_exp (s : text) : text * text :=
    match s with
    | c :: s' =>
        if decide (c = 101 ∨ c = 69) then
          let '(sign, s') := match s' with d :: s'' => if decide (d = 43 ∨ d = 45) then ([d], s'') else ([], s') | [] => ([], s') end in
          match span_digits s' with ([], _) => ([], s) | (ds, s'') => (c :: sign ++ ds, s'') end
        else ([], s)
    | [] => ([], s)
    end.
  (** int of a text of digits, after an optional minus sign *)
  Definition read_nat (ds : text) : Z := foldl (λ a d, a * 10 + (d - 48)) 0 ds.
  Definition read_int (ds : text) : Z := match ds with c :: ds' => if decide (c = 45) then - read_nat ds' else read_nat ds | [] => 0 end.
  Definition scan_number (s : text) : option (json * text) :=
    p ← scan_int s;
    let f := scan_frac p.2 in let e := scan_exp f.2 in
    Some (match f.1 ++ e.1 with [] => JInt (read_int p.1) | _ => JFloat (fread (p.1 ++ f.1 ++ e.1)) end, e.2).

  (** string[idx:idx + n] == word *)
  Fixpoint word (w s : text) : option text :=
    match w, s with
    | [], s => Some s
    | a :: w, b :: s => if decide (a = b) then word w s else None
    | _, [] => None
    end.
  (** the branches of _scan_once that do not recurse, strings apart *)
  Definition scan_atom (s : text) : option (json * text) :=
    match word (txt "null") s with Some s => Some (JNull, s) | None =>
    match word (txt "true") s with Some s => Some (JBool true, s) | None =>
    match word (txt "false") s with Some s => Some (JBool false, s) | None =>
    match scan_number s with Some p => Some p | None =>
    match word (txt "NaN") s with Some s => Some (JFloat (fread (txt "NaN")), s) | None =>
    match word (txt "Infinity") s with Some s => Some (JFloat (fread (txt "Infinity")), s) | None =>
    match word (txt "-Infinity") s with Some s => Some (JFloat (fread (txt "-Infinity")), s) | None => None
    end end end end end end end.

  (** dict(pairs) *)
  Definition dict_of (l : list (text * json)) : list (text * json) := foldl (λ d p, dset p.1 p.2 d) [] l.

  (** _scan_once; the loops of JSONArray and JSONObject, the latter after the quote of a key *)
  Fixpoint scan (n : nat) (s : text) {struct n} : option (json * text) :=
    match n with
    | O => None
    | S n =>
        match s with
        | [] => None
        | c :: s' =>
            if decide (c = 34) then p ← scanstring (S (length s')) s'; Some (JStr p.1, p.2)
            else if decide (c = 123) then
              match skip s' with
              | c :: s => if decide (c = 125) then Some (JObj [], s)
                          else if decide (c = 34) then p ← scan_members n s; Some (JObj (dict_of p.1), p.2) else None
              | [] => None
              end
            else if decide (c = 91) then
              match skip s' with
              | c :: s'' => if decide (c = 93) then Some (JArr [], s'') else p ← scan_items n (skip s'); Some (JArr p.1, p.2)
              | [] => None
              end
            else scan_atom s
        end
    end
  with scan_items (n : nat) (s : text) {struct n} : option (list json * text) :=
    match n with
    | O => None
    | S n =>
        p ← scan n s;
        match skip p.2 with
        | c :: s => if decide (c = 93) then Some ([p.1], s)
                    else if decide (c = 44) then q ← scan_items n (skip s); Some (p.1 :: q.1, q.2) else None
        | [] => None
        end
    end
  with scan_members (n : nat) (s : text) {struct n} : option (list (text * json) * text) :=
    match n with
    | O => None
    | S n =>
        k ← scanstring (S (length s)) s;
        match skip k.2 with
        | c :: s =>
            if decide (c = 58) then
              p ← scan n (skip s);
              match skip p.2 with
              | c :: s =>
                  if decide (c = 125) then Some ([(k.1, p.1)], s)
                  else if decide (c = 44) then
                    match skip s with
                    | c :: s => if decide (c = 34) then q ← scan_members n s; Some ((k.1, p.1) :: q.1, q.2) else None
                    | [] => None
                    end
                  else None
              | [] => None
              end
            else None
        | [] => None
        end
    end.

  (** decode; loads rejects a byte order mark.  None: JSONDecodeError *)
  Definition loads (s : text) : option json :=
    if decide (head s = Some 65279) then None
    else p ← scan (2 * length s + 2) (skip s); match skip p.2 with [] => Some p.1 | _ => None end.

  (** ** ConfigMapLock: 42-51, 53-64, 66-75 *)
  Definition lock_key : text := txt "control-plane.alpha.kubernetes.io/leader".
  (** metadata.annotations of the config map *)
  Definition annots := option (dict text text).
  (** the record and the raw record that get returns; None: json.loads raised *)
  Inductive raw_record := RrNone | RrEmptyDict | RrText (s : text).
  Definition lock_get (a : annots) : option (json * raw_record) :=
    match a with
    | None => Some (JNull, RrNone)
    | Some [] => Some (JObj [], RrEmptyDict)
    | Some d =>
        match dget lock_key d with
        | None => Some (JNull, RrNone)
        | Some [] => Some (JStr [], RrText [])
        | Some raw => r ← loads raw; Some (r, RrText raw)
        end
    end.
  (** the annotations sent by create *)
  Definition lock_create (r : json) : annots := Some [(lock_key, dumps r)].
  (** the annotations sent by update; None: annotations is None and cannot be assigned to *)
  Definition lock_update (a : annots) (r : json) : option annots :=
    match a with Some d => Some (Some (dset lock_key (dumps r) d)) | None => None end.
End json.
Arguments json : clear implicits.
