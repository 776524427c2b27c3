(** Vocabulary for the JSON properties, independent of the stream processors:
    JSON values, their compact and indented spellings, texts that spell a
    sequence of values, and what the operators should answer. Only the byte
    constants and [lit] (string literals as bytes) are shared with the model. *)
From Coq Require Import String NArith ZArith List Bool.
From Verif Require Import JsonModel.
Import ListNotations.
Open Scope N_scope.

(** The text that a stream of chunks delivers; missing items deliver nothing. *)
Definition given (items : list (option bytes)) : bytes :=
  concat (map (fun i => match i with Some c => c | None => [] end) items).

(** A JSON value. Numbers and strings keep their spelling: [JNum] holds the
    characters of the literal, [JStr] and object keys what stands between the
    quotes, escapes included. *)
Inductive json :=
  | JNull | JTrue | JFalse
  | JNum (l : bytes)
  | JStr (body : bytes)
  | JArr (l : list json)
  | JObj (l : list (bytes * json)).

(** JSON whitespace (RFC 8259): space, tab, line feed, carriage return *)
Definition is_ws (c : byte) : bool := (c =? 32) || (c =? 9) || (c =? 10) || (c =? 13).

(** 0-9 + - . e E (a superset of the JSON number grammar) *)
Definition num_char (c : byte) : bool :=
  ((48 <=? c) && (c <=? 57)) || (c =? 43) || (c =? 45) || (c =? 46) || (c =? 101) || (c =? 69).

(** What may stand between quotes: no control character, no bare quote, and
    every backslash is followed by a character. *)
Fixpoint body_ok (b : bytes) : bool :=
  match b with
  | [] => true
  | c :: b' =>
      if c =? cBackslash then
        match b' with
        | [] => false
        | d :: b'' => (32 <=? d) && body_ok b''
        end
      else (32 <=? c) && negb (c =? cQuote) && body_ok b'
  end.

Fixpoint wf_json (j : json) : bool :=
  match j with
  | JNull | JTrue | JFalse => true
  | JNum l => negb (match l with [] => true | _ => false end) && forallb num_char l
  | JStr b => body_ok b
  | JArr l => forallb wf_json l
  | JObj l => forallb (fun kv => body_ok (fst kv) && wf_json (snd kv)) l
  end.

Fixpoint intercalate {A} (sep : list A) (l : list (list A)) : list A :=
  match l with
  | [] => []
  | [x] => x
  | x :: l' => x ++ sep ++ intercalate sep l'
  end.

Definition quoted (b : bytes) : bytes := cQuote :: b ++ [cQuote].

(** The tokens of a value. *)
Fixpoint tokens (j : json) : list bytes :=
  match j with
  | JNull => [lit "null"]
  | JTrue => [lit "true"]
  | JFalse => [lit "false"]
  | JNum l => [l]
  | JStr b => [quoted b]
  | JArr l => [cLBracket] :: intercalate [[cComma]] (map tokens l) ++ [[cRBracket]]
  | JObj l =>
      [cLBrace] ::
      intercalate [[cComma]]
        (map (fun kv => quoted (fst kv) :: [cColon] :: tokens (snd kv)) l) ++ [[cRBrace]]
  end.

(** The compact spelling, and a stream with one value per line. *)
Definition compact (j : json) : bytes := concat (tokens j).
Definition lines (js : list json) : bytes := flat_map (fun j => compact j ++ [cNewline]) js.

(** [t] spells the tokens with arbitrary whitespace after each of them. *)
Inductive spell : list bytes -> bytes -> Prop :=
  | spell_nil : spell [] []
  | spell_cons k ks w t :
      forallb is_ws w = true -> spell ks t -> spell (k :: ks) (k ++ w ++ t).

Definition ends_ws (t : bytes) : Prop := exists t' c, t = t' ++ [c] /\ is_ws c = true.

(** A whitespace-separated sequence of values. *)
Inductive spells : list json -> bytes -> Prop :=
  | spells_nil : spells [] []
  | spells_last j t : wf_json j = true -> spell (tokens j) t -> spells [j] t
  | spells_cons j t js s :
      wf_json j = true -> spell (tokens j) t -> ends_ws t -> spells js s ->
      spells (j :: js) (t ++ s).

Definition json_text (js : list json) (t : bytes) : Prop :=
  exists w s, forallb is_ws w = true /\ spells js s /\ t = w ++ s.

(** The indented spelling of python's json.dumps(indent=...). *)
Definition newline_indent (ind : bytes) (d : nat) : bytes := cNewline :: concat (repeat ind d).

Fixpoint pretty (ind : bytes) (d : nat) (j : json) : bytes :=
  match j with
  | JArr ((_ :: _) as l) =>
      cLBracket ::
      intercalate [cComma] (map (fun x => newline_indent ind (S d) ++ pretty ind (S d) x) l)
      ++ newline_indent ind d ++ [cRBracket]
  | JObj ((_ :: _) as l) =>
      cLBrace ::
      intercalate [cComma]
        (map (fun kv => newline_indent ind (S d) ++ quoted (fst kv) ++ [cColon; cSpace]
                        ++ pretty ind (S d) (snd kv)) l)
      ++ newline_indent ind d ++ [cRBrace]
  | _ => compact j
  end.

(** Reading an arbitrary text, well formed or not: are we inside a string
    literal, and directly behind a backslash in one? *)
Definition scan1 (q : bool * bool) (c : byte) : bool * bool :=
  match q with
  | (true, true) => (true, false)
  | (true, false) => if c =? cQuote then (false, false) else (true, c =? cBackslash)
  | (false, _) => (c =? cQuote, false)
  end.
Definition scan (q : bool * bool) (t : bytes) : bool * bool := fold_left scan1 t q.
Definition strings_closed (t : bytes) : Prop := fst (scan (false, false) t) = false.

(** The characters that matter: everything except whitespace outside of string
    literals. *)
Fixpoint significant_from (q : bool * bool) (t : bytes) : bytes :=
  match t with
  | [] => []
  | c :: t' =>
      (if fst q || negb (isspace c) then [c] else []) ++ significant_from (scan1 q c) t'
  end.
Definition significant (t : bytes) : bytes := significant_from (false, false) t.

(** What the operators should answer. *)
Definition nonempty_object (j : json) : bool :=
  match j with JObj (_ :: _) => true | _ => false end.
Definition nonempty_array (j : json) : bool :=
  match j with JArr (_ :: _) => true | _ => false end.
Definition nonnull (j : json) : bool := match j with JNull => false | _ => true end.
Definition is_container (j : json) : bool :=
  match j with JArr _ | JObj _ => true | _ => false end.
Definition elements (j : json) : list json := match j with JArr l => l | _ => [] end.
Definition nth_or_null (n : Z) (j : json) : json :=
  match j with JArr l => nth (Z.to_nat n) l JNull | _ => JNull end.

(** ** String contents *)

(** The character that a two-character escape stands for. *)
Definition simple_escape (c : byte) : option byte :=
  if c =? 34 then Some 34 else if c =? 92 then Some 92 else if c =? 47 then Some 47
  else if c =? 98 then Some 8 else if c =? 102 then Some 12 else if c =? 110 then Some 10
  else if c =? 114 then Some 13 else if c =? 116 then Some 9 else None.

Definition hex_digit (c : byte) (v : N) : Prop :=
  (48 <= c <= 57 /\ v = c - 48) \/ (97 <= c <= 102 /\ v = c - 87) \/ (65 <= c <= 70 /\ v = c - 55).
Definition hex4 (a b c d : byte) (v : N) : Prop :=
  exists w x y z, hex_digit a w /\ hex_digit b x /\ hex_digit c y /\ hex_digit d z /\
  v = 4096 * w + 256 * x + 16 * y + z.

(** [u8 u s]: [s] is the UTF-8 encoding of the code point [u]: the bits of [u]
    are distributed over the payloads of the bytes of [s]. *)
Inductive u8 : N -> bytes -> Prop :=
  | u8_1 a : a < 0x80 -> u8 a [a]
  | u8_2 a b : a < 32 -> b < 64 -> 0x80 <= 64 * a + b ->
      u8 (64 * a + b) [0xC0 + a; 0x80 + b]
  | u8_3 a b c : a < 16 -> b < 64 -> c < 64 -> 0x800 <= 4096 * a + 64 * b + c ->
      u8 (4096 * a + 64 * b + c) [0xE0 + a; 0x80 + b; 0x80 + c]
  | u8_4 a b c d : a < 8 -> b < 64 -> c < 64 -> d < 64 ->
      0x10000 <= 262144 * a + 4096 * b + 64 * c + d < 0x110000 ->
      u8 (262144 * a + 4096 * b + 64 * c + d) [0xF0 + a; 0x80 + b; 0x80 + c; 0x80 + d].

(** [denotes b s]: the JSON string literal with body [b] stands for [s]. *)
Inductive denotes : bytes -> bytes -> Prop :=
  | den_nil : denotes [] []
  | den_raw c b s : c <> cQuote -> c <> cBackslash -> denotes b s -> denotes (c :: b) (c :: s)
  | den_esc c v b s : simple_escape c = Some v -> denotes b s ->
      denotes (cBackslash :: c :: b) (v :: s)
  | den_u a1 a2 a3 a4 u e b s :
      hex4 a1 a2 a3 a4 u -> ~ (0xD800 <= u <= 0xDFFF) -> u8 u e -> denotes b s ->
      denotes (cBackslash :: 117 :: a1 :: a2 :: a3 :: a4 :: b) (e ++ s)
  | den_uu a1 a2 a3 a4 hi b1 b2 b3 b4 lo e b s :
      hex4 a1 a2 a3 a4 hi -> 0xD800 <= hi <= 0xDBFF ->
      hex4 b1 b2 b3 b4 lo -> 0xDC00 <= lo <= 0xDFFF ->
      u8 (0x10000 + 1024 * (hi - 0xD800) + (lo - 0xDC00)) e -> denotes b s ->
      denotes (cBackslash :: 117 :: a1 :: a2 :: a3 :: a4 ::
               cBackslash :: 117 :: b1 :: b2 :: b3 :: b4 :: b) (e ++ s).

(** ** Object keys *)

(** The values that [key] has in an object (it may be repeated), in order. *)
Inductive values_at (key : bytes) : json -> list json -> Prop :=
  | va_obj l vs : pairs_at key l vs -> values_at key (JObj l) vs
  | va_other j : (forall l, j <> JObj l) -> values_at key j []
with pairs_at (key : bytes) : list (bytes * json) -> list json -> Prop :=
  | pa_nil : pairs_at key [] []
  | pa_hit b j l vs : denotes b key -> pairs_at key l vs -> pairs_at key ((b, j) :: l) (j :: vs)
  | pa_miss b k j l vs : denotes b k -> k <> key -> pairs_at key l vs ->
      pairs_at key ((b, j) :: l) vs.

(** No `{}` anywhere. *)
Fixpoint no_empty_object (j : json) : bool :=
  match j with
  | JArr l => forallb no_empty_object l
  | JObj l => match l with [] => false | _ => forallb (fun kv => no_empty_object (snd kv)) l end
  | _ => true
  end.
