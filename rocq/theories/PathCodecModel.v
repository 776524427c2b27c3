(** The strings operators behind '.get_attr("...")' in data slice paths:
    kd.strings.encode / decode (UTF-8) and kd.strings.encode_base64 /
    decode_base64. The theorems about paths hold for every codec with the two
    properties stated in PathSpec.v; this file gives the one that is used.

    koladata/operators/strings.cc:155-192 calls absl::Base64Escape and
    absl::Base64Unescape, which are not in the repository; they are modelled
    after their documentation: unescaping skips white space, accepts '.' for
    '=', and accepts missing padding. *)
From Coq Require Import NArith List Bool PeanoNat.
From Verif Require Import PathModel.
Import ListNotations.
Local Open Scope N_scope.

Definition bytes := list N.

(** kd.strings.encode: text as UTF-8; surrogates cannot be encoded. *)
Definition utf8_char (c : N) : option bytes :=
  if c <? 0x80 then Some [c]
  else if c <? 0x800 then Some [0xC0 + c / 64; 0x80 + c mod 64]
  else if (0xD800 <=? c) && (c <=? 0xDFFF) then None
  else if c <? 0x10000 then
    Some [0xE0 + c / 4096; 0x80 + c / 64 mod 64; 0x80 + c mod 64]
  else if c <? 0x110000 then
    Some [0xF0 + c / 262144; 0x80 + c / 4096 mod 64; 0x80 + c / 64 mod 64;
          0x80 + c mod 64]
  else None.

Fixpoint utf8_encode (s : text) : option bytes :=
  match s with
  | [] => Some []
  | c :: s =>
      match utf8_char c, utf8_encode s with
      | Some b, Some l => Some (b ++ l)
      | _, _ => None
      end
  end.

Definition is_cont (b : N) : bool := (0x80 <=? b) && (b <=? 0xBF).

(** kd.strings.decode: well-formed UTF-8 only. *)
Fixpoint utf8_decode (l : bytes) : option text :=
  match l with
  | [] => Some []
  | a :: l =>
      if a <? 0x80 then option_map (cons a) (utf8_decode l)
      else if a <? 0xC2 then None
      else if a <? 0xE0 then
        match l with
        | b :: l =>
            if is_cont b then
              option_map (cons ((a - 0xC0) * 64 + (b - 0x80))) (utf8_decode l)
            else None
        | _ => None
        end
      else if a <? 0xF0 then
        match l with
        | b :: c :: l =>
            let u := (a - 0xE0) * 4096 + (b - 0x80) * 64 + (c - 0x80) in
            if is_cont b && is_cont c && (0x800 <=? u)
               && negb ((0xD800 <=? u) && (u <=? 0xDFFF))
            then option_map (cons u) (utf8_decode l) else None
        | _ => None
        end
      else
        match l with
        | b :: c :: d :: l =>
            let u := (a - 0xF0) * 262144 + (b - 0x80) * 4096 + (c - 0x80) * 64
                     + (d - 0x80) in
            if is_cont b && is_cont c && is_cont d && (0x10000 <=? u)
               && (u <? 0x110000)
            then option_map (cons u) (utf8_decode l) else None
        | _ => None
        end
  end.

(** The alphabet of base64 *)
Definition sextet_char (n : N) : N :=
  if n <? 26 then 65 + n
  else if n <? 52 then 71 + n
  else if n <? 62 then n - 4
  else if n =? 62 then 43
  else 47.
Definition char_sextet (c : N) : option N :=
  if (65 <=? c) && (c <=? 90) then Some (c - 65)
  else if (97 <=? c) && (c <=? 122) then Some (c - 71)
  else if (48 <=? c) && (c <=? 57) then Some (c + 4)
  else if c =? 43 then Some 62
  else if c =? 47 then Some 63
  else None.

(** absl::Base64Escape *)
Fixpoint base64_escape (l : bytes) : text :=
  match l with
  | a :: b :: c :: l =>
      [sextet_char (a / 4); sextet_char (a mod 4 * 16 + b / 16);
       sextet_char (b mod 16 * 4 + c / 64); sextet_char (c mod 64)]
      ++ base64_escape l
  | [a; b] =>
      [sextet_char (a / 4); sextet_char (a mod 4 * 16 + b / 16);
       sextet_char (b mod 16 * 4); 61]
  | [a] => [sextet_char (a / 4); sextet_char (a mod 4 * 16); 61; 61]
  | [] => []
  end.

Definition is_space (c : N) : bool := ((9 <=? c) && (c <=? 13)) || (c =? 32).
Definition is_pad (c : N) : bool := (c =? 61) || (c =? 46).

(** The sextets at the start of a text without white space, and the rest. *)
Fixpoint read_sextets (s : text) : list N * text :=
  match s with
  | [] => ([], [])
  | c :: s' =>
      match char_sextet c with
      | Some n => let r := read_sextets s' in (n :: fst r, snd r)
      | None => ([], s)
      end
  end.

(** The bytes of a sequence of sextets and the number of padding characters
    that should follow. *)
Fixpoint join_sextets (l : list N) : option (bytes * nat) :=
  match l with
  | x :: y :: z :: w :: l =>
      match join_sextets l with
      | Some (r, k) =>
          Some (x * 4 + y / 16 :: y mod 16 * 16 + z / 4 :: z mod 4 * 64 + w :: r, k)
      | None => None
      end
  | [x; y; z] => Some ([x * 4 + y / 16; y mod 16 * 16 + z / 4], 1%nat)
  | [x; y] => Some ([x * 4 + y / 16], 2%nat)
  | [_] => None
  | [] => Some ([], 0%nat)
  end.

(** absl::Base64Unescape *)
Definition base64_unescape (s : text) : option bytes :=
  let r := read_sextets (filter (fun c => negb (is_space c)) s) in
  match join_sextets (fst r) with
  | Some (l, k) =>
      if forallb is_pad (snd r)
         && ((length (snd r) =? 0)%nat || (length (snd r) =? k)%nat)
      then Some l else None
  | None => None
  end.

(** data_slice_path.py:243-245 base64_encoded_attr_name *)
Definition encode_name (s : text) : option text :=
  option_map base64_escape (utf8_encode s).

(** data_slice_path.py:248-252 decode_base64_encoded_attr_name *)
Definition decode_name (s : text) : option text :=
  match base64_unescape s with
  | Some l => utf8_decode l
  | None => None
  end.

(** The lexicon of paths, for any set of non-ASCII identifier characters. *)
Definition koda_lexicon (start continue : N -> bool) : lexicon :=
  Lexicon start continue encode_name decode_name.
