(** Model of JsonSalvageStreamProcessor
    (koladata/internal/op_utils/json_stream.h:36-228, json_stream.cc:41-1019).

    Every method that appends to `output_` is an [act]: a function from the
    fields to the new fields and the bytes that it appends. A code point is an
    [N]; std::optional<char32_t> is [option N], None standing for the end of the
    input. Comparisons of an empty optional with a character are false for ==,
    and the code only uses < and <= below a >= or has_value (std::nullopt < x is
    true in C++, but `c < 0x20` at 949 is behind the has_value check at 926).
    DCHECKs are not modelled (they are off in release builds). *)
From Coq Require Import NArith ZArith List Bool String Ascii.
From Verif Require Import JsonModel.
Import ListNotations.
Open Scope N_scope.

(** json_stream.h:36-51 JsonSalvageOptions *)
Record salvage_options := mkSalvage {
  o_nan : bool;
  o_ascii : bool;
  o_depth : Z
}.

(** json_stream.h:103-107 ContainerType; kTopLevel is the empty stack *)
Inductive container := CArray | CObject.

(** json_stream.h:113-125 State *)
Inductive leaf :=
  | LBase
  | LDouble | LSingle | LBacktick | LTDouble | LTSingle | LUnquoted
  | LCommentLine | LCommentMulti
  | LNumBuffered | LNumDecimal.

(** json_stream.h:181-227 the fields (without output_) *)
Record sst := mkSst {
  s_stack : list container;   (* container_stack_, innermost first *)
  s_sep : bool;               (* needs_leading_separator_ *)
  s_key : bool;               (* is_object_key_ *)
  s_buf : list N;             (* buffer_ *)
  s_leaf : leaf;              (* state_ *)
  s_sur : option N            (* json_string_utf16_first_surrogate_ *)
}.

Definition set_stack v s := mkSst v (s_sep s) (s_key s) (s_buf s) (s_leaf s) (s_sur s).
Definition set_sep v s := mkSst (s_stack s) v (s_key s) (s_buf s) (s_leaf s) (s_sur s).
Definition set_key v s := mkSst (s_stack s) (s_sep s) v (s_buf s) (s_leaf s) (s_sur s).
Definition set_buf v s := mkSst (s_stack s) (s_sep s) (s_key s) v (s_leaf s) (s_sur s).
Definition set_leaf v s := mkSst (s_stack s) (s_sep s) (s_key s) (s_buf s) v (s_sur s).
Definition set_sur v s := mkSst (s_stack s) (s_sep s) (s_key s) (s_buf s) (s_leaf s) v.

Definition act := sst -> sst * bytes.
Definition emit (b : bytes) : act := fun s => (s, b).
Definition upd (f : sst -> sst) : act := fun s => (f s, []).
Definition andthen (a b : act) : act := fun s =>
  let '(s1, o1) := a s in let '(s2, o2) := b s1 in (s2, o1 ++ o2).
Notation "a ;; b" := (andthen a b) (at level 61, right associativity).
Definition cond (b : sst -> bool) (x y : act) : act := fun s => if b s then x s else y s.
Definition nop : act := emit [].

(** c == 'x' *)
Definition is (c : option N) (a : ascii) : bool :=
  match c with Some x => x =? N_of_ascii a | None => false end.
(** lo <= c && c <= hi *)
Definition within (c : option N) (lo hi : N) : bool :=
  match c with Some x => (lo <=? x) && (x <=? hi) | None => false end.

(** ** Unicode *)

(** U16_IS_LEAD, U16_IS_TRAIL (ICU utf16.h) *)
Definition u16_lead (c : N) : bool := (0xD800 <=? c) && (c <=? 0xDBFF).
Definition u16_trail (c : N) : bool := (0xDC00 <=? c) && (c <=? 0xDFFF).
(** 44-46 IsEncodableCodePoint *)
Definition encodable (c : N) : bool := (c <? 0x110000) && negb ((0xD800 <=? c) && (c <=? 0xDFFF)).
(** 41 *)
Definition kReplacement : N := 0xFFFD.
(** U16_LEAD, U16_TRAIL of a supplementary code point: (c >> 10) + 0xD7C0,
    (c & 0x3FF) | 0xDC00 *)
Definition sur_lead (c : N) : N := c / 1024 + 0xD7C0.
Definition sur_trail (c : N) : N := c mod 1024 + 0xDC00.
(** U16_GET_SUPPLEMENTARY: (lead << 10) + trail - ((0xd800 << 10) + 0xdc00 - 0x10000) *)
Definition supplementary (lead trail : N) : N :=
  lead * 1024 + trail - (0xD800 * 1024 + 0xDC00 - 0x10000).

(** 70-74 AppendUtf8CodePoint, through icu::UnicodeString: a surrogate becomes
    U+FFFD, a value out of range is not appended. *)
Definition utf8 (c : N) : bytes :=
  if c <? 0x80 then [c]
  else if c <? 0x800 then [0xC0 + c / 64; 0x80 + c mod 64]
  else if (0xD800 <=? c) && (c <=? 0xDFFF) then [0xEF; 0xBF; 0xBD]
  else if c <? 0x10000 then [0xE0 + c / 4096; 0x80 + (c / 64) mod 64; 0x80 + c mod 64]
  else if c <? 0x110000 then
    [0xF0 + c / 262144; 0x80 + (c / 4096) mod 64; 0x80 + (c / 64) mod 64; 0x80 + c mod 64]
  else [].

(** 56-68 Utf8MultibyteSequenceLength *)
Definition seq_length (b : byte) : nat :=
  if b <? 0xC2 then 1 else if b <? 0xE0 then 2 else if b <? 0xF0 then 3
  else if b <? 0xF8 then 4 else 1.

(** U8_IS_TRAIL *)
Definition u8_trail (b : byte) : bool := (0x80 <=? b) && (b <=? 0xBF).

(** 146-148 U8_NEXT_OR_FFFD on the whole buffer: the code point if the bytes
    are its (shortest, non-surrogate) encoding, U+FFFD otherwise. *)
Definition decode_buffer (l : bytes) : N :=
  match l with
  | [a] => if a <? 0x80 then a else kReplacement
  | [a; b] =>
      if (0xC2 <=? a) && (a <=? 0xDF) && u8_trail b then (a - 0xC0) * 64 + (b - 0x80)
      else kReplacement
  | [a; b; c] =>
      if (0xE0 <=? a) && (a <=? 0xEF) && u8_trail b && u8_trail c &&
         (if a =? 0xE0 then 0xA0 <=? b else true) && (if a =? 0xED then b <=? 0x9F else true)
      then (a - 0xE0) * 4096 + (b - 0x80) * 64 + (c - 0x80)
      else kReplacement
  | [a; b; c; d] =>
      if (0xF0 <=? a) && (a <=? 0xF4) && u8_trail b && u8_trail c && u8_trail d &&
         (if a =? 0xF0 then 0x90 <=? b else true) && (if a =? 0xF4 then b <=? 0x8F else true)
      then (a - 0xF0) * 262144 + (b - 0x80) * 4096 + (c - 0x80) * 64 + (d - 0x80)
      else kReplacement
  | _ => kReplacement
  end.

(** 132-151 ProcessInputByte, the part that assembles code points: the new
    utf8_buffer_ and the code points handed to ProcessInputCodePoint, in order.
    The two conditions at 133 and 136 have the same body and together say "not a
    trail byte and the buffer is not empty". *)
Definition utf8_step (ub : bytes) (c : byte) : bytes * list N :=
  let '(ub0, pre) :=
    match ub with
    | [] => ([], [])
    | _ => if u8_trail c then (ub, []) else ([], [kReplacement])
    end in
  let ub1 := ub0 ++ [c] in
  if Nat.ltb (List.length ub1) (seq_length (hd 0 ub1)) then (ub1, pre)
  else ([], pre ++ [decode_buffer ub1]).

(** ** Characters *)

(** 78-80 IsHexDigit, 82 IsOctalDigit, 84 IsBinaryDigit *)
Definition is_hex (c : option N) : bool := within c 48 57 || within c 97 102 || within c 65 70.
Definition is_octal (c : option N) : bool := within c 48 55.
Definition is_binary (c : option N) : bool := within c 48 49.

(** 86-96 DigitValue *)
Definition digit_value (c : N) : N :=
  if (48 <=? c) && (c <=? 57) then c - 48
  else if (97 <=? c) && (c <=? 102) then 10 + (c - 97)
  else if (65 <=? c) && (c <=? 70) then 10 + (c - 65)
  else 0.

(** 98-108 ConvertDigitSpan: the arithmetic is modulo 2^64 *)
Definition convert (digits : list N) (base : N) : N :=
  fold_left (fun v d => (v * base + digit_value d) mod 2 ^ 64) digits 0.

(** 192-194 IsJson5Whitespace: u_isUWhiteSpace (the White_Space property) or
    U+FEFF *)
Definition json5_space (c : N) : bool :=
  ((9 <=? c) && (c <=? 13)) || (c =? 0x20) || (c =? 0x85) || (c =? 0xA0) || (c =? 0x1680) ||
  ((0x2000 <=? c) && (c <=? 0x200A)) || (c =? 0x2028) || (c =? 0x2029) || (c =? 0x202F) ||
  (c =? 0x205F) || (c =? 0x3000) || (c =? 0xFEFF).

(** 196-198 IsJson5LineTerminator *)
Definition json5_eol (c : option N) : bool :=
  match c with
  | Some x => (x =? 10) || (x =? 13) || (x =? 0x2028) || (x =? 0x2029)
  | None => false
  end.

(** absl::ascii_tolower *)
Definition tolower (c : N) : N := if (65 <=? c) && (c <=? 90) then c + 32 else c.

(** absl::StrFormat("\\u%04x", c) for c < 0x10000 *)
Definition hex_char (d : N) : byte := if d <? 10 then 48 + d else 87 + d.
Definition u_escape (c : N) : bytes :=
  [92; 117; hex_char (c / 4096); hex_char ((c / 256) mod 16); hex_char ((c / 16) mod 16);
   hex_char (c mod 16)].

Section Salvage.
Variable opts : salvage_options.

(** container_stack_.size() < options_.max_depth: size_t against int64_t, so a
    negative max_depth counts as a large unsigned number *)
Definition below_max (s : sst) : bool :=
  (Z.of_nat (List.length (s_stack s)) <? o_depth opts mod 2 ^ 64)%Z.

(** 200-206 IsValidUnquotedStringNextCodePoint *)
Definition unquoted_next (s : sst) (c : option N) : bool :=
  match c with
  | None => false
  | Some x =>
      negb (json5_space x || is c "," || is c ":" || is c "]" || is c "}" || is c ")" ||
            (below_max s && (is c "[" || is c "{" || is c "(")))
  end.

(** 761-784 buffer and state updates *)
Definition set_state_buf (l : leaf) (b : bytes) : act := upd (fun s => set_leaf l (set_buf b s)).
Definition clear_buffer : act := upd (set_buf []).
Definition append_code_point (c : option N) : act :=
  upd (fun s => match c with Some x => set_buf (s_buf s ++ [x]) s | None => s end).
Definition append_str (b : bytes) : act := upd (fun s => set_buf (s_buf s ++ b) s).

(** 786-808 BufferEquals, BufferStartsWith *)
Fixpoint bytes_eqb (a b : list N) : bool :=
  match a, b with
  | [], [] => true
  | x :: a', y :: b' => (x =? y) && bytes_eqb a' b'
  | _, _ => false
  end.
Fixpoint starts_with (a p : list N) : bool :=
  match p, a with
  | [], _ => true
  | y :: p', x :: a' => (x =? y) && starts_with a' p'
  | _ :: _, [] => false
  end.
Definition buf_is (s : sst) (b : bytes) : bool := bytes_eqb (s_buf s) b.
Definition buf_starts (s : sst) (b : bytes) : bool := starts_with (s_buf s) b.

(** 810-822 BufferContainsAnycasePrefixOf *)
Fixpoint anycase_prefix (a p : list N) : bool :=
  match a, p with
  | [], _ => true
  | x :: a', y :: p' => (x <? 0x80) && (tolower x =? tolower y) && anycase_prefix a' p'
  | _ :: _, [] => false
  end.

(** 824-827 ConvertBufferValueAt(2, base) *)
Definition convert_buffer (s : sst) (base : N) : N := convert (skipn 2 (s_buf s)) base.

(** 1005-1013 EmitRawOutput of a code point *)
Definition emit_raw (c : option N) : act :=
  emit (match c with Some x => utf8 x | None => [] end).

(** 829-841 StartValue *)
Definition start_value : act := fun s =>
  (set_sep false s,
   if s_sep s then
     match s_stack s with
     | [] => [10]
     | CObject :: _ => if s_key s then lit "," else lit ":"
     | CArray :: _ => lit ","
     end
   else []).

(** 843-849 StartNonObjectKeyValue *)
Definition start_non_key_value : act :=
  start_value ;;
  cond s_key (emit (lit """"":") ;; upd (set_key false)) nop.

(** 851-857 EndValue *)
Definition end_value : act :=
  set_state_buf LBase [] ;;
  upd (set_sep true) ;;
  upd (fun s => match s_stack s with
                | CObject :: _ => set_key (negb (s_key s)) s
                | _ => s
                end).

(** 865-881 StartArray, StartObject *)
Definition start_array : act :=
  start_non_key_value ;; emit (lit "[") ;;
  upd (fun s => set_stack (CArray :: s_stack s) s) ;;
  set_state_buf LBase [] ;; upd (set_sep false) ;; upd (set_key false).
Definition start_object : act :=
  start_non_key_value ;; emit (lit "{") ;;
  upd (fun s => set_stack (CObject :: s_stack s) s) ;;
  set_state_buf LBase [] ;; upd (set_sep false) ;; upd (set_key true).

(** 883-904 EndCurrentContainer *)
Definition end_container : act :=
  (fun s =>
     match s_stack s with
     | [] => (s, [])
     | CArray :: k => (set_stack k s, lit "]")
     | CObject :: k => (set_stack k s, (if s_key s then [] else lit ":null") ++ lit "}")
     end) ;;
  upd (set_key false) ;; end_value.

(** 924-989 EmitJsonStringCodePoint. The recursive calls are all with U+FFFD
    and with no pending surrogate, where only the last two branches apply. *)
Definition scalar_text (x : N) : bytes :=
  if (0x80 <=? x) && o_ascii opts then
    if x <? 0x10000 then u_escape x else u_escape (sur_lead x) ++ u_escape (sur_trail x)
  else utf8 x.

Definition emit_code_point1 (x : N) : act := fun s =>
  if x =? 8 then (s, lit "\b")
  else if x =? 12 then (s, lit "\f")
  else if x =? 10 then (s, lit "\n")
  else if x =? 13 then (s, lit "\r")
  else if x =? 9 then (s, lit "\t")
  else if x =? 92 then (s, lit "\\")
  else if x =? 34 then (s, lit "\""")
  else if x <? 0x20 then (s, u_escape x)
  else if u16_lead x then (set_sur (Some x) s, [])
  else if u16_trail x then
    match s_sur s with
    | Some hi =>
        let c32 := supplementary hi x in
        (set_sur None s,
         if o_ascii opts then u_escape (sur_lead c32) ++ u_escape (sur_trail c32) else utf8 c32)
    | None => (s, scalar_text kReplacement)
    end
  else if negb (encodable x) then (s, scalar_text kReplacement)
  else (s, scalar_text x).

Definition emit_code_point (c : option N) : act :=
  match c with
  | None => nop
  | Some x =>
      cond (fun s => match s_sur s with Some _ => negb (u16_trail x) | None => false end)
        (upd (set_sur None) ;; emit (scalar_text kReplacement)) nop ;;
      emit_code_point1 x
  end.

(** EmitJsonStringCodePoint(ConvertBufferValueAt(2, base)): uint64_t to char32_t *)
Definition emit_converted (base : N) : act := fun s =>
  emit_code_point (Some (convert_buffer s base mod 2 ^ 32)) s.

(** for (char32_t value : buffer_) EmitJsonStringCodePoint(value) *)
Fixpoint emit_list (l : list N) : act :=
  match l with
  | [] => nop
  | x :: l' => emit_code_point (Some x) ;; emit_list l'
  end.
Definition emit_buffer : act := fun s => emit_list (s_buf s) s.

(** 906-920, 922, 991-997 *)
Definition start_string : act := start_value ;; emit [34].
Definition string_end : act :=
  cond (fun s => match s_sur s with Some _ => true | None => false end)
    (upd (set_sur None) ;; emit (scalar_text kReplacement)) nop ;;
  emit [34].
Definition end_string : act := string_end ;; end_value.
Definition emit_atom (t : bytes) : act := start_value ;; emit t ;; end_value.

(** A rule method: what it does, and whether the code point was consumed. *)
Definition rule := sst -> (sst * bytes) * bool.
Definition consumed (a : act) : rule := fun s => (a s, true).
Definition again (a : act) : rule := fun s => (a s, false).

(** 360-371 the atoms, in the order in which they are tried *)
Definition atoms : list (bytes * bytes) :=
  [(lit "true", lit "true"); (lit "false", lit "false"); (lit "null", lit "null");
   (lit "none", lit "null")] ++
  (if o_nan opts then
     [(lit "nan", lit "NaN"); (lit "-nan", lit "NaN"); (lit "+nan", lit "NaN");
      (lit "infinity", lit "Infinity"); (lit "-infinity", lit "-Infinity");
      (lit "+infinity", lit "Infinity")]
   else []).

(** 344-372 the first atom that the buffer spells, and whether the buffer is a
    prefix of an atom that is tried before it (or of any, if there is none) *)
Definition full_atom (buf : list N) : option bytes :=
  match find (fun a => anycase_prefix buf (fst a) &&
                       Nat.eqb (List.length buf) (List.length (fst a))) atoms with
  | Some a => Some (snd a)
  | None => None
  end.
Definition partial_atom (buf : list N) : bool := existsb (fun a => anycase_prefix buf (fst a)) atoms.

(** 340-391 the last branch of ProcessBaseRules, after AppendToBuffer(c) *)
Definition base_word : rule := fun s =>
  match (if s_key s then None else full_atom (s_buf s)) with
  | Some t => consumed (emit_atom t ;; clear_buffer) s
  | None =>
      if negb (s_key s) && partial_atom (s_buf s) then consumed nop s
      else if buf_is s (lit "b""") || buf_is s (lit "b'") || buf_is s (lit "u""") ||
              buf_is s (lit "u'")
      then again (set_state_buf LBase []) s
      else consumed (start_string ;; emit_buffer ;; set_state_buf LUnquoted []) s
  end.

(** 229-394 ProcessBaseRules *)
Definition base_rules (c : option N) : rule := fun s =>
  if buf_is s [] then
    if match c with None => true | Some x => json5_space x || is c "," || is c ":" end
    then consumed nop s
    else if is c "#" then consumed (set_state_buf LCommentLine []) s
    else if is c "/" then consumed (append_code_point c) s
    else if is c "]" || is c "}" || is c ")" then consumed end_container s
    else if is c "{" && below_max s then consumed start_object s
    else if (is c "[" || is c "(") && below_max s then consumed start_array s
    else if is c """" || is c "'" then consumed (start_string ;; append_code_point c) s
    else if is c "`" then consumed (start_value ;; append_str (lit "`")) s
    else if negb (s_key s) && (is c "-" || is c "+") then
      consumed (start_value ;; append_code_point c) s
    else if negb (s_key s) && is c "0" then
      consumed (start_value ;; set_state_buf LNumBuffered (lit "0")) s
    else if negb (s_key s) && is c "." then
      consumed (start_value ;; emit (lit "0.") ;; set_state_buf LNumDecimal (lit ".")) s
    else if negb (s_key s) && within c 49 57 then
      consumed (start_value ;; emit_raw c ;; set_state_buf LNumDecimal []) s
    else consumed (append_code_point c) s
  else if buf_is s (lit "/") && is c "/" then consumed (set_state_buf LCommentLine []) s
  else if buf_is s (lit "/") && is c "*" then consumed (set_state_buf LCommentMulti []) s
  else if buf_is s (lit """") then
    if is c """" then consumed (append_str (lit """")) s
    else again (set_state_buf LDouble []) s
  else if buf_is s (lit "'") then
    if is c "'" then consumed (append_str (lit "'")) s
    else again (set_state_buf LSingle []) s
  else if buf_is s (lit "`") then
    if is c "`" then consumed (append_str (lit "`")) s
    else again (emit [34] ;; set_state_buf LBacktick []) s
  else if buf_is s (lit """""") then
    if is c """" then consumed (set_state_buf LTDouble []) s
    else again (emit [34] ;; end_value) s
  else if buf_is s (lit "''") then
    if is c "'" then consumed (set_state_buf LTSingle []) s
    else again (emit [34] ;; end_value) s
  else if buf_is s (lit "``") && match c with None => true | _ => false end then
    consumed (emit (lit """""")) s
  else if buf_is s (lit "-") && is c "0" then
    consumed (emit (lit "-") ;; set_state_buf LNumBuffered (lit "0")) s
  else if buf_is s (lit "-") && within c 49 57 then
    consumed (emit (lit "-") ;; emit_raw c ;; set_state_buf LNumDecimal []) s
  else if buf_is s (lit "-") && is c "." then
    consumed (emit (lit "-0.") ;; set_state_buf LNumDecimal (lit ".")) s
  else if buf_is s (lit "+") && is c "0" then
    consumed (set_state_buf LNumBuffered (lit "0")) s
  else if buf_is s (lit "+") && within c 49 57 then
    consumed (emit_raw c ;; set_state_buf LNumDecimal []) s
  else if buf_is s (lit "+") && is c "." then
    consumed (emit (lit "0.") ;; set_state_buf LNumDecimal (lit ".")) s
  else if negb (unquoted_next s c) then
    again (start_string ;; emit_buffer ;; end_string) s
  else
    let '(s1, _) := append_code_point c s in base_word s1.

(** 417-433 a character of a quoted string, no escape pending *)
Definition string_plain (l : leaf) (c : option N) : rule :=
  match c with
  | None => consumed end_string
  | Some x =>
      if is c "\" then consumed (append_str (lit "\"))
      else if match l with
              | LDouble => is c """" | LSingle => is c "'" | LBacktick => is c "`" | _ => false
              end then consumed end_string
      else if match l with LTDouble => is c """" | LTSingle => is c "'" | _ => false end
      then consumed (append_code_point c)
      else consumed (emit_code_point c)
  end.

(** 434-470 the character after a backslash *)
Definition string_escape (c : option N) : rule :=
  if is c """" || is c "\" || is c "/" || is c "b" || is c "f" || is c "n" || is c "r" || is c "t"
  then consumed (emit (lit "\") ;; emit_raw c ;; clear_buffer)
  else if is c "a" then consumed (emit_code_point (Some 7) ;; clear_buffer)
  else if is c "v" then consumed (emit_code_point (Some 11) ;; clear_buffer)
  else if is c "`" || is c "'" then consumed (emit_raw c ;; clear_buffer)
  else if is c "u" || is c "U" then consumed (append_code_point c)
  else if is c "x" || is c "X" then consumed (append_str (lit "x"))
  else if is_octal c then consumed (append_str (lit "o") ;; append_code_point c)
  else if negb (within c 13 13) && json5_eol c then consumed clear_buffer
  else if within c 13 13 then consumed (append_str [13])
  else match c with
       | None => consumed end_string
       | Some _ => consumed (emit (lit "\\") ;; emit_raw c ;; clear_buffer)
       end.

(** 480-525 one or two quotes seen inside a triple-quoted string *)
Definition triple_quote (q : ascii) (two : bool) (c : option N) : rule :=
  let qc := Some (N_of_ascii q) in
  if two then
    match c with
    | None => consumed end_string
    | Some _ =>
        if is c q then consumed end_string
        else consumed (emit_code_point qc ;; emit_code_point qc ;; emit_code_point c ;; clear_buffer)
    end
  else
    match c with
    | None => consumed end_string
    | Some _ =>
        if is c q then consumed (append_code_point qc)
        else consumed (emit_code_point qc ;; emit_code_point c ;; clear_buffer)
    end.

(** size of the buffer after AppendToBuffer(c) reached n: 533, 545, 557, 569 *)
Definition digit_then (c : option N) (n : nat) (base : N) : rule := fun s =>
  let '(s1, _) := append_code_point c s in
  if Nat.eqb (List.length (s_buf s1)) n then consumed (emit_converted base ;; clear_buffer) s1
  else consumed nop s1.

(** 396-610 ProcessStringRules *)
Definition string_rules (c : option N) : rule := fun s =>
  match s_leaf s with
  | LUnquoted =>
      if negb (unquoted_next s c) then again end_string s
      else consumed (emit_code_point c) s
  | l =>
      if buf_is s [] then string_plain l c s
      else if buf_is s (lit "\") then string_escape c s
      else if buf_is s [92; 13] then
        if within c 10 10 then consumed clear_buffer s else again clear_buffer s
      else if buf_is s (lit """") then triple_quote """" false c s
      else if buf_is s (lit """""") then triple_quote """" true c s
      else if buf_is s (lit "'") then triple_quote "'" false c s
      else if buf_is s (lit "''") then triple_quote "'" true c s
      else if buf_starts s (lit "\u") then
        if buf_is s (lit "\u") && is c "{" then consumed (clear_buffer ;; append_str (lit "\{")) s
        else if is_hex c then digit_then c 6 16 s
        else again (emit_converted 16 ;; clear_buffer) s
      else if buf_starts s (lit "\o") then
        if is_octal c then digit_then c 5 8 s
        else again (emit_converted 8 ;; clear_buffer) s
      else if buf_starts s (lit "\x") then
        if is_hex c then digit_then c 4 16 s
        else again (emit_converted 16 ;; clear_buffer) s
      else if buf_starts s (lit "\U") then
        if is_hex c then digit_then c 10 16 s
        else if buf_is s (lit "\U") && is c "{" then
          consumed (clear_buffer ;; append_str (lit "\{")) s
        else again (emit_converted 16 ;; clear_buffer) s
      else if buf_starts s (lit "\{") then
        if is_hex c && Nat.ltb (List.length (s_buf s)) 100 then consumed (append_code_point c) s
        else if is c "}" then consumed (emit_converted 16 ;; clear_buffer) s
        else again (emit_converted 16 ;; clear_buffer) s
      else consumed (set_state_buf LBase []) s
  end.

(** 612-643 ProcessCommentRules *)
Definition comment_rules (c : option N) : rule := fun s =>
  match s_leaf s with
  | LCommentLine => if json5_eol c then consumed (set_state_buf LBase []) s else consumed nop s
  | _ =>
      if buf_is s [] then
        if is c "*" then consumed (append_code_point c) s else consumed nop s
      else if is c "/" then consumed (set_state_buf LBase []) s
      else consumed clear_buffer s
  end.

(** absl::StrCat(uint64_t) *)
Definition dec_of_N (n : N) : bytes := dec_digits (S (N.to_nat (N.log2 n))) n [].

(** 686-707, 744-752 the end of a number: trailing n, l, L are swallowed *)
Definition end_number (c : option N) : rule := fun s =>
  if is c "n" || is c "l" || is c "L" then consumed end_value s else again end_value s.

(** run an action, then a rule *)
Definition first (a : act) (r : rule) : rule := fun s =>
  let '(s1, o1) := a s in let '((s2, o2), b) := r s1 in ((s2, o1 ++ o2), b).

Definition append_if_room (c : option N) : act := fun s =>
  if Nat.ltb (List.length (s_buf s)) 100 then append_code_point c s else (s, []).

(** 652-707 kNumberBuffered *)
Definition buffered_rules (c : option N) : rule := fun s =>
  if buf_is s (lit "0") && within c 49 57 then
    consumed (emit_raw c ;; set_state_buf LNumDecimal []) s
  else if buf_is s (lit "0") && is c "0" then consumed nop s
  else if (buf_is s [] || buf_is s (lit "0")) && is c "." then
    consumed (emit (lit "0.") ;; set_state_buf LNumDecimal (lit ".")) s
  else if buf_is s (lit "0") && (is c "x" || is c "X") then consumed (append_str (lit "x")) s
  else if buf_is s (lit "0") && (is c "o" || is c "O") then consumed (append_str (lit "o")) s
  else if buf_is s (lit "0") && (is c "b" || is c "B") then consumed (append_str (lit "b")) s
  else if buf_starts s (lit "0x") && is_hex c then consumed (append_if_room c) s
  else if buf_starts s (lit "0o") && is_octal c then consumed (append_if_room c) s
  else if buf_starts s (lit "0b") && is_binary c then consumed (append_if_room c) s
  else
    first (emit (if buf_is s [] || buf_is s (lit "0") then lit "0"
                 else if buf_starts s (lit "0x") then dec_of_N (convert_buffer s 16)
                 else if buf_starts s (lit "0o") then dec_of_N (convert_buffer s 8)
                 else if buf_starts s (lit "0b") then dec_of_N (convert_buffer s 2)
                 else []))
          (if is c "e" || is c "E"
           then consumed (emit (lit "e") ;; set_state_buf LNumDecimal (lit ".0e"))
           else end_number c) s.

(** 708-753 kNumberDecimal *)
Definition decimal_rules (c : option N) : rule := fun s =>
  if within c 48 57 then
    consumed (cond (fun s => buf_is s (lit ".0e")) (append_str (lit "+")) nop ;;
              cond (fun s => buf_is s (lit ".") || buf_is s (lit ".0e+")) (append_str (lit "0")) nop ;;
              emit_raw c) s
  else if buf_is s [] && is c "." then consumed (append_str (lit ".") ;; emit (lit ".")) s
  else if buf_is s [] && (is c "e" || is c "E") then
    consumed (append_str (lit ".0e") ;; emit (lit "e")) s
  else if buf_is s (lit ".") && (is c "e" || is c "E") then
    consumed (append_str (lit "0e") ;; emit (lit "0e")) s
  else if buf_is s (lit ".0") && (is c "e" || is c "E") then
    consumed (append_str (lit "e") ;; emit (lit "e")) s
  else if buf_is s (lit ".0e") && (is c "+" || is c "-") then
    consumed (append_str (lit "+") ;; emit_raw c) s
  else
    first (emit (if buf_is s (lit ".") || buf_is s (lit ".0e") || buf_is s (lit ".0e+")
                 then lit "0" else []))
          (end_number c) s.

(** 645-759 ProcessNumberRules *)
Definition number_rules (c : option N) : rule := fun s =>
  if is c "_" || is c "'" then consumed nop s
  else match s_leaf s with
       | LNumBuffered => buffered_rules c s
       | _ => decimal_rules c s
       end.

(** 208-227 ProcessAllRules *)
Definition all_rules (c : option N) : rule := fun s =>
  match s_leaf s with
  | LBase => base_rules c s
  | LDouble | LSingle | LBacktick | LTDouble | LTSingle | LUnquoted => string_rules c s
  | LCommentLine | LCommentMulti => comment_rules c s
  | LNumBuffered | LNumDecimal => number_rules c s
  end.

(** 153-165 ProcessInputCodePoint: at most three attempts *)
Fixpoint attempts (n : nat) (c : option N) : act := fun s =>
  match n with
  | O => (s, [])
  | S n' =>
      let '((s1, o1), done) := all_rules c s in
      if done then (s1, o1)
      else let '(s2, o2) := attempts n' c s1 in (s2, o1 ++ o2)
  end.
Definition code_point (c : option N) : act := attempts 3 c.

Fixpoint code_points (l : list N) : act :=
  match l with
  | [] => nop
  | x :: l' => code_point (Some x) ;; code_points l'
  end.

(** 132-151 ProcessInputByte. The whole state is utf8_buffer_ with the rest. *)
Definition input_byte (st : bytes * sst) (c : byte) : (bytes * sst) * bytes :=
  let '(ub, l) := utf8_step (fst st) c in
  let '(s1, o1) := code_points l (snd st) in ((ub, s1), o1).

(** 170-188 the loop that closes the open containers *)
Fixpoint close_all (stack : list container) (key sep : bool) : bytes :=
  match stack with
  | [] => []
  | CObject :: k =>
      (if key then [] else (if sep then lit ":" else []) ++ lit "null") ++ lit "}" ++
      close_all k (match k with CObject :: _ => true | _ => key end)
                  (if key then sep else if sep then false else sep)
  | CArray :: k =>
      lit "]" ++ close_all k (match k with CObject :: _ => true | _ => key end) sep
  end.

(** 167-189 ProcessInputEndInternal; the fields are not used afterwards *)
Definition input_end : act := fun s =>
  let '(s1, o1) := code_point None s in
  (s1, o1 ++ close_all (s_stack s1) (s_key s1) (s_sep s1)).

Definition salvage_init : sst := mkSst [] false false [] LBase None.

(** 120-130 Process *)
Definition salvage_process (st : bytes * sst) (chunk : bytes) (eoi : bool) : result (bytes * sst) :=
  let '(st1, o1) := loop input_byte st chunk in
  if eoi then let '(s2, o2) := input_end (snd st1) in single (fst st1, s2) (o1 ++ o2) eoi
  else single st1 o1 eoi.

Definition salvage_proc : processor := mkProc (bytes * sst) ([], salvage_init) salvage_process.
End Salvage.
