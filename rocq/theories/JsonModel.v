(** Model of the JSON stream processors other than salvage
    (koladata/internal/op_utils/json_stream.{h,cc}) and of the routine that
    drives them (koladata/operators/json_stream.cc).

    A byte is an [N] below 256, a string a list of bytes. The C++ `char` is
    signed, but every comparison made here is an equality with an ASCII
    character or goes through uint8_t. int64_t counters are [Z] without
    overflow (the depth and index counters are bounded by the input length).
    The body of the loop over the characters of a chunk is a [step] function
    that returns the new state and what this iteration appended to `output`. *)
From Coq Require Import NArith ZArith List Bool String Ascii.
Import ListNotations.
Open Scope N_scope.

Notation byte := N (only parsing).
Notation bytes := (list N) (only parsing).

(** String literals as bytes. *)
Fixpoint lit (s : string) : bytes :=
  match s with
  | EmptyString => []
  | String a s' => N_of_ascii a :: lit s'
  end.

Definition cQuote : N := 34.
Definition cBackslash : N := 92.
Definition cNewline : N := 10.
Definition cComma : N := 44.
Definition cColon : N := 58.
Definition cLBrace : N := 123.
Definition cRBrace : N := 125.
Definition cLBracket : N := 91.
Definition cRBracket : N := 93.
Definition cSpace : N := 32.

(** absl::ascii_isspace: space, \t \n \v \f \r *)
Definition isspace (c : byte) : bool := (c =? 32) || ((9 <=? c) && (c <=? 13)).

(** json_stream.h:32-35 JsonStreamProcessResult together with the new state *)
Record result (S : Type) := mkResult {
  r_state : S;
  r_chunks : list bytes;
  r_end : bool
}.
Arguments mkResult {S}.
Arguments r_state {S}.
Arguments r_chunks {S}.
Arguments r_end {S}.

(** A processor class: its initial fields and its Process method. *)
Record processor := mkProc {
  St : Type;
  init : St;
  process : St -> bytes -> bool -> result St
}.

(** json_stream.cc:110-116 FromSingleStringOutput *)
Definition single {S} (st : S) (output : bytes) (e : bool) : result S :=
  mkResult st (match output with [] => [] | _ => [output] end) e.

(** for (char c : input_chunk) { ... } *)
Fixpoint loop {S} (step : S -> byte -> S * bytes) (st : S) (chunk : bytes) : S * bytes :=
  match chunk with
  | [] => (st, [])
  | c :: chunk' =>
      let '(st1, o1) := step st c in
      let '(st2, o2) := loop step st1 chunk' in
      (st2, o1 ++ o2)
  end.

(** ** Head: json_stream.cc:1021-1037. The state is line_number_. *)
Fixpoint head_loop (n : Z) (line : Z) (chunk : bytes) : Z * bytes * bool :=
  match chunk with
  | [] => (line, [], false)
  | c :: chunk' =>
      if c =? cNewline then
        let line' := (line + 1)%Z in
        if (n <=? line')%Z then (line', [c], true)
        else let '(l2, o2, e2) := head_loop n line' chunk' in (l2, c :: o2, e2)
      else let '(l2, o2, e2) := head_loop n line chunk' in (l2, c :: o2, e2)
  end.

Definition head_process (n : Z) (line : Z) (chunk : bytes) (eoi : bool) : result Z :=
  if (n <=? line)%Z then single line [] true
  else let '(l2, o2, e2) := head_loop n line chunk in
       if e2 then single l2 o2 true else single l2 o2 eoi.

Definition head_proc (n : Z) : processor := mkProc Z 0%Z (head_process n).

(** ** Prettify: json_stream.cc:1039-1110 *)
Record pretty_st := mkPretty {
  p_depth : Z;
  p_has_contents : bool;
  p_in_string : bool;
  p_in_escape : bool;
  p_needs : bool
}.

Definition z_repeat (n : Z) (s : bytes) : bytes := List.concat (repeat s (Z.to_nat n)).

(** 1043-1051 emit_newline_and_indent_if_needed: what is emitted *)
Definition nl_if (needs : bool) (depth : Z) (indent : bytes) : bytes :=
  if needs then cNewline :: z_repeat depth indent else [].

Definition pretty_step (indent : bytes) (s : pretty_st) (c : byte) : pretty_st * bytes :=
  let '(mkPretty depth hc instr inesc needs) := s in
  if instr then
    if inesc then (mkPretty depth hc true false needs, [c])
    else if c =? cQuote then
      (mkPretty depth hc false false (if (depth =? 0)%Z then true else needs), [c])
    else if c =? cBackslash then (mkPretty depth hc true true needs, [c])
    else (mkPretty depth hc true false needs, [c])
  else if isspace c then
    (mkPretty depth hc false inesc (if (depth =? 0)%Z then true else needs), [])
  else if c =? cQuote then
    (mkPretty depth true true inesc false, nl_if needs depth indent ++ [cQuote])
  else if (c =? cLBracket) || (c =? cLBrace) then
    (mkPretty (depth + 1) false false inesc true, nl_if needs depth indent ++ [c])
  else if (c =? cRBracket) || (c =? cRBrace) then
    let depth' := (depth - 1)%Z in
    (mkPretty depth' true false inesc true,
     (if hc then nl_if true depth' indent else []) ++ [c])
  else if c =? cComma then (mkPretty depth true false inesc true, [c])
  else if c =? cColon then (mkPretty depth true false inesc needs, [c; cSpace])
  else (mkPretty depth true false inesc false, nl_if needs depth indent ++ [c]).

Definition pretty_proc (indent : bytes) : processor :=
  mkProc pretty_st (mkPretty 0 false false false false)
    (fun st chunk eoi => let '(st', o) := loop (pretty_step indent) st chunk in
                         single st' o eoi).

(** ** Compactify: json_stream.cc:1112-1160 *)
Record comp_st := mkComp {
  k_depth : Z;
  k_in_value : bool;
  k_in_string : bool;
  k_in_escape : bool
}.

(** 1116-1121 emit_newline_if_needed: new is_in_value_ and output *)
Definition comp_nl (depth : Z) (inval : bool) : bool * bytes :=
  if (depth =? 0)%Z && inval then (false, [cNewline]) else (inval, []).

Definition comp_step (s : comp_st) (c : byte) : comp_st * bytes :=
  let '(mkComp depth inval instr inesc) := s in
  if instr then
    if inesc then (mkComp depth inval true false, [c])
    else if c =? cQuote then
      let '(inval', nl) := comp_nl depth inval in
      (mkComp depth inval' false false, c :: nl)
    else if c =? cBackslash then (mkComp depth inval true true, [c])
    else (mkComp depth inval true false, [c])
  else if isspace c then
    let '(inval', nl) := comp_nl depth inval in (mkComp depth inval' false inesc, nl)
  else if c =? cQuote then (mkComp depth true true inesc, [c])
  else if (c =? cLBracket) || (c =? cLBrace) then
    let '(_, nl) := comp_nl depth inval in
    (mkComp (depth + 1) true false inesc, nl ++ [c])
  else if (c =? cRBracket) || (c =? cRBrace) then
    let depth' := (depth - 1)%Z in
    let '(inval', nl) := comp_nl depth' inval in
    (mkComp depth' inval' false inesc, c :: nl)
  else (mkComp depth true false inesc, [c]).

Definition comp_init : comp_st := mkComp 0 false false false.

Definition comp_process (st : comp_st) (chunk : bytes) (eoi : bool) : result comp_st :=
  let '(st', o) := loop comp_step st chunk in
  single st' (if eoi && k_in_value st' then o ++ [cNewline] else o) eoi.

Definition compact_proc : processor := mkProc comp_st comp_init comp_process.

(** ** SelectNonemptyObjects / SelectNonemptyArrays: json_stream.cc:1162-1234.
    The two classes have the same code up to the two bracket characters. The
    field state_ has no initialiser, but the objects are made by `T()`, which
    zero-initialises (json_stream.cc of operators, lines 257, 265, 273). *)
Inductive sel_state := kStart | kOpen | kDropLine | kKeepLine.

Definition sel_nonempty_step (open close : byte) (s : sel_state) (c : byte) : sel_state * bytes :=
  match s with
  | kStart => if c =? open then (kOpen, []) else (kDropLine, [])
  | kOpen => if c =? close then (kDropLine, []) else (kKeepLine, [open; c])
  | kDropLine => if c =? cNewline then (kStart, []) else (kDropLine, [])
  | kKeepLine => (if c =? cNewline then kStart else kKeepLine, [c])
  end.

Definition loop_proc {S} (i : S) (step : S -> byte -> S * bytes) : processor :=
  mkProc S i (fun st chunk eoi => let '(st', o) := loop step st chunk in single st' o eoi).

Definition sel_objects_proc : processor :=
  loop_proc kStart (sel_nonempty_step cLBrace cRBrace).
Definition sel_arrays_proc : processor :=
  loop_proc kStart (sel_nonempty_step cLBracket cRBracket).

(** ** SelectNonnull: json_stream.cc:1236-1263 ('n' is 110) *)
Definition sel_nonnull_step (s : sel_state) (c : byte) : sel_state * bytes :=
  match s with
  | kStart => if c =? 110 then (kDropLine, []) else (kKeepLine, [c])
  | kDropLine | kOpen => if c =? cNewline then (kStart, []) else (kDropLine, [])
  | kKeepLine => (if c =? cNewline then kStart else kKeepLine, [c])
  end.

Definition sel_nonnull_proc : processor := loop_proc kStart sel_nonnull_step.

(** ** ImplodeArray: json_stream.cc:1422-1448 *)
Record impl_st := mkImpl { i_opened : bool; i_comma : bool }.

Definition impl_step (s : impl_st) (c : byte) : impl_st * bytes :=
  if c =? cNewline then (mkImpl (i_opened s) true, [])
  else if i_comma s then (mkImpl (i_opened s) false, [cComma; c])
  else (s, [c]).

Definition impl_process (st : impl_st) (chunk : bytes) (eoi : bool) : result impl_st :=
  let o0 := if i_opened st then [] else [cLBracket] in
  let st0 := mkImpl true (i_comma st) in
  let '(st1, o1) := loop impl_step st0 chunk in
  let o2 := if eoi then (if i_opened st1 then lit "]" else lit "[]") ++ [cNewline] else [] in
  single st1 (o0 ++ o1 ++ o2) eoi.

Definition implode_proc : processor := mkProc impl_st (mkImpl false false) impl_process.

(** ** ExplodeArray: json_stream.cc:1450-1510 *)
Record expl_st := mkExpl {
  e_depth : Z;
  e_top : bool;
  e_has_contents : bool;
  e_in_string : bool;
  e_in_escape : bool
}.

Definition expl_step (s : expl_st) (c : byte) : expl_st * bytes :=
  let '(mkExpl depth top hc instr inesc) := s in
  let emit := if top then [c] else [] in
  if instr then
    if inesc then (mkExpl depth top hc true false, emit)
    else if c =? cQuote then (mkExpl depth top hc false false, emit)
    else if c =? cBackslash then (mkExpl depth top hc true true, emit)
    else (mkExpl depth top hc true false, emit)
  else if c =? cLBracket then
    let depth' := (depth + 1)%Z in
    if (depth' =? 1)%Z then (mkExpl depth' true false false inesc, [])
    else (mkExpl depth' top true false inesc, emit)
  else if c =? cLBrace then (mkExpl (depth + 1) top true false inesc, emit)
  else if (c =? cComma) && top && (depth =? 1)%Z then (s, [cNewline])
  else if c =? cRBracket then
    let depth' := (depth - 1)%Z in
    if (depth' =? 0)%Z then
      (mkExpl depth' false false false inesc, if hc then [cNewline] else [])
    else (mkExpl depth' top hc false inesc, emit)
  else if c =? cRBrace then (mkExpl (depth - 1) top hc false inesc, emit)
  else if c =? cQuote then (mkExpl depth top true true inesc, emit)
  else if negb (isspace c) then (mkExpl depth top true false inesc, emit)
  else (s, []).

Definition explode_proc : processor :=
  loop_proc (mkExpl 0 false false false false) expl_step.

(** ** GetArrayNthValue: json_stream.cc:1512-1609 *)
Record nth_st := mkNth {
  n_depth : Z;
  n_top : bool;
  n_index : Z;
  n_has_contents : bool;
  n_emitted : bool;
  n_in_string : bool;
  n_in_escape : bool
}.

Definition null_line : bytes := lit "null" ++ [cNewline].

Definition nth_step (n : Z) (s : nth_st) (c : byte) : nth_st * bytes :=
  let '(mkNth depth top idx hc em instr inesc) := s in
  let emit := if top && (idx =? n)%Z then [c] else [] in
  (* emit_top_level_null_if_not_already_done *)
  let null_out := if em then [] else null_line in
  (* end_top_level_value, at depth 0 and outside strings *)
  let ended := mkNth 0 false 0 false false false inesc in
  if instr then
    if inesc then (mkNth depth top idx hc em true false, emit)
    else if c =? cQuote then (mkNth depth top idx hc em false false, emit)
    else if c =? cBackslash then (mkNth depth top idx hc em true true, emit)
    else (mkNth depth top idx hc em true false, emit)
  else if c =? cLBracket then
    let depth' := (depth + 1)%Z in
    if (depth' =? 1)%Z then (mkNth depth' true 0 hc em false inesc, [])
    else (mkNth depth' top idx true em false inesc, emit)
  else if c =? cLBrace then
    if (depth =? 0)%Z then (mkNth (depth + 1) top idx true true false inesc, null_out ++ emit)
    else (mkNth (depth + 1) top idx true em false inesc, emit)
  else if (c =? cComma) && top && (depth =? 1)%Z then
    if (idx =? n)%Z then (mkNth depth top (idx + 1) true true false inesc, [cNewline])
    else (mkNth depth top (idx + 1) true em false inesc, [])
  else if c =? cRBracket then
    let depth' := (depth - 1)%Z in
    if (depth' =? 0)%Z then
      (ended,
       if (idx =? n)%Z then (if hc then [cNewline] else null_line)
       else if (idx <? n)%Z then null_out else [])
    else (mkNth depth' top idx hc em false inesc, emit)
  else if c =? cRBrace then
    let depth' := (depth - 1)%Z in
    if (depth' =? 0)%Z then (ended, emit)
    else (mkNth depth' top idx hc em false inesc, emit)
  else if c =? cQuote then
    if (depth =? 0)%Z then (mkNth depth top idx true true true inesc, null_out ++ emit)
    else (mkNth depth top idx true em true inesc, emit)
  else if top && negb (isspace c) then (mkNth depth top idx true em false inesc, emit)
  else if negb (isspace c) then
    if (depth =? 0)%Z then (mkNth depth top idx hc true false inesc, null_out)
    else (s, [])
  else (s, []).

Definition nth_proc (n : Z) : processor :=
  loop_proc (mkNth 0 false 0 false false false false) (nth_step n).

(** ** Unquote: json_stream.cc:1611-1690 *)

(** json_stream.cc:78-80 IsHexDigit; a `char` above 0x7f is negative and, as
    char32_t, not below 0x80. *)
Definition is_hex (c : byte) : bool :=
  ((48 <=? c) && (c <=? 57)) || ((97 <=? c) && (c <=? 102)) || ((65 <=? c) && (c <=? 70)).

(** json_stream.cc:86-96 DigitValue *)
Definition digit_value (c : byte) : N :=
  if (48 <=? c) && (c <=? 57) then c - 48
  else if (97 <=? c) && (c <=? 102) then 10 + (c - 97)
  else if (65 <=? c) && (c <=? 70) then 10 + (c - 65)
  else 0.

(** json_stream.cc:98-108 ConvertDigitSpan over data[begin, end) *)
Definition digit_span (data : bytes) (b e : nat) (base : N) : N :=
  fold_left (fun v c => v * base + digit_value c) (firstn (e - b) (skipn b data)) 0.

(** ICU: U16_IS_LEAD, U16_IS_TRAIL, U16_GET_SUPPLEMENTARY *)
Definition is_lead (u : N) : bool := (0xD800 <=? u) && (u <=? 0xDBFF).
Definition is_trail (u : N) : bool := (0xDC00 <=? u) && (u <=? 0xDFFF).
Definition supplementary (a b : N) : N := (a - 0xD800) * 1024 + (b - 0xDC00) + 0x10000.

(** json_stream.cc:70-74 AppendUtf8CodePoint, i.e. icu::UnicodeString::append
    followed by toUTF8String, which turns an unpaired surrogate into U+FFFD.
    (append ignores values above 0x10FFFF.) *)
Definition utf8 (u : N) : bytes :=
  if u <? 0x80 then [u]
  else if u <? 0x800 then [0xC0 + u / 64; 0x80 + u mod 64]
  else if (0xD800 <=? u) && (u <=? 0xDFFF) then [0xEF; 0xBF; 0xBD]
  else if u <? 0x10000 then [0xE0 + u / 4096; 0x80 + (u / 64) mod 64; 0x80 + u mod 64]
  else if u <? 0x110000 then
    [0xF0 + u / 262144; 0x80 + (u / 4096) mod 64; 0x80 + (u / 64) mod 64; 0x80 + u mod 64]
  else [].
Definition kReplacement : N := 0xFFFD.

Record unq_st := mkUnq { u_in_string : bool; u_buf : bytes }.

(** "Broken escape" and the like (1649-1651, 1682-1683) *)
Definition unq_step (s : unq_st) (c : byte) : unq_st * bytes :=
  let '(mkUnq instr buf) := s in
  if instr then
    match buf with
    | [] =>
        if c =? cQuote then (mkUnq false [], [])
        else if c =? cBackslash then (mkUnq true [c], [])
        else (mkUnq true [], [c])
    | [b0] =>
        (* the buffer can only be a single backslash *)
        if (c =? cQuote) || (c =? cBackslash) || (c =? 47) then (mkUnq true [], [c])
        else if c =? 98 then (mkUnq true [], [8])
        else if c =? 102 then (mkUnq true [], [12])
        else if c =? 110 then (mkUnq true [], [10])
        else if c =? 114 then (mkUnq true [], [13])
        else if c =? 116 then (mkUnq true [], [9])
        else if c =? 117 then (mkUnq true (buf ++ [c]), [])
        else (mkUnq true buf, [])
    | _ =>
        let size := List.length buf in
        if c =? cQuote then (mkUnq false [], utf8 kReplacement)
        else if (size =? 5)%nat && is_hex c then
          let buf' := buf ++ [c] in
          let v := digit_span buf' 2 6 16 in
          if is_lead v then (mkUnq true buf', []) else (mkUnq true [], utf8 v)
        else if (size =? 11)%nat && is_hex c then
          let buf' := buf ++ [c] in
          let a := digit_span buf' 2 6 16 in
          let b := digit_span buf' 8 12 16 in
          (mkUnq true [], if is_trail b then utf8 (supplementary a b) else utf8 kReplacement)
        else if (size =? 6)%nat && (c =? cBackslash) then (mkUnq true (buf ++ [c]), [])
        else if (size =? 7)%nat && (c =? 117) then (mkUnq true (buf ++ [c]), [])
        else if ((size =? 2) || (size =? 3) || (size =? 4) || (size =? 8) || (size =? 9)
                 || (size =? 10))%nat && is_hex c then (mkUnq true (buf ++ [c]), [])
        else (mkUnq true [], utf8 kReplacement)
    end
  else if c =? cQuote then (mkUnq true buf, [])
  else (s, []).

Definition unq_init : unq_st := mkUnq false [].
Definition unquote_proc : processor := loop_proc unq_init unq_step.

(** ** Quote: json_stream.cc:1692-1728. The state is emitted_opening_quote_. *)
Definition hex_char (d : N) : byte := if d <? 10 then 48 + d else 87 + d.

Definition quote_char (c : byte) : bytes :=
  if c =? cBackslash then [cBackslash; cBackslash]
  else if c =? cQuote then [cBackslash; cQuote]
  else if c =? 8 then [cBackslash; 98]
  else if c =? 12 then [cBackslash; 102]
  else if c =? 10 then [cBackslash; 110]
  else if c =? 13 then [cBackslash; 114]
  else if c =? 9 then [cBackslash; 116]
  else if c <? 32 then [cBackslash; 117; 48; 48; hex_char (c / 16); hex_char (c mod 16)]
  else [c].

Definition quote_process (opened : bool) (chunk : bytes) (eoi : bool) : result bool :=
  let o0 := if opened then [] else [cQuote] in
  let '(opened1, o1) := loop (fun st c => (st, quote_char c)) true chunk in
  let o2 := if eoi then (if opened1 then [cQuote] else [cQuote; cQuote]) else [] in
  single opened1 (o0 ++ o1 ++ o2) eoi.

Definition quote_proc : processor := mkProc bool false quote_process.

(** ** ExtractValues: json_stream.cc:1265-1420 *)
Inductive part := PIndex (i : Z) | PKey (k : bytes).

Record ext_st := mkExt {
  x_stack : list part;          (** container_path_stack_, bottom first *)
  x_key : bool;                 (** is_object_key_ *)
  x_buf : bytes;                (** key_literal_buffer_ *)
  x_match : bool;               (** is_in_match_ *)
  x_any : bool;                 (** has_any_matches_ *)
  x_depth : Z;                  (** match_depth_ *)
  x_in_string : bool;
  x_in_escape : bool
}.

(** 1269-1272 run_processor *)
Definition run_once (p : processor) (input : bytes) : bytes :=
  List.concat (r_chunks (process p (init p) input true)).

(** absl::StrAppend of an int64: decimal digits *)
Fixpoint dec_digits (fuel : nat) (n : N) (acc : bytes) : bytes :=
  match fuel with
  | O => acc
  | S f => if n <? 10 then (48 + n) :: acc else dec_digits f (n / 10) ((48 + n mod 10) :: acc)
  end.
Definition dec_of_Z (z : Z) : bytes :=
  let n := Z.to_N (Z.abs z) in
  let d := dec_digits (S (N.to_nat (N.log2 n))) n [] in
  if (z <? 0)%Z then 45 :: d else d.

Definition part_text (p : part) : bytes :=
  match p with
  | PIndex i => dec_of_Z i
  | PKey k => run_once quote_proc k
  end.

Fixpoint join_comma (l : list bytes) : bytes :=
  match l with
  | [] => []
  | [x] => x
  | x :: l' => x ++ cComma :: join_comma l'
  end.

(** 1274-1289 emit_path_array *)
Definition path_array (stack : list part) : bytes :=
  lit "[[" ++ join_comma (map part_text stack) ++ lit "],".

(** container_path_stack_.back() *)
Definition back (l : list part) : option part :=
  match rev l with [] => None | x :: _ => Some x end.
Definition set_back (l : list part) (x : part) : list part := removelast l ++ [x].

Definition is_in_array (l : list part) : bool :=
  match back l with Some (PIndex _) => true | _ => false end.
Definition is_in_object (l : list part) : bool :=
  match back l with Some (PKey _) => true | _ => false end.

Section Extract.
Variable path_match_fn : list part -> bool.
Variable with_path : bool.

(** 1291-1302 try_start_match_at_current_path *)
Definition try_start (s : ext_st) : ext_st * bytes :=
  if path_match_fn (x_stack s) then
    (mkExt (x_stack s) (x_key s) (x_buf s) true true 0 (x_in_string s) (x_in_escape s),
     (if x_any s then [cComma] else [cLBracket]) ++
     (if with_path then path_array (x_stack s) else []))
  else
    (mkExt (x_stack s) (x_key s) (x_buf s) false (x_any s) (x_depth s)
       (x_in_string s) (x_in_escape s), []).

(** The output of one iteration is kept as a list that `output.pop_back()` can
    shorten: pop_back only removes the character pushed at 1328 in the same
    iteration. container_path_stack_.pop_back() on an empty stack is undefined
    in C++ and the identity here; it takes an unbalanced bracket to get there. *)
Definition end_pair : bytes := if with_path then [cRBracket] else [].

Definition ext_step (s0 : ext_st) (c : byte) : ext_st * bytes :=
  (* 1315-1317 *)
  let '(s1, o1) :=
    if (match x_stack s0 with [] => true | _ => false end) && negb (x_match s0)
       && negb (c =? cNewline)
    then try_start s0 else (s0, []) in
  (* 1320-1324 *)
  let '(s2, o2) :=
    match back (x_stack s1) with
    | Some (PIndex i) =>
        if negb (x_match s1) && (i =? -1)%Z && negb (c =? cRBracket) then
          try_start (mkExt (set_back (x_stack s1) (PIndex 0)) (x_key s1) (x_buf s1) (x_match s1)
                       (x_any s1) (x_depth s1) (x_in_string s1) (x_in_escape s1))
        else (s1, [])
    | _ => (s1, [])
    end in
  let '(mkExt stack key buf mt any depth instr inesc) := s2 in
  let pre := o1 ++ o2 in
  let out := if mt then pre ++ [c] else pre in       (* 1326-1329 *)
  if instr then
    let buf' := if negb mt && key then buf ++ [c] else buf in
    if inesc then (mkExt stack key buf' mt any depth true false, out)
    else if c =? cQuote then (mkExt stack key buf' mt any depth false false, out)
    else if c =? cBackslash then (mkExt stack key buf' mt any depth true true, out)
    else (mkExt stack key buf' mt any depth true false, out)
  else if c =? cQuote then
    (mkExt stack key (if negb mt && key then buf ++ [cQuote] else buf) mt any depth true inesc, out)
  else if c =? cLBracket then
    if negb mt then (mkExt (stack ++ [PIndex (-1)]) false buf mt any depth false inesc, out)
    else (mkExt stack key buf mt any (depth + 1) false inesc, out)
  else if (c =? cRBracket) || (c =? cRBrace) then
    if mt then
      if (depth =? 0)%Z then
        (mkExt (removelast stack) key buf false any depth false inesc,
         removelast out ++ end_pair)
      else (mkExt stack key buf mt any (depth - 1) false inesc, out)
    else (mkExt (removelast stack) key buf mt any depth false inesc, out)
  else if c =? cComma then
    let '(mt', out') :=
      if mt && (depth =? 0)%Z then (false, removelast out ++ end_pair) else (mt, out) in
    let s' := mkExt stack key buf mt' any depth false inesc in
    if negb mt' then
      match back stack with
      | Some (PIndex i) =>
          let '(s'', o'') :=
            try_start (mkExt (set_back stack (PIndex (i + 1))) key buf mt' any depth false inesc) in
          (s'', out' ++ o'')
      | Some (PKey _) => (mkExt stack true buf mt' any depth false inesc, out')
      | None => (s', out')
      end
    else (s', out')
  else if c =? cLBrace then
    if negb mt then (mkExt (stack ++ [PKey []]) true buf mt any depth false inesc, out)
    else (mkExt stack key buf mt any (depth + 1) false inesc, out)
  else if (c =? cColon) && is_in_object stack && negb mt then
    let '(s'', o'') :=
      try_start (mkExt (set_back stack (PKey (run_once unquote_proc buf))) false [] mt any depth
                   false inesc) in
    (s'', out ++ o'')
  else if (match stack with [] => true | _ => false end) && (c =? cNewline) then
    if negb mt then
      (mkExt stack key buf mt false depth false inesc,
       out ++ (if any then lit "]" else lit "[]") ++ [cNewline])
    else
      (mkExt stack key buf false false depth false inesc,
       removelast out ++ end_pair ++ [cRBracket; cNewline])
  else (mkExt stack key buf mt any depth false inesc, out).

Definition extract_proc : processor :=
  loop_proc (mkExt [] false [] false false 0 false false) ext_step.
End Extract.

(** ** ChunkValues: json_stream.cc:1730-1751 *)
Fixpoint chunk_loop (buf : bytes) (s : bytes) : bytes * list bytes :=
  match s with
  | [] => (buf, [])
  | c :: s' =>
      if c =? cNewline then
        let '(b, l) := chunk_loop [] s' in (b, (buf ++ [c]) :: l)
      else chunk_loop (buf ++ [c]) s'
  end.

Definition chunk_process (st : comp_st * bytes) (chunk : bytes) (eoi : bool)
    : result (comp_st * bytes) :=
  let '(k, buf) := st in
  let r := comp_process k chunk eoi in
  let '(buf', out) := chunk_loop buf (List.concat (r_chunks r)) in
  mkResult (r_state r, buf') out (r_end r).

Definition chunk_values_proc : processor := mkProc _ (comp_init, []) chunk_process.

(** ** The composite processor: operators/json_stream.cc:137-181, for two
    processors; three are composed as (p, (q, r)). [feed] is the loop of lines
    153-162. *)
Fixpoint feed (p : processor) (st : St p) (chunks : list bytes) : result (St p) :=
  match chunks with
  | [] => mkResult st [] false
  | c :: chunks' =>
      let r1 := process p st c false in
      if r_end r1 then r1
      else let r2 := feed p (r_state r1) chunks' in
           mkResult (r_state r2) (r_chunks r1 ++ r_chunks r2) (r_end r2)
  end.

(** lines 150-172: one processor applied to the chunks of the previous one *)
Definition stage (p : processor) (st : St p) (chunks : list bytes) (is_end : bool)
    : result (St p) :=
  let r := feed p st chunks in
  if is_end && negb (r_end r) then
    let r2 := process p (r_state r) [] true in
    mkResult (r_state r2) (r_chunks r ++ r_chunks r2) true
  else r.

(** The pack expansion applies [stage] to each processor in turn, the first
    one to the single chunk. *)
Fixpoint states (ps : list processor) : Type :=
  match ps with
  | [] => unit
  | p :: ps' => (St p * states ps')%type
  end.
Fixpoint inits (ps : list processor) : states ps :=
  match ps with
  | [] => tt
  | p :: ps' => (init p, inits ps')
  end.
Fixpoint stages (ps : list processor) : states ps -> list bytes -> bool -> result (states ps) :=
  match ps with
  | [] => fun st chunks is_end => mkResult tt chunks is_end
  | p :: ps' => fun st chunks is_end =>
      let r := stage p (fst st) chunks is_end in
      let r' := stages ps' (snd st) (r_chunks r) (r_end r) in
      mkResult (r_state r, r_state r') (r_chunks r') (r_end r')
  end.
Definition composite (ps : list processor) : processor :=
  mkProc (states ps) (inits ps) (fun st chunk eoi => stages ps st [chunk] eoi).

(** ** The routine: operators/json_stream.cc:77-123. A missing item ([None]) is
    skipped (101). Not modelled: the reader running dry and being resumed,
    cancellation, an item of a wrong type, an orphaned writer. *)
Fixpoint run_from (p : processor) (st : St p) (items : list (option bytes)) : list bytes :=
  match items with
  | [] => r_chunks (process p st [] true)
  | None :: items' => run_from p st items'
  | Some c :: items' =>
      let r := process p st c false in
      if r_end r then r_chunks r else r_chunks r ++ run_from p (r_state r) items'
  end.
Definition run (p : processor) (items : list (option bytes)) : list bytes :=
  run_from p (init p) items.

(** operators/json_stream.cc:225-367: the processors behind the operators *)
Definition match_key (key : bytes) (path : list part) : bool :=
  match path with
  | [PKey k] => if list_eq_dec N.eq_dec k key then true else false
  | _ => false
  end.

Inductive operator :=
  | OpPrettify (indent : bytes)
  | OpHead (n : Z)
  | OpSelectNonemptyObjects | OpSelectNonemptyArrays | OpSelectNonnull
  | OpGetObjectKeyValue (key : bytes) | OpGetObjectKeyValues (key : bytes)
  | OpImplodeArray | OpExplodeArray
  | OpGetArrayNthValue (n : Z)
  | OpUnquote | OpQuote | OpChunkValues.

Definition op_proc (o : operator) : processor :=
  match o with
  | OpPrettify indent => pretty_proc indent
  | OpHead n => composite [compact_proc; head_proc n]
  | OpSelectNonemptyObjects => composite [compact_proc; sel_objects_proc]
  | OpSelectNonemptyArrays => composite [compact_proc; sel_arrays_proc]
  | OpSelectNonnull => composite [compact_proc; sel_nonnull_proc]
  | OpGetObjectKeyValue key =>
      composite [compact_proc; extract_proc (match_key key) false; nth_proc 0]
  | OpGetObjectKeyValues key => composite [compact_proc; extract_proc (match_key key) false]
  | OpImplodeArray => composite [compact_proc; implode_proc]
  | OpExplodeArray => explode_proc
  | OpGetArrayNthValue n => nth_proc n
  | OpUnquote => unquote_proc
  | OpQuote => quote_proc
  | OpChunkValues => chunk_values_proc
  end.
