(** Vocabulary for salvage (C36, C44): valid JSON in the sense of RFC 8259 (with
    the NaN extension if it is asked for), streams of such values, and when two
    values are the same. Independent of the processor; the type of values and
    their compact spelling are those of JsonSpec. *)
From Coq Require Import String NArith ZArith List Bool.
From Verif Require Import JsonModel JsonSpec.
Import ListNotations.
Open Scope N_scope.

(** ** RFC 8259 *)
Definition digit (c : byte) : Prop := 48 <= c <= 57.
Definition digits1 (l : bytes) : Prop := l <> [] /\ Forall digit l.

(** int = 0 / (1-9 digits) *)
Definition int_part (l : bytes) : Prop :=
  l = [48] \/ exists d r, l = d :: r /\ 49 <= d <= 57 /\ Forall digit r.
(** frac = . digits, or nothing *)
Definition frac_part (l : bytes) : Prop := l = [] \/ exists d, l = 46 :: d /\ digits1 d.
(** exp = e/E, sign, digits, or nothing *)
Definition exp_part (l : bytes) : Prop :=
  l = [] \/ exists m sg d, l = m :: sg ++ d /\ (m = 101 \/ m = 69) /\
                           (sg = [] \/ sg = [43] \/ sg = [45]) /\ digits1 d.
Definition number_ok (l : bytes) : Prop :=
  exists sg i f e, l = sg ++ i ++ f ++ e /\ (sg = [] \/ sg = [45]) /\
                   int_part i /\ frac_part f /\ exp_part e.

Definition hex_ok (c : byte) : Prop := exists v, hex_digit c v.

(** What stands between the quotes of a string. *)
Inductive string_ok : bytes -> Prop :=
  | so_nil : string_ok []
  | so_raw c b : 32 <= c -> c <> cQuote -> c <> cBackslash -> string_ok b -> string_ok (c :: b)
  | so_esc c b : simple_escape c <> None -> string_ok b -> string_ok (cBackslash :: c :: b)
  | so_u a1 a2 a3 a4 b : hex_ok a1 -> hex_ok a2 -> hex_ok a3 -> hex_ok a4 -> string_ok b ->
      string_ok (cBackslash :: 117 :: a1 :: a2 :: a3 :: a4 :: b).

Definition nan_literal (l : bytes) : Prop :=
  l = lit "NaN" \/ l = lit "Infinity" \/ l = lit "-Infinity".

Inductive valid (nan : bool) : json -> Prop :=
  | v_null : valid nan JNull
  | v_true : valid nan JTrue
  | v_false : valid nan JFalse
  | v_num l : number_ok l \/ (nan = true /\ nan_literal l) -> valid nan (JNum l)
  | v_str b : string_ok b -> valid nan (JStr b)
  | v_arr l : Forall (valid nan) l -> valid nan (JArr l)
  | v_obj l : Forall (fun kv => string_ok (fst kv)) l -> Forall (fun kv => valid nan (snd kv)) l ->
      valid nan (JObj l).

(** Zero or more valid values, separated by newlines. *)
Definition valid_stream (nan : bool) (t : bytes) : Prop :=
  exists js, Forall (valid nan) js /\ t = intercalate [cNewline] (map compact js).

(** ** Conditions on the input *)

(** a backslash directly followed by a control character (other than LF, CR) *)
Definition escaped_control (t : bytes) : Prop :=
  exists p c q, t = p ++ cBackslash :: c :: q /\ c < 32 /\ c <> 10 /\ c <> 13.
(** two backticks at the end, but for an incomplete UTF-8 sequence *)
Definition final_backticks (t : bytes) : Prop :=
  exists p q, t = p ++ lit "``" ++ q /\ Forall (fun c => 128 <= c) q.
(** + or - directly followed by a digit or a point *)
Definition signed_number (t : bytes) : Prop :=
  exists p s c q, t = p ++ s :: c :: q /\ (s = 43 \/ s = 45) /\ (digit c \/ c = 46).
(** a backslash directly followed by a non-ASCII character *)
Definition escaped_non_ascii (t : bytes) : Prop :=
  exists p c q, t = p ++ cBackslash :: c :: q /\ 128 <= c.

(** A sequence of UTF-8 encoded code points, no surrogates. *)
Inductive utf8_text : bytes -> Prop :=
  | ut_nil : utf8_text []
  | ut_cons u e t : u8 u e -> ~ (0xD800 <= u <= 0xDFFF) -> utf8_text t -> utf8_text (e ++ t).

(** ** The same values *)

(** Spellings of the same number: only the letter of the exponent may differ. *)
Definition same_number (l l' : bytes) : Prop :=
  l' = map (fun c => if c =? 69 then 101 else c) l.
(** Spellings of the same string. *)
Definition same_string (b b' : bytes) : Prop := exists s, denotes b s /\ denotes b' s.

Inductive same_value : json -> json -> Prop :=
  | sv_null : same_value JNull JNull
  | sv_true : same_value JTrue JTrue
  | sv_false : same_value JFalse JFalse
  | sv_num l l' : same_number l l' -> same_value (JNum l) (JNum l')
  | sv_str b b' : same_string b b' -> same_value (JStr b) (JStr b')
  | sv_arr l l' : Forall2 same_value l l' -> same_value (JArr l) (JArr l')
  | sv_obj l l' : Forall2 (fun kv kv' => same_string (fst kv) (fst kv')) l l' ->
      Forall2 (fun kv kv' => same_value (snd kv) (snd kv')) l l' ->
      same_value (JObj l) (JObj l').

(** How deep arrays and objects are nested. *)
Fixpoint depth (j : json) : nat :=
  match j with
  | JArr l => S (list_max (map depth l))
  | JObj l => S (list_max (map (fun kv => depth (snd kv)) l))
  | _ => 0%nat
  end.

(** A value as RFC 8259 has it, whose strings are UTF-8 and denote something
    (no escaped lone surrogate). *)
Definition readable_string (b : bytes) : Prop :=
  string_ok b /\ utf8_text b /\ exists s, denotes b s.
Inductive readable : json -> Prop :=
  | r_null : readable JNull
  | r_true : readable JTrue
  | r_false : readable JFalse
  | r_num l : number_ok l -> readable (JNum l)
  | r_str b : readable_string b -> readable (JStr b)
  | r_arr l : Forall readable l -> readable (JArr l)
  | r_obj l : Forall (fun kv => readable_string (fst kv)) l ->
      Forall (fun kv => readable (snd kv)) l -> readable (JObj l).
