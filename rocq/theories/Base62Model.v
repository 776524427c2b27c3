(** Model of koladata/internal/op_utils/base62.cc and itemid.cc.
    Unsigned integers are N; every operation that can wrap is reduced
    modulo 2^64 or 2^128 explicitly. A character is its byte code (N). *)
From Coq Require Import NArith List Bool.
Import ListNotations.
Open Scope N_scope.

Definition two64 : N := 2 ^ 64.
Definition two128 : N := 2 ^ 128.

(** base62.cc:29 kBase62Length; the loops below produce 10 + 10 + 2 digits. *)
Definition kBase62Length : nat := 22.

(** base62.cc:30-34 kBase62Chars: "0..9A..Za..z" as a function of the index. *)
Definition base62_char (i : N) : N :=
  if i <? 10 then 48 + i
  else if i <? 36 then 65 + (i - 10)
  else 97 + (i - 36).

(** base62.cc:36-41 *)
Definition kLowInverse : N := 7459615142622190913.
Definition kHighInverse : N := 5689246992239689896.
Definition kInverse : N := kHighInverse * two64 + kLowInverse.
Definition k62Power10 : N := 839299365868340224.

(** base62.cc:48-51 DivideBy62Power10: ((val - reminder) >> 10) * kInverse,
    in 128-bit arithmetic. *)
Definition divide_by_62_power10 (val reminder : N) : N :=
  (N.shiftr ((val + two128 - reminder) mod two128) 10 * kInverse) mod two128.

(** base62.cc:59-65 append_char lambda: writes [step_size] digits, the least
    significant one first, going from right to left. [acc] is the already
    written right part of [res]. *)
Fixpoint append_char (step_size : nat) (val : N) (acc : list N) : list N :=
  match step_size with
  | O => acc
  | S s => append_char s (val / 62) (base62_char (val mod 62) :: acc)
  end.

(** base62.cc:55-77 Base62Repr *)
Definition base62_repr (val : N) : list N :=
  let reminder := (val mod k62Power10) mod two64 in
  let res := append_char 10 reminder [] in
  let val := divide_by_62_power10 val reminder in
  let reminder := (val mod k62Power10) mod two64 in
  let res := append_char 10 reminder res in
  let val := divide_by_62_power10 val reminder in
  append_char 2 (val mod two64) res.

(** base62.cc:86-93: the index of one character; characters outside the
    alphabet leave idx = 0. *)
Definition base62_index (c : N) : N :=
  if (97 <=? c) && (c <=? 122) then c - 97 + 36
  else if (65 <=? c) && (c <=? 90) then c - 65 + 10
  else if (48 <=? c) && (c <=? 57) then c - 48 + 0
  else 0.

(** base62.cc:83-97 DecodeBase62 *)
Definition decode_base62 (text : list N) : N :=
  fold_left (fun res c => (res * 62 + base62_index c) mod two128) text 0.
