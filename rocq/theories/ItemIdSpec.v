(** Independent vocabulary for C01-C04: base-62 numerals as people write them. *)
From Coq Require Import NArith List.
Import ListNotations.
Open Scope N_scope.

(** 0-9, A-Z, a-z as byte codes *)
Definition alphanumeric (c : N) : Prop :=
  (48 <= c <= 57) \/ (65 <= c <= 90) \/ (97 <= c <= 122).

(** The digits in the order 0-9, A-Z, a-z *)
Definition digit (c : N) : N :=
  if c <? 58 then c - 48 else if c <? 91 then c - 65 + 10 else c - 97 + 36.

(** Base-62 positional value of a text, most significant character first. *)
Fixpoint positional (t : list N) : N :=
  match t with [] => 0 | c :: t' => digit c * 62 ^ N.of_nat (length t') + positional t' end.

Definition b2n (b : bool) : N := if b then 1 else 0.
