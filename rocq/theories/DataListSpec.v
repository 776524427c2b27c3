(** Vocabulary for C10, C11: lists as plain Python sequences. *)
From Coq Require Import NArith ZArith List Bool Arith.
From Verif Require Import ObjectIdModel ItemModel.
Import ListNotations.
Local Open Scope nat_scope.

Section Sequences.
Context {A : Type}.
Implicit Type l : list A.

(** What an index means in Python: counted from the end when negative. *)
Definition py_index (i : Z) l : option nat :=
  let n := Z.of_nat (length l) in
  if (- n <=? i)%Z && (i <? n)%Z then Some (Z.to_nat (i mod n)) else None.

(** Where a slice bound points: from the end when negative, cut to the length. *)
Definition py_bound (b : Z) l : nat :=
  let n := Z.of_nat (length l) in
  if (b <? 0)%Z then Z.to_nat (Z.max 0 (b + n)) else Z.to_nat (Z.min b n).
Definition py_start (a : option Z) l : nat := match a with Some a => py_bound a l | None => 0 end.
Definition py_stop (b : option Z) l : nat := match b with Some b => py_bound b l | None => length l end.

(** l[a:b]: the items at positions start .. stop - 1 *)
Definition py_slice (a b : option Z) l : list A :=
  firstn (py_stop b l - py_start a l) (skipn (py_start a l) l).
(** l[a:b] = vs: those items replaced by [vs]; an empty range inserts at its start *)
Definition py_assign (a b : option Z) (vs : list A) l : list A :=
  firstn (py_start a l) l ++ vs ++ skipn (Nat.max (py_start a l) (py_stop b l)) l.
(** del l[a:b] *)
Definition py_delete (a b : option Z) l : list A := py_assign a b [] l.

(** l[i], l[i] = x, del l[i], for an index in range; otherwise nothing happens *)
Definition put_at (i : Z) (x : A) l : list A :=
  match py_index i l with
  | Some p => firstn p l ++ x :: skipn (S p) l
  | None => l
  end.
Definition drop_at (i : Z) l : list A :=
  match py_index i l with Some p => firstn p l ++ skipn (S p) l | None => l end.
End Sequences.

Definition item_at (i : Z) (l : list ditem) : ditem :=
  match py_index i l with Some p => nth p l None | None => None end.

(** The lists of a bag: unset, or a sequence of items. *)
Definition lists_spec := ObjectId -> option (list ditem).
Definition seq_of (s : lists_spec) (id : ObjectId) : list ditem :=
  match s id with Some l => l | None => [] end.
(** [id] becomes [l]; nothing else changes *)
Definition assign (s : lists_spec) (id : ObjectId) (l : list ditem) : lists_spec :=
  fun j => if oid_eqb j id then Some l else s j.

(** A batch: for each list in turn, the one after the other (a list may occur
    twice), [f offset old] is its new content. Missing entries and ids that are
    not of lists are skipped. *)
Fixpoint each (f : nat -> list ditem -> list ditem) (offset : nat) (lists : list (option ObjectId))
    (s : lists_spec) : lists_spec :=
  match lists with
  | [] => s
  | None :: r => each f (S offset) r s
  | Some id :: r =>
      each f (S offset) r (if is_list id then assign s id (f offset (seq_of s id)) else s)
  end.

(** Entries whose index is missing are skipped too. *)
Definition where_index (lists : list (option ObjectId)) (indices : list (option Z)) : list (option ObjectId) :=
  map (fun p => match snd p with Some _ => fst p | None => None end) (combine lists indices).
Definition idx (indices : list (option Z)) (i : nat) : Z :=
  match nth i indices None with Some z => z | None => 0%Z end.

(** The part of the values that belongs to the i-th list. *)
Definition part (splits : list nat) (i : nat) (vs : list ditem) : list ditem :=
  firstn (nth (S i) splits 0 - nth i splits 0) (skipn (nth i splits 0) vs).
