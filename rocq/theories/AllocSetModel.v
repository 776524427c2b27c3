(** Model of AllocationIdSet (koladata/internal/object_id.h:541-633 and
    object_id.cc:173-259). An allocation id is its 128-bit number, so that the
    C++ order on (InternalHigh64, InternalLow64) (object_id.h:118-121, 334-335)
    is the order on N. Simplifications: std::sort, std::inplace_merge,
    std::unique and std::lower_bound are their specifications written as list
    functions; a flat_hash_set is the list of its members. *)
From Coq Require Import NArith List Bool Arith.
From Verif Require Import Base62Model ObjectIdModel.
Import ListNotations.
Open Scope N_scope.

(** object_id.h:297 IsSmall *)
Definition is_small (n : N) : bool :=
  is_small_alloc (unsafe_create (n / two64) (n mod two64)).

(** object_id.h:622 *)
Definition kMaxSortedSize : nat := 30.

(** object_id.h:626-632 the fields *)
Record aset := mkSet {
  small : bool;
  ids : list N;
  unsorted : option (list N)
}.

(** std::lower_bound: the number of leading elements below [x]. *)
Fixpoint lower_bound (l : list N) (x : N) : nat :=
  match l with
  | [] => O
  | y :: l' => if y <? x then S (lower_bound l' x) else O
  end.

(** std::sort *)
Fixpoint insert_sorted (x : N) (l : list N) : list N :=
  match l with
  | [] => [x]
  | y :: l' => if x <=? y then x :: y :: l' else y :: insert_sorted x l'
  end.
Definition sort (l : list N) : list N := fold_right insert_sorted [] l.

(** std::inplace_merge of two consecutive ranges *)
Fixpoint merge (l1 : list N) : list N -> list N :=
  fix merge_aux (l2 : list N) : list N :=
    match l1, l2 with
    | [], _ => l2
    | _, [] => l1
    | x :: l1', y :: l2' => if y <? x then y :: merge_aux l2' else x :: merge l1' l2
    end.

(** std::unique followed by erase *)
Fixpoint unique (l : list N) : list N :=
  match l with
  | [] => []
  | x :: l' => match unique l' with
               | [] => [x]
               | y :: r => if x =? y then y :: r else x :: y :: r
               end
  end.

Definition mem (x : N) (l : list N) : bool := existsb (N.eqb x) l.

(** flat_hash_set::insert: the new set and whether the element was added *)
Definition hs_insert (x : N) (s : list N) : list N * bool :=
  if mem x s then (s, false) else (x :: s, true).

(** object_id.h:546 *)
Definition empty_set : aset := mkSet false [] None.
(** object_id.h:548-549 *)
Definition of_flag (b : bool) : aset := mkSet b [] None.
(** object_id.h:551-553 *)
Definition of_id (x : N) : aset :=
  mkSet (is_small x) (if is_small x then [] else [x]) None.
(** object_id.h:555-569 *)
Definition of_span (l : list N) : aset :=
  let big := filter (fun x => negb (is_small x)) l in
  let has_small := negb (Nat.eqb (length big) (length l)) in
  if Nat.ltb 1 (length big) then
    let r := unique (sort big) in
    mkSet has_small r (if Nat.ltb kMaxSortedSize (length r) then Some (skipn kMaxSortedSize r) else None)
  else mkSet has_small big None.

(** object_id.cc:173-194 InsertBigAllocationSlow. Dereferencing an absent
    [unsorted_ids_] (undefined behaviour in C++) returns [None]; the proofs show
    it never happens. *)
Definition insert_big_slow (s : aset) (x : N) : option (aset * bool) :=
  let sorted := if Nat.ltb kMaxSortedSize (length (ids s)) then firstn kMaxSortedSize (ids s) else ids s in
  let it := lower_bound sorted x in
  let found := match nth_error sorted it with Some y => y =? x | None => false end in
  if found then Some (s, false)
  else if Nat.leb (length (ids s)) kMaxSortedSize then
    let r := firstn it (ids s) ++ x :: skipn it (ids s) in
    Some (mkSet (small s) r
            (if Nat.ltb kMaxSortedSize (length r) then Some [last r 0] else unsorted s), true)
  else match unsorted s with
       | None => None
       | Some u => let '(u', added) := hs_insert x u in
                   Some (mkSet (small s) (if added then ids s ++ [x] else ids s) (Some u'), added)
       end.

(** object_id.h:572-584 Insert(AllocationId) *)
Definition insert (s : aset) (x : N) : option (aset * bool) :=
  if is_small x then Some (mkSet true (ids s) (unsorted s), negb (small s))
  else match ids s with
       | [] => Some (mkSet (small s) [x] (unsorted s), true)
       | y :: _ => if y =? x then Some (s, false) else insert_big_slow s x
       end.

(** object_id.cc:203-207: length of the common prefix *)
Fixpoint common_prefix (l1 l2 : list N) : nat :=
  match l1, l2 with
  | x :: l1', y :: l2' => if x =? y then S (common_prefix l1' l2') else O
  | _, _ => O
  end.

(** object_id.cc:196-233 Insert(const AllocationIdSet&) *)
Definition insert_set (s n : aset) : aset :=
  let sm := small s || small n in
  match ids s with
  | [] => mkSet sm (ids n) (unsorted n)
  | _ :: _ =>
    let off := common_prefix (ids s) (ids n) in
    if Nat.eqb off (length (ids n)) then mkSet sm (ids s) (unsorted s)
    else
      let tail := skipn off (ids n) in
      let appended := ids s ++ tail in
      let r :=
        if Nat.leb (length appended) kMaxSortedSize then
          firstn off (ids s) ++ unique (merge (skipn off (ids s)) tail)
        else unique (sort appended) in
      let u :=
        if Nat.ltb kMaxSortedSize (length r) then
          let u0 := match unsorted s with Some u => u | None => [] end in
          Some (fold_left (fun u x => fst (hs_insert x u)) (skipn kMaxSortedSize r) u0)
        else unsorted s in
      mkSet sm r u
  end.

(** InlinedVector equality *)
Fixpoint list_eqb (l1 l2 : list N) : bool :=
  match l1, l2 with
  | [], [] => true
  | x :: l1', y :: l2' => (x =? y) && list_eqb l1' l2'
  | _, _ => false
  end.

(** object_id.cc:235-259 operator== *)
Definition set_eqb (l r : aset) : option bool :=
  if Bool.eqb (small l) (small r) && Nat.eqb (length (ids l)) (length (ids r)) then
    if Nat.ltb kMaxSortedSize (length (ids l)) then
      match unsorted l with
      | None => None
      | Some u =>
        let lhs_set := fold_left (fun u x => fst (hs_insert x u)) (firstn kMaxSortedSize (ids l)) u in
        Some (forallb (fun x => mem x lhs_set) (ids r))
      end
    else Some (list_eqb (ids l) (ids r))
  else Some false.

(** object_id.h:599-603 *)
Definition insert_small (s : aset) : aset := mkSet true (ids s) (unsorted s).

(** Every way a program can build a set (values are copied in C++, so an
    expression covers every history of calls). *)
Inductive build :=
| BEmpty
| BFlag (b : bool)
| BOne (x : N)
| BSpan (l : list N)
| BInsert (b : build) (x : N)
| BInsertSmall (b : build)
| BUnion (b1 b2 : build).

Fixpoint eval (b : build) : option aset :=
  match b with
  | BEmpty => Some empty_set
  | BFlag f => Some (of_flag f)
  | BOne x => Some (of_id x)
  | BSpan l => Some (of_span l)
  | BInsert b x => match eval b with None => None | Some s => option_map fst (insert s x) end
  | BInsertSmall b => option_map insert_small (eval b)
  | BUnion b1 b2 => match eval b1, eval b2 with
                    | Some s1, Some s2 => Some (insert_set s1 s2)
                    | _, _ => None
                    end
  end.
