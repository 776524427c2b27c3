(** What a history of list operations should do, in terms of plain sequences
    (C10, C11). *)
From Coq Require Import NArith ZArith List Bool Arith.
From Verif Require Import ObjectIdModel ItemModel DataListModel DataListSpec.
Import ListNotations.
Local Open Scope nat_scope.

(** The items a DataList stands for, whatever its representation *)
Definition contents (l : datalist) : list ditem :=
  match data_ l with
  | AllMissing => repeat None (size_ l)
  | Typed k v => map (item_of_opt k) v
  | Items v => v
  end.

(** Every array has the size of the slice, and at most one has a value at a given
    position. *)
Definition slice_wf (s : slice) : Prop :=
  Forall (fun a => length (projT2 a) = sl_size s) (sl_values s) /\
  forall i, i < sl_size s ->
    forall pre a post, sl_values s = pre ++ a :: post -> array_item i a <> None ->
    Forall (fun a' => array_item i a' = None) (pre ++ post).

(** Some present id is not that of a list *)
Definition has_non_list (lists : list (option ObjectId)) : bool :=
  existsb (fun id => match id with Some id => negb (is_list id) | None => false end) lists.

(** Which operations are well-formed: the slices are slices; the split points of
    the edge go up and stay in the values; [to] is not the reserved number. *)
Definition splits_ok (splits : list nat) (n total : nat) : Prop :=
  forall i, i < n -> nth i splits 0 <= nth (S i) splits 0 /\ nth (S i) splits 0 <= total.
Definition to_ok (to : option Z) : Prop := to <> Some kUnspecifiedTo.

(** The effect of each operation on the sequences, and whether an error is
    returned. Sequences of the same operation on several lists are applied in the
    order of the batch. *)
Definition op_ok (o : list_op) : Prop :=
  match o with
  | OpSet1 _ _ _ | OpAppend1 _ _ | OpPop1 _ _ | OpPop _ _ | OpRemoveIndex _ _ => True
  | OpExtend1 _ vs | OpSet _ _ vs | OpAppend _ vs => slice_wf vs
  | OpReplace1 _ _ to vs => to_ok to /\ slice_wf vs
  | OpRemove1 _ _ to | OpRemove _ _ to => to_ok to
  | OpExtend lists vs splits => slice_wf vs /\ splits_ok splits (length lists) (sl_size vs)
  | OpReplace lists _ to vs splits => to_ok to /\ slice_wf vs /\ splits_ok splits (length lists) (sl_size vs)
  end.

Definition on1 (id : ObjectId) (f : list ditem -> list ditem) (p : lists_spec) : lists_spec * bool :=
  if is_list id then (assign p id (f (seq_of p id)), false) else (p, true).
Definition spec_step (p : lists_spec) (o : list_op) : lists_spec * bool :=
  match o with
  | OpSet1 id i x => on1 id (put_at i x) p
  | OpAppend1 id x => on1 id (fun l => l ++ [x]) p
  | OpPop1 id i => on1 id (drop_at i) p
  | OpExtend1 id vs => on1 id (fun l => l ++ slice_items vs) p
  | OpReplace1 id from to vs => on1 id (py_assign (Some from) to (slice_items vs)) p
  | OpRemove1 id from to => on1 id (py_delete (Some from) to) p
  | OpSet lists indices vs =>
      if (length lists =? sl_size vs) && (length lists =? length indices)
      then (each (fun i => put_at (idx indices i) (slice_at vs i)) 0 (where_index lists indices) p,
            has_non_list (where_index lists indices))
      else (p, true)
  | OpAppend lists vs =>
      if length lists =? sl_size vs
      then (each (fun i l => l ++ [slice_at vs i]) 0 lists p, has_non_list lists)
      else (p, true)
  | OpPop lists indices | OpRemoveIndex lists indices =>
      if length lists =? length indices
      then (each (fun i => drop_at (idx indices i)) 0 (where_index lists indices) p,
            has_non_list (where_index lists indices))
      else (p, true)
  | OpRemove lists from to => (each (fun _ => py_delete (Some from) to) 0 lists p, has_non_list lists)
  | OpExtend lists vs splits =>
      (each (fun i l => l ++ part splits i (slice_items vs)) 0 lists p, has_non_list lists)
  | OpReplace lists from to vs splits =>
      (each (fun i => py_assign (Some from) to (part splits i (slice_items vs))) 0 lists p, has_non_list lists)
  end.
Definition spec_run (ops : list list_op) (p : lists_spec) : lists_spec :=
  fold_left (fun p o => fst (spec_step p o)) ops p.

(** The items a batch of pops returns *)
Fixpoint popped (offset : nat) (lists : list (option ObjectId)) (indices : list (option Z)) (s : lists_spec) : list ditem :=
  match lists with
  | [] => []
  | None :: r => None :: popped (S offset) r indices s
  | Some id :: r =>
      if is_list id
      then item_at (idx indices offset) (seq_of s id) ::
           popped (S offset) r indices (assign s id (drop_at (idx indices offset) (seq_of s id)))
      else None :: popped (S offset) r indices s
  end.


(** ** One DataList: the conditions its callers must meet (the DCHECKs), and what
    each operation does to the sequence *)
Definition dl_ok (l : list ditem) (o : dl_op) : Prop :=
  match o with
  | DSet i _ | DSetMissing i => i < length l
  | DSetMissingRange from to => from <= to <= length l
  | DSetN k start xs => start + length xs <= length l
  | DInsert i _ => i <= length l
  | DInsertMissing from count => 0 < count /\ from <= length l
  | DRemove from count => 0 < count /\ from + count <= length l
  | DResize n => True
  | DAssign s from to => slice_wf s /\ from <= to <= sl_size s
  end.
Definition dl_spec (l : list ditem) (o : dl_op) : list ditem :=
  match o with
  | DSet i x => firstn i l ++ x :: skipn (S i) l
  | DSetMissing i => firstn i l ++ None :: skipn (S i) l
  | DSetMissingRange from to => firstn from l ++ repeat None (to - from) ++ skipn to l
  | DSetN k start xs => firstn start l ++ map (item_of_opt k) xs ++ skipn (start + length xs) l
  | DInsert i x => firstn i l ++ x :: skipn i l
  | DInsertMissing from count => firstn from l ++ repeat None count ++ skipn from l
  | DRemove from count => firstn from l ++ skipn (from + count) l
  | DResize n => firstn n l ++ repeat None (n - length l)
  | DAssign s from to => firstn (to - from) (skipn from (slice_items s))
  end.
Fixpoint dl_all_ok (l : list ditem) (ops : list dl_op) : Prop :=
  match ops with [] => True | o :: r => dl_ok l o /\ dl_all_ok (dl_spec l o) r end.

(** A new bag *)
Definition no_lists : store := fun _ => None.
Definition no_seqs : lists_spec := fun _ => None.

(** The ids an operation can write *)
Definition names (o : list_op) : list (option ObjectId) :=
  match o with
  | OpSet1 id _ _ | OpAppend1 id _ | OpPop1 id _ | OpExtend1 id _ | OpReplace1 id _ _ _ | OpRemove1 id _ _ => [Some id]
  | OpSet lists _ _ | OpAppend lists _ | OpPop lists _ | OpRemoveIndex lists _ | OpRemove lists _ _
  | OpExtend lists _ _ | OpReplace lists _ _ _ _ => lists
  end.
Definition named (j : ObjectId) (l : list (option ObjectId)) : bool :=
  existsb (fun o => match o with Some id => oid_eqb j id | None => false end) l.

(** The slice of the list [id] (nothing for missing ids and ids not of lists) *)
Definition slice_of (from : Z) (to : option Z) (p : lists_spec) (id : option ObjectId) : list ditem :=
  match id with
  | Some id => if is_list id then py_slice (Some from) to (seq_of p id) else []
  | None => []
  end.
