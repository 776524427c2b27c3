(** Model of Koda lists: koladata/internal/data_list.{h,cc} and the list
    functions of koladata/internal/data_bag.{h,cc}. *)
From Coq Require Import NArith ZArith List Bool Arith.
From Verif Require Import ObjectIdModel ItemModel.
Import ListNotations.
Local Open Scope nat_scope.

(** ** std::vector. Positions out of range, undefined behaviour in C++, leave the
    vector unchanged; the functions below only use positions in range when their
    preconditions (the DCHECKs) hold. *)
Fixpoint upd {A} (v : list A) (i : nat) (x : A) : list A :=
  match v, i with
  | [], _ => []
  | _ :: r, O => x :: r
  | a :: r, S i => a :: upd r i x
  end.
Definition vec_erase {A} (v : list A) (a b : nat) : list A := firstn a v ++ skipn b v.
Definition vec_insert {A} (v : list A) (i : nat) (x : A) : list A := firstn i v ++ x :: skipn i v.
Definition vec_resize {A} (d : A) (v : list A) (n : nat) : list A :=
  firstn n v ++ repeat d (n - length v).

(** ** DataList (data_list.h:243-258): size_ and data_ *)
Inductive data :=
  | AllMissing
  | Typed (k : kind) (v : list (option (cval k)))   (* std::vector<std::optional<T>> *)
  | Items (v : list ditem).                         (* std::vector<DataItem> *)
Record datalist := mkList { size_ : nat; data_ : data }.

(** data_list.h:55 DataList(), data_bag.cc:83 kEmptyList *)
Definition empty_list : datalist := mkList 0 AllMissing.

(** std::visit of data_ with code that is the same for all element types *)
Definition visit (fn : forall A : Type, A -> list A -> list A) (d : data) : data :=
  match d with
  | AllMissing => AllMissing
  | Typed k v => Typed k (fn (option (cval k)) None v)
  | Items v => Items (fn ditem None v)
  end.

(** data_list.cc:101-112 Get *)
Definition dl_get (l : datalist) (i : nat) : ditem :=
  match data_ l with
  | AllMissing => None
  | Typed k v => item_of_opt k (nth i v None)
  | Items v => nth i v None
  end.

(** data_list.cc:114-122 SetToMissing *)
Definition set_to_missing (l : datalist) (i : nat) : datalist :=
  mkList (size_ l) (visit (fun A d v => upd v i d) (data_ l)).

(** data_list.cc:124-136 SetMissingRange *)
Definition set_missing_range (l : datalist) (from to : nat) : datalist :=
  mkList (size_ l)
    (visit (fun A d v => fold_left (fun v i => upd v i d) (seq from (to - from)) v) (data_ l)).

(** data_list.cc:138-148 Remove *)
Definition remove (l : datalist) (from count : nat) : datalist :=
  mkList (size_ l - count) (visit (fun A d v => vec_erase v from (from + count)) (data_ l)).

(** data_list.cc:150-167 InsertMissing *)
Definition insert_missing (l : datalist) (from count : nat) : datalist :=
  mkList (size_ l + count)
    (visit (fun A d v =>
       let v := vec_resize d v (size_ l + count) in
       let v := fold_left (fun v i => upd v (i + count) (nth i v d))
                  (rev (seq from (size_ l - from))) v in
       fold_left (fun v i => upd v i d) (seq from count) v) (data_ l)).

(** data_list.cc:169-178 Resize *)
Definition resize (l : datalist) (n : nat) : datalist :=
  mkList n (visit (fun A d v => vec_resize d v n) (data_ l)).

(** data_list.cc:180-192 ConvertToDataItems *)
Definition convert_to_items (l : datalist) : list ditem :=
  let new_data := repeat None (size_ l) in
  match data_ l with
  | AllMissing => new_data
  | Typed k v => fold_left (fun w i => upd w i (item_of_opt k (nth i v None))) (seq 0 (size_ l)) new_data
  | Items v => fold_left (fun w i => upd w i (nth i v None)) (seq 0 (size_ l)) new_data
  end.

(** data_list.h:215-241 ApplyDataItemOrT<T>: [fn] for a vector of optional T, [fi]
    for a vector of DataItems *)
Definition apply_item_or (k : kind)
    (fn : list (option (cval k)) -> list (option (cval k))) (fi : list ditem -> list ditem)
    (l : datalist) : datalist :=
  let as_items :=
    let v := fi (match data_ l with Items v => v | _ => convert_to_items l end) in
    mkList (length v) (Items v) in
  let fresh := let v := fn (repeat None (size_ l)) in mkList (length v) (Typed k v) in
  if size_ l =? 0 then fresh
  else match data_ l with
       | AllMissing => fresh
       | Typed k' v =>
           match kind_eq_dec k' k with
           | left e => let v := fn (eq_rect k' (fun k => list (option (cval k))) v k e) in
                       mkList (length v) (Typed k v)
           | right _ => as_items
           end
       | Items _ => as_items
       end.

(** data_list.h:108-124 Set of a T or an optional T *)
Definition set_typed (k : kind) (l : datalist) (i : nat) (x : option (cval k)) : datalist :=
  apply_item_or k (fun v => upd v i x) (fun v => upd v i (item_of_opt k x)) l.

(** data_list.h:126-135 Set of a DataItem *)
Definition set_item (l : datalist) (i : nat) (x : ditem) : datalist :=
  match data_ l with
  | Items v => mkList (size_ l) (Items (upd v i x))
  | _ => match x with
         | None => set_to_missing l i
         | Some (existT _ k v) => set_typed k l i (Some v)
         end
  end.

(** data_list.h:138-153 SetN *)
Definition set_n (k : kind) (l : datalist) (start : nat) (xs : list (option (cval k))) : datalist :=
  apply_item_or k
    (fun v => fold_left (fun v '(i, x) => upd v (start + i) x) (combine (seq 0 (length xs)) xs) v)
    (fun v => fold_left (fun v '(i, x) => upd v (start + i) (item_of_opt k x)) (combine (seq 0 (length xs)) xs) v)
    l.

(** data_list.h:163-179 Insert of a T or an optional T *)
Definition insert_typed (k : kind) (l : datalist) (i : nat) (x : option (cval k)) : datalist :=
  apply_item_or k (fun v => vec_insert v i x) (fun v => vec_insert v i (item_of_opt k x)) l.

(** data_list.h:181-192 Insert of a DataItem *)
Definition insert_item (l : datalist) (i : nat) (x : ditem) : datalist :=
  match data_ l with
  | Items v => let v := vec_insert v i x in mkList (length v) (Items v)
  | _ => match x with
         | None => insert_missing l i 1
         | Some (existT _ k v) => insert_typed k l i (Some v)
         end
  end.

(** ** SliceBuilder, as far as lists use it (slice_builder.h:68-75, 100-114,
    383-431): which positions are set, and to what. *)
Definition builder := list (option ditem).
Definition new_builder (n : nat) : builder := repeat None n.
Definition insert_if_not_set (b : builder) (i : nat) (x : ditem) : builder :=
  match nth i b None with Some _ => b | None => upd b i (Some x) end.
Definition build (b : builder) : list ditem :=
  map (fun o => match o with Some x => x | None => None end) b.

(** data_list.cc:68-99 AddToDataSlice *)
Definition add_to_slice (b : builder) (offset : nat) (from to : nat) (l : datalist) : builder :=
  match data_ l with
  | AllMissing => b
  | Typed k v =>
      fold_left (fun b i => insert_if_not_set b (offset + (i - from)) (item_of_opt k (nth i v None)))
        (seq from (to - from)) b
  | Items v =>
      fold_left (fun b i => insert_if_not_set b (offset + (i - from)) (nth i v None))
        (seq from (to - from)) b
  end.

(** ** DataSliceImpl (data_slice.h:120-260): a size and an array for each type
    that occurs *)
Record slice := mkSlice {
  sl_size : nat;
  sl_values : list {k : kind & list (option (cval k))}
}.
Definition array_item (i : nat) (a : {k : kind & list (option (cval k))}) : ditem :=
  let 'existT _ k v := a in item_of_opt k (nth i v None).
(** data_slice.cc operator[]: the value in the array that has one *)
Definition slice_at (s : slice) (i : nat) : ditem :=
  fold_right (fun a r => match array_item i a with Some x => Some x | None => r end) None (sl_values s).
Definition slice_items (s : slice) : list ditem := map (slice_at s) (seq 0 (sl_size s)).
(** data_slice.h:136-142 *)
Definition is_single_dtype (s : slice) : bool := length (sl_values s) =? 1.

(** data_list.cc:38-66 DataList of a part of a slice. A mixed slice has more than
    one array (data_slice.h:144-150). *)
Definition of_slice (s : slice) (from to : nat) : datalist :=
  let size := to - from in
  match sl_values s with
  | [] => mkList size AllMissing
  | [existT _ k v] => mkList size (Typed k (map (fun i => nth (from + i) v None) (seq 0 size)))
  | _ => mkList size (Items (map (fun i => slice_at s (from + i)) (seq 0 size)))
  end.

(** ** ListRange (data_bag.h:325-360) *)
Definition kUnspecifiedTo : Z := 2 ^ 63 - 1.
Record list_range := mkRange { from_ : Z; to_ : Z }.
Definition range_opt (from : Z) (to : option Z) : list_range :=
  mkRange from (match to with Some t => t | None => kUnspecifiedTo end).
Definition clamp (x lo hi : Z) : Z := if (x <? lo)%Z then lo else if (hi <? x)%Z then hi else x.
Definition calculate_from (r : list_range) (n : Z) : Z :=
  if (from_ r =? 0)%Z then 0%Z
  else clamp (if (from_ r <? 0)%Z then from_ r + n else from_ r) 0 n.
Definition calculate_to (r : list_range) (n : Z) : Z :=
  if (to_ r =? kUnspecifiedTo)%Z then n
  else clamp (if (to_ r <? 0)%Z then to_ r + n else to_ r) 0 n.
Definition calculate (r : list_range) (n : nat) : Z * Z :=
  (calculate_from r (Z.of_nat n), calculate_to r (Z.of_nat n)).

(** data_bag.cc:1938-1943 and alike: a negative index counts from the end; out of
    range is nothing *)
Definition norm_index (i : Z) (n : nat) : option nat :=
  let i := if (i <? 0)%Z then (i + Z.of_nat n)%Z else i in
  if (0 <=? i)%Z && (i <? Z.of_nat n)%Z then Some (Z.to_nat i) else None.

(** ** The operations on one DataList *)
(** data_bag.cc:1938-1944 GetFromList *)
Definition get_from_list (l : datalist) (i : Z) : ditem :=
  match norm_index i (size_ l) with Some i => dl_get l i | None => None end.
(** data_bag.cc:1957-1965 PopFromList *)
Definition pop_from_list (l : datalist) (i : Z) : ditem * datalist :=
  match norm_index i (size_ l) with
  | Some i => (dl_get l i, remove l i 1)
  | None => (None, l)
  end.
(** data_bag.cc:1975-1981 ExplodeList *)
Definition explode_list (l : datalist) (r : list_range) : list ditem :=
  let '(from, to) := calculate r (size_ l) in
  if (to <=? from)%Z then []
  else build (add_to_slice (new_builder (Z.to_nat (to - from))) 0 (Z.to_nat from) (Z.to_nat to) l).
(** data_bag.cc:1994-2000 SetInList *)
Definition set_in_list (l : datalist) (i : Z) (x : ditem) : datalist :=
  match norm_index i (size_ l) with Some i => set_item l i x | None => l end.
(** data_bag.cc:2012 AppendToList *)
Definition append_to_list (l : datalist) (x : ditem) : datalist := insert_item l (size_ l) x.
(** data_bag.cc:2030-2041 ExtendList *)
Definition extend_list (l : datalist) (vs : slice) : datalist :=
  if sl_size vs =? 0 then l
  else
    let offset := size_ l in
    let l := resize l (offset + sl_size vs) in
    fold_left (fun l (a : {k : kind & list (option (cval k))}) =>
      let 'existT _ k v := a in
      fold_left (fun l (ix : nat * option (cval k)) =>
        match snd ix with Some x => set_typed k l (offset + fst ix) (Some x) | None => l end)
        (combine (seq 0 (length v)) v) l)
      (sl_values vs) l.
(** data_bag.cc:2070-2084 RemoveAndReserveInList *)
Definition remove_and_reserve (l : datalist) (r : list_range) (count : nat) : nat * datalist :=
  let '(from, to) := calculate r (size_ l) in
  if (from <=? to)%Z then
    let size_delta := (Z.of_nat count - (to - from))%Z in
    (Z.to_nat from,
     if (size_delta <? 0)%Z then remove l (Z.to_nat (to + size_delta)) (Z.to_nat (- size_delta))
     else if (0 <? size_delta)%Z then insert_missing l (Z.to_nat to) (Z.to_nat size_delta)
     else l)
  else (Z.to_nat from, insert_missing l (Z.to_nat from) count).
(** data_bag.cc:2054-2067 ReplaceInList *)
Definition replace_in_list (l : datalist) (r : list_range) (vs : slice) : datalist :=
  let '(from, l) := remove_and_reserve l r (sl_size vs) in
  if negb (is_single_dtype vs)
  then fold_left (fun l i => set_item l (from + i) (slice_at vs i)) (seq 0 (sl_size vs)) l
  else
    fold_left (fun l (a : {k : kind & list (option (cval k))}) =>
      let 'existT _ k v := a in
      fold_left (fun l (ix : nat * option (cval k)) => set_typed k l (from + fst ix) (snd ix))
        (combine (seq 0 (length v)) v) l)
      (sl_values vs) l.
(** data_bag.cc:2095-2099 RemoveInList *)
Definition remove_range (l : datalist) (r : list_range) : datalist :=
  let '(from, to) := calculate r (size_ l) in
  if (from <? to)%Z then remove l (Z.to_nat from) (Z.to_nat (to - from)) else l.
(** data_bag.cc:1830-1835 RemoveInList of an index *)
Definition remove_index (l : datalist) (i : Z) : datalist :=
  match norm_index i (size_ l) with Some i => remove l i 1 | None => l end.

(** ** The batch operations. The lists of a bag: unset or set. The getters
    (data_bag.cc:1289-1347) also remember the vector of the last allocation,
    which is not modelled here; an id that is not that of a list is skipped and
    makes the operation return an error in the end. *)
Definition store := ObjectId -> option datalist.
Definition st_get (s : store) (id : ObjectId) : datalist :=
  match s id with Some l => l | None => empty_list end.
Definition st_set (s : store) (id : ObjectId) (l : datalist) : store :=
  fun j => if oid_eqb j id then Some l else s j.

(** ForEachPresent over [lists] with a MutableListGetter; the result and whether
    the status is an error *)
Definition for_each_list {R} (f : nat -> datalist -> R * datalist)
    (lists : list (option ObjectId)) (s : store) : list (nat * R) * store * bool :=
  fold_left (fun '(out, s, err) '(offset, id) =>
    match id with
    | None => (out, s, err)
    | Some id =>
        if is_list id
        then let '(r, l) := f offset (st_get s id) in (out ++ [(offset, r)], st_set s id l, err)
        else (out, s, true)
    end)
    (combine (seq 0 (length lists)) lists) ([], s, false).
Definition for_each_list_ (f : nat -> datalist -> datalist) lists s : store * bool :=
  let '(_, s, err) := for_each_list (fun i l => (tt, f i l)) lists s in (s, err).

(** DenseArraysForEachPresent: only where the index is present as well; an error
    when the sizes differ *)
Definition with_index (lists : list (option ObjectId)) (indices : list (option Z)) : list (option ObjectId) :=
  map (fun '(id, i) => match i with Some _ => id | None => None end) (combine lists indices).
Definition index_at (indices : list (option Z)) (i : nat) : Z :=
  match nth i indices None with Some z => z | None => 0%Z end.

(** data_bag.cc:1544-1564 PopFromLists *)
Definition pop_from_lists lists indices (s : store) : list ditem * store * bool :=
  if negb (length lists =? length indices) then ([], s, true) else
  let '(out, s, err) :=
    for_each_list (fun i l => pop_from_list l (index_at indices i)) (with_index lists indices) s in
  (build (fold_left (fun b '(i, x) => insert_if_not_set b i x) out (new_builder (length lists))), s, err).
(** data_bag.cc:1750-1807 SetInLists: values of a single type are set or made
    missing one by one, others as DataItems *)
Definition set_in_lists lists indices (vs : slice) (s : store) : store * bool :=
  if negb (length lists =? sl_size vs) || negb (length lists =? length indices) then (s, true) else
  for_each_list_ (fun i l =>
    match norm_index (index_at indices i) (size_ l) with
    | None => l
    | Some pos =>
        match sl_values vs with
        | [existT _ k v] =>
            match nth i v None with Some x => set_typed k l pos (Some x) | None => set_to_missing l pos end
        | _ => set_item l pos (slice_at vs i)
        end
    end) (with_index lists indices) s.
(** data_bag.cc:1812-1841 RemoveInList of indices *)
Definition remove_in_lists lists indices (s : store) : store * bool :=
  if negb (length lists =? length indices) then (s, true) else
  for_each_list_ (fun i l => remove_index l (index_at indices i)) (with_index lists indices) s.
(** data_bag.cc:1846-1889 AppendToList *)
Definition append_to_lists lists (vs : slice) (s : store) : store * bool :=
  if negb (length lists =? sl_size vs) then (s, true) else
  for_each_list_ (fun i l =>
    match sl_values vs with
    | [existT _ k v] => insert_typed k l (size_ l) (nth i v None)
    | _ => insert_item l (size_ l) (slice_at vs i)
    end) lists s.
(** data_bag.cc:1902-1918 RemoveInList of a range *)
Definition remove_range_in_lists lists (r : list_range) (s : store) : store * bool :=
  for_each_list_ (fun _ l => remove_range l r) lists s.
(** data_bag.cc:1653-1676 ExtendLists; [splits]: the split points of the edge *)
Definition extend_lists lists (vs : slice) (splits : list nat) (s : store) : store * bool :=
  for_each_list_ (fun i l =>
    let src := nth i splits 0 in
    let dst := size_ l in
    let count := nth (i + 1) splits 0 - src in
    let l := resize l (size_ l + count) in
    fold_left (fun l (a : {k : kind & list (option (cval k))}) =>
      let 'existT _ k v := a in
      fold_left (fun l offset =>
        match nth (src + offset) v None with Some x => set_typed k l (dst + offset) (Some x) | None => l end)
        (seq 0 count) l)
      (sl_values vs) l) lists s.
(** data_bag.cc:1695-1744 ReplaceInLists *)
Definition replace_in_lists lists (r : list_range) (vs : slice) (splits : list nat) (s : store) : store * bool :=
  for_each_list_ (fun i l =>
    let src := nth i splits 0 in
    let count := nth (i + 1) splits 0 - src in
    let '(dst, l) := remove_and_reserve l r count in
    match sl_values vs with
    | [existT _ k v] => set_n k l dst (firstn count (skipn src v))
    | _ =>
        if forallb (fun x => match x with None => true | Some _ => false end) (slice_items vs)
        then set_missing_range l dst (dst + count)
        else fold_left (fun l offset => set_item l (dst + offset) (slice_at vs (src + offset)))
               (seq 0 count) l
    end) lists s.

(** Reading. Fallback bags are in C17: here the list found, unset is empty.
    data_bag.cc:1487-1532 GetFromLists *)
Definition get_from_lists lists indices (s : store) : list ditem * bool :=
  if negb (length lists =? length indices) then ([], true) else
  let '(b, err) :=
    fold_left (fun '(b, err) '(offset, id) =>
      match id with
      | None => (b, err)
      | Some id =>
          if is_list id
          then match s id with
               | None => (b, err)
               | Some l =>
                   match norm_index (index_at indices offset) (size_ l) with
                   | Some i => (insert_if_not_set b offset (dl_get l i), err)
                   | None => (b, err)
                   end
               end
          else (b, true)
      end) (combine (seq 0 (length lists)) (with_index lists indices)) (new_builder (length lists), false) in
  (build b, err).
(** data_bag.cc:1580-1636 ExplodeLists: items and split points *)
Definition explode_lists lists (r : list_range) (s : store) : list ditem * list nat * bool :=
  let '(ptrs, splits, cum, err) :=
    fold_left (fun '(ptrs, splits, cum, err) id =>
      match id with
      | None => (ptrs ++ [None], splits ++ [cum], cum, err)
      | Some id =>
          if is_list id
          then match s id with
               | None => (ptrs ++ [None], splits ++ [cum], cum, err)
               | Some l =>
                   let '(from, to) := calculate r (size_ l) in
                   let cum := cum + Z.to_nat (Z.max 0 (to - from)) in
                   (ptrs ++ [Some l], splits ++ [cum], cum, err)
               end
          else (ptrs ++ [None], splits ++ [cum], cum, true)
      end) lists ([], [0], 0, false) in
  let b :=
    fold_left (fun b '(i, p) =>
      match p with
      | None => b
      | Some l =>
          let '(from, to) := calculate r (size_ l) in
          if (from <? to)%Z then add_to_slice b (nth i splits 0) (Z.to_nat from) (Z.to_nat to) l else b
      end) (combine (seq 0 (length ptrs)) ptrs) (new_builder cum) in
  (build b, splits, err).
(** data_bag.cc:1448-1485 GetListSize *)
Definition get_list_sizes lists (zero_for_unset : bool) (s : store) : list (option nat) * bool :=
  (map (fun id =>
     match id with
     | None => None
     | Some id =>
         match (if is_list id then s id else None) with
         | Some l => Some (size_ l)
         | None => if zero_for_unset then Some 0 else None
         end
     end) lists,
   existsb (fun id => match id with Some id => negb (is_list id) | None => false end) lists).

(** ** A history of list operations on a bag; the flag: an error is returned *)
Inductive list_op :=
  | OpSet1 (id : ObjectId) (i : Z) (x : ditem)
  | OpAppend1 (id : ObjectId) (x : ditem)
  | OpPop1 (id : ObjectId) (i : Z)
  | OpExtend1 (id : ObjectId) (vs : slice)
  | OpReplace1 (id : ObjectId) (from : Z) (to : option Z) (vs : slice)
  | OpRemove1 (id : ObjectId) (from : Z) (to : option Z)
  | OpSet (lists : list (option ObjectId)) (indices : list (option Z)) (vs : slice)
  | OpAppend (lists : list (option ObjectId)) (vs : slice)
  | OpPop (lists : list (option ObjectId)) (indices : list (option Z))
  | OpRemoveIndex (lists : list (option ObjectId)) (indices : list (option Z))
  | OpRemove (lists : list (option ObjectId)) (from : Z) (to : option Z)
  | OpExtend (lists : list (option ObjectId)) (vs : slice) (splits : list nat)
  | OpReplace (lists : list (option ObjectId)) (from : Z) (to : option Z) (vs : slice) (splits : list nat).

(** data_bag.cc:1947-2100 the functions for one list: ItemToListObjectId
    (data_bag.cc:147-155), then GetMutable *)
Definition single (f : datalist -> datalist) (id : ObjectId) (s : store) : store * bool :=
  if is_list id then (st_set s id (f (st_get s id)), false) else (s, true).

Definition list_step (s : store) (o : list_op) : store * bool :=
  match o with
  | OpSet1 id i x => single (fun l => set_in_list l i x) id s
  | OpAppend1 id x => single (fun l => append_to_list l x) id s
  | OpPop1 id i => single (fun l => snd (pop_from_list l i)) id s
  | OpExtend1 id vs => single (fun l => extend_list l vs) id s
  | OpReplace1 id from to vs => single (fun l => replace_in_list l (range_opt from to) vs) id s
  | OpRemove1 id from to => single (fun l => remove_range l (range_opt from to)) id s
  | OpSet lists indices vs => set_in_lists lists indices vs s
  | OpAppend lists vs => append_to_lists lists vs s
  | OpPop lists indices => let '(_, s, err) := pop_from_lists lists indices s in (s, err)
  | OpRemoveIndex lists indices => remove_in_lists lists indices s
  | OpRemove lists from to => remove_range_in_lists lists (range_opt from to) s
  | OpExtend lists vs splits => extend_lists lists vs splits s
  | OpReplace lists from to vs splits => replace_in_lists lists (range_opt from to) vs splits s
  end.
Definition list_run (ops : list list_op) (s : store) : store :=
  fold_left (fun s o => fst (list_step s o)) ops s.

(** ** A history of operations of one DataList *)
Inductive dl_op :=
  | DSet (i : nat) (x : ditem)
  | DSetMissing (i : nat)
  | DSetMissingRange (from to : nat)
  | DSetN (k : kind) (start : nat) (xs : list (option (cval k)))
  | DInsert (i : nat) (x : ditem)
  | DInsertMissing (from count : nat)
  | DRemove (from count : nat)
  | DResize (n : nat)
  | DAssign (s : slice) (from to : nat).
Definition dl_step (l : datalist) (o : dl_op) : datalist :=
  match o with
  | DSet i x => set_item l i x
  | DSetMissing i => set_to_missing l i
  | DSetMissingRange from to => set_missing_range l from to
  | DSetN k start xs => set_n k l start xs
  | DInsert i x => insert_item l i x
  | DInsertMissing from count => insert_missing l from count
  | DRemove from count => remove l from count
  | DResize n => resize l n
  | DAssign s from to => of_slice s from to
  end.
Definition dl_run (ops : list dl_op) : datalist := fold_left dl_step ops empty_list.
