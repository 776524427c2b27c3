(** Grouping and removing duplicates: GroupByIndices and Unique of
    koladata/operators/slices.cc.

    The items of the last dimension are the rows of a slice: [begin, end) of
    split_points_ is a row. Values are elements of an arbitrary type with the equality of
    the hash maps (not reflexive: NaN) and the order of std::sort. std::sort is modelled by
    insertion sort; what is sorted is distinct. *)
From Coq Require Import List Bool Arith.
From Verif Require Import SliceOpsModel.
Import ListNotations.
Local Open Scope nat_scope.
Local Open Scope list_scope.

Section Group.
Variable T : Type.
Variables eqb ltb : T -> T -> bool.

(** ** Groups *)

(** The key of the hash map of slices.cc:299-304, 469-478: the group so far and the value *)
Definition key := (nat * T)%type.
Definition key_eqb (a b : key) : bool := (fst a =? fst b) && eqb (snd a) (snd b).
(** std::pair < *)
Definition key_ltb (a b : key) : bool := (fst a <? fst b) || ((fst a =? fst b) && ltb (snd a) (snd b)).
Fixpoint find_key (k : key) (m : list (key * nat)) : option nat :=
  match m with
  | [] => None
  | (k', id) :: m => if key_eqb k' k then Some id else find_key k m
  end.

(** slices.cc:496-509: the row of group ids (None: kUndefinedGroup) and values; returns the
    new ids, the keys in the order of their ids, and the next id *)
Fixpoint process_row (row : list (option nat * option T)) (m : list (key * nat)) (new : nat)
  : list (option nat) * list key * nat :=
  match row with
  | [] => ([], [], new)
  | (Some g, Some v) :: row =>
      match find_key (g, v) m with
      | Some id => let '(ids, ks, new') := process_row row m new in (Some id :: ids, ks, new')
      | None => let '(ids, ks, new') := process_row row (((g, v), new) :: m) (S new) in
                (Some new :: ids, (g, v) :: ks, new')
      end
  | _ :: row => let '(ids, ks, new') := process_row row m new in (None :: ids, ks, new')
  end.

(** std::sort *)
Section Sort.
Variables (A : Type) (lt : A -> A -> bool).
Fixpoint insert_sorted (x : A) (l : list A) : list A :=
  match l with
  | [] => [x]
  | y :: l' => if lt y x then y :: insert_sorted x l' else x :: l
  end.
Definition sort_list (l : list A) : list A := fold_right insert_sorted [] l.
End Sort.
Fixpoint index_of (x : nat) (l : list nat) : option nat :=
  match l with
  | [] => None
  | y :: l => if x =? y then Some 0 else option_map S (index_of x l)
  end.
(** slices.cc:425-459 AddUnique and Sort: the ids of a row are renumbered in the order of their keys *)
Definition sorted_index (ks : list key) : list nat :=
  map fst (sort_list (nat * key) (fun a b => key_ltb (snd a) (snd b)) (combine (seq 0 (length ks)) ks)).
Definition renumber (start : nat) (order : list nat) (id : option nat) : option nat :=
  match id with
  | None => None
  | Some g => option_map (fun k => k + start) (index_of (g - start) order)
  end.
Definition sort_ids (sort : bool) (start : nat) (ks : list key) (ids : list (option nat)) : list (option nat) :=
  if sort then map (renumber start (sorted_index ks)) ids else ids.

(** slices.cc:468-513 ProcessArray: the hash map is emptied for each row, the ids go on *)
Fixpoint process_array (sort : bool) (rows : list (list (option nat * option T))) (new : nat)
  : list (list (option nat)) :=
  match rows with
  | [] => []
  | row :: rows =>
      let '(ids, ks, new') := process_row row [] new in
      sort_ids sort new ks ids :: process_array sort rows new'
  end.

(** What GroupByIndices gets: the shape (the sizes of each dimension), the kind of the slice
    and its items *)
Inductive dtype := Nothing | Mixed | Single (sortable : bool).
Record key_slice := mkKey { k_shape : list edge; k_dtype : dtype; k_items : list (option T) }.

(** slices.cc:317-328 ProcessGroupKey *)
Definition process_key (sort : bool) (e : edge) (k : key_slice) (ids : list (list (option nat)))
  : list (list (option nat)) :=
  match k_dtype k with
  | Nothing => map (map (fun _ => None)) ids
  | _ => process_array sort (map (fun p => combine (fst p) (snd p)) (combine ids (chunks e (k_items k)))) 0
  end.

(** ** The result *)
Definition upd {A} (f : nat -> A) (i : nat) (x : A) : nat -> A := fun j => if j =? i then x else f j.
Record counting := mkCounting { c_count : nat -> nat; c_local : nat; c_start : nat; c_end : nat }.
(** slices.cc:361-373: counts the items of the groups of a row *)
Fixpoint count_row (ids : list (option nat)) (c : counting) : counting :=
  match ids with
  | [] => c
  | None :: ids => count_row ids c
  | Some g :: ids =>
      let cnt := c_count c g in
      count_row ids (mkCounting (upd (c_count c) g (S cnt)) (c_local c + (if cnt =? 0 then 1 else 0))
                                (Nat.min (c_start c) g) (Nat.max (c_end c) (S g)))
  end.
(** slices.cc:380-391: [n] groups from [i] on; counts become starting positions *)
Fixpoint start_positions (n i prefix : nat) (count : nat -> nat) (items : list nat) : (nat -> nat) * list nat :=
  match n with
  | O => (count, items)
  | S n =>
      let cnt := count i in
      let prefix' := if cnt =? 0 then prefix else prefix + cnt in
      start_positions n (S i) prefix' (upd count i (prefix' - cnt)) (if cnt =? 0 then items else items ++ [prefix'])
  end.
(** slices.cc:393-400: [pos] is i - begin *)
Fixpoint place_row (ids : list (option nat)) (pos : nat) (count : nat -> nat) (idx : nat -> option nat) (out : nat)
  : (nat -> nat) * (nat -> option nat) * nat :=
  match ids with
  | [] => (count, idx, out)
  | None :: ids => place_row ids (S pos) count idx out
  | Some g :: ids => place_row ids (S pos) (upd count g (S (count g))) (upd idx (count g) (Some pos)) (S out)
  end.

Record final := mkFinal { f_count : nat -> nat; f_out : nat; f_prefix : nat; f_groups : list nat;
                          f_items : list nat; f_idx : nat -> option nat }.
(** slices.cc:353-401: a round of the loop; [size] is group_id_.size() *)
Definition final_row (size : nat) (ids : list (option nat)) (s : final) : final :=
  let c := count_row ids (mkCounting (f_count s) 0 (size + 1) 0) in
  let prefix := f_prefix s + c_local c in
  let groups := f_groups s ++ [prefix] in
  if c_local c =? 0 then mkFinal (c_count c) (f_out s) prefix groups (f_items s) (f_idx s)
  else
    let '(count, items) := start_positions (c_end c - c_start c) (c_start c) (f_out s) (c_count c) (f_items s) in
    let '(count, idx, out) := place_row ids 0 count (f_idx s) (f_out s) in
    mkFinal count out prefix groups items idx.
Definition total_size (rows : list (list (option nat))) : nat :=
  length (filter (fun x => match x with Some _ => true | None => false end) (concat rows)).
(** slices.cc:334-410 CreateFinalDataSlice: the indices and the split points of the groups
    and of the items; an index that is not set is missing *)
Definition create_final (rows : list (list (option nat))) : list (option nat) * list nat * list nat :=
  let s := fold_left (fun s ids => final_row (length (concat rows)) ids s) rows
             (mkFinal (fun _ => 0) 0 0 [0] [0] (fun _ => None)) in
  (map (f_idx s) (seq 0 (total_size rows)), f_groups s, f_items s).

Inductive group_error := ENoKeys | ERank | EShapes | EMixedSort | ENotSortable.
Inductive group_result (A : Type) := GOk (a : A) | GErr (e : group_error).
Arguments GOk {A} a.
Arguments GErr {A} e.

Definition same_shape (a b : list edge) : bool :=
  if list_eq_dec (list_eq_dec Nat.eq_dec) a b then true else false.
(** slices.cc:749-768; IsKodaScalarQTypeSortable (data_item.h:362-367) is true of the dtype of
    an empty slice of unknown type *)
Fixpoint process_keys (sort : bool) (shape : list edge) (e : edge) (ks : list key_slice) (ids : list (list (option nat)))
  : group_result (list (list (option nat))) :=
  match ks with
  | [] => GOk ids
  | k :: ks =>
      if negb (same_shape (k_shape k) shape) then GErr EShapes
      else if sort && match k_dtype k with Mixed => true | _ => false end then GErr EMixedSort
      else if sort && match k_dtype k with Single sortable => negb sortable | _ => false end then GErr ENotSortable
      else process_keys sort shape e ks (process_key sort e k ids)
  end.
(** slices.cc:732-778 GroupByIndices *)
Definition group_by_indices (sort : bool) (ks : list key_slice)
  : group_result (list edge * list nat * list nat * list (option nat)) :=
  match ks with
  | [] => GErr ENoKeys
  | k :: _ =>
      match rev (k_shape k) with
      | [] => GErr ERank
      | e :: parents =>
          match process_keys sort (k_shape k) e ks (map (repeat (Some 0)) e) with
          | GErr er => GErr er
          | GOk ids =>
              let '(indices, groups, items) := create_final ids in
              GOk (rev parents, groups, items, indices)
          end
      end
  end.

(** ** Unique *)
Variable is_nan : T -> bool.

Fixpoint find_value (v : T) (m : list (T * nat)) : option nat :=
  match m with
  | [] => None
  | (w, s) :: m => if eqb w v then Some s else find_value v m
  end.
Fixpoint touch (v : T) (split : nat) (m : list (T * nat)) : list (T * nat) :=
  match m with
  | [] => []
  | (w, s) :: m => if eqb w v then (w, split) :: m else (w, s) :: touch v split m
  end.
(** slices.cc:815-838: returns what is pushed, the map and the NaN *)
Fixpoint unique_row (nan_of : T -> bool) (sort : bool) (split : nat) (row : list (option T)) (m : list (T * nat)) (nan : option T)
  : list T * list (T * nat) * option T :=
  match row with
  | [] => ([], m, nan)
  | None :: row => unique_row nan_of sort split row m nan
  | Some v :: row =>
      if nan_of v then
        match nan with
        | Some _ => unique_row nan_of sort split row m nan
        | None => let '(u, m, nan) := unique_row nan_of sort split row m (Some v) in (if sort then u else v :: u, m, nan)
        end
      else
        match find_value v m with
        | None => let '(u, m, nan) := unique_row nan_of sort split row ((v, split) :: m) nan in (v :: u, m, nan)
        | Some s =>
            if s =? split then unique_row nan_of sort split row m nan
            else let '(u, m, nan) := unique_row nan_of sort split row (touch v split m) nan in (v :: u, m, nan)
        end
  end.
(** slices.cc:810-851: the values of each row *)
Fixpoint unique_rows (nan_of : T -> bool) (sort : bool) (split : nat) (rows : list (list (option T))) (m : list (T * nat)) : list (list T) :=
  match rows with
  | [] => []
  | row :: rows =>
      let '(u, m, nan) := unique_row nan_of sort split row m None in
      (if sort then sort_list T ltb u ++ match nan with Some v => [v] | None => [] end else u)
      :: unique_rows nan_of sort (S split) rows m
  end.
Inductive unique_error := UMixedSort | UNotSortable.
Inductive unique_result := UItem | UOk (shape : list edge) (splits : list nat) (items : list T) | UErr (e : unique_error).
(** slices.cc:780-897 Unique. IsNan (94-106) is false for every DataItem: there is no
    std::numeric_limits of DataItem *)
Definition unique (sort : bool) (x : key_slice) : unique_result :=
  match rev (k_shape x) with
  | [] => UItem
  | e :: parents =>
      if sort && match k_dtype x with Mixed => true | _ => false end then UErr UMixedSort
      else if sort && match k_dtype x with Single sortable => negb sortable | _ => false end then UErr UNotSortable
      else
        let rows := match k_dtype x with
                    | Nothing => map (fun _ => []) e
                    | Mixed => unique_rows (fun _ => false) sort 1 (chunks e (k_items x)) []
                    | Single _ => unique_rows is_nan sort 1 (chunks e (k_items x)) []
                    end in
        UOk (rev parents) (split_points (map (@length T) rows)) (concat rows)
  end.

End Group.
Arguments GOk {A} a.
Arguments GErr {A} e.
Arguments mkKey {T} _ _ _.
Arguments k_shape {T} k.
Arguments k_dtype {T} k.
Arguments k_items {T} k.
Arguments UItem {T}.
Arguments UOk {T} shape splits items.
Arguments UErr {T} e.
