(** Storage of one attribute: koladata/internal/sparse_source.{h,cc},
    dense_source.{h,cc}, types_buffer.h, value_array.h. *)
From Coq Require Import NArith ZArith List Bool Arith.
From Verif Require Import ObjectIdModel SchemaModel ItemModel DictModel.
From Verif Require DataListModel.
Import ListNotations.
Local Open Scope nat_scope.

(** A DataSliceImpl used as an argument (data_slice.h:120-260) *)
Notation slice := DataListModel.slice.
Notation sl_size := DataListModel.sl_size.
Notation sl_values := DataListModel.sl_values.
Notation slice_at := DataListModel.slice_at.

(** ** Comparing values for the purpose of merge conflicts. *)

(** IEEE 754: NaN has all exponent bits set and a non-zero fraction; zero is
    zero up to the sign *)
Definition is_nan32 (b : N) : bool := (2139095040 <? N.land b 2147483647)%N.
Definition is_zero32 (b : N) : bool := (N.land b 2147483647 =? 0)%N.
Definition is_nan64 (b : N) : bool := (9218868437227405312 <? N.land b 9223372036854775807)%N.
Definition is_zero64 (b : N) : bool := (N.land b 9223372036854775807 =? 0)%N.
(** operator== on floating point numbers *)
Definition float_eq (nan zero : N -> bool) (a b : N) : bool :=
  negb (nan a) && negb (nan b) && ((a =? b)%N || (zero a && zero b)).
(** dense_source.cc:79-86 ValuesAreDifferent on one type *)
Definition cval_differ (k : kind) : cval k -> cval k -> bool :=
  match k with
  | KFloat32 => fun a b => negb (float_eq is_nan32 is_zero32 a b || (is_nan32 a && is_nan32 b))
  | KFloat64 => fun a b => negb (float_eq is_nan64 is_zero64 a b || (is_nan64 a && is_nan64 b))
  | k => fun a b => if cval_eq_dec k a b then false else true
  end.

(** The typed value in a DataItem (data_item.h holds_value, value) *)
Definition as_kind (k : kind) (v : value) : option (cval k) :=
  match v with
  | existT _ k' x =>
      match kind_eq_dec k' k with
      | left e => Some (eq_rect k' cval x k e)
      | right _ => None
      end
  end.
(** data_bag.cc:200-202 ValuesAreDifferent on DataItems (NaN of different types are
    the same there: is_nan() of both) *)
Definition is_nan (v : value) : bool :=
  match v with
  | existT _ KFloat32 b => is_nan32 b
  | existT _ KFloat64 b => is_nan64 b
  | _ => false
  end.
Definition item_eq (a b : value) : bool :=
  match a with
  | existT _ k x =>
      match as_kind k b with
      | Some y =>
          match k return cval k -> cval k -> bool with
          | KFloat32 => float_eq is_nan32 is_zero32
          | KFloat64 => float_eq is_nan64 is_zero64
          | k => fun x y => if cval_eq_dec k x y then true else false
          end x y
      | None => false
      end
  end.
Definition differ (a b : ditem) : bool :=
  match a, b with
  | None, None => false
  | Some a, Some b => negb (item_eq a b || (is_nan a && is_nan b))
  | _, _ => true
  end.

(** ** SparseSource. A hash map; each key once. *)
(** object_id.h:114-117 operator== (ObjectIdModel.oid_eqb compares the bits, which
    is the same, ObjectIdProofs.oid_eqb_spec) *)
Definition same_oid (a b : ObjectId) : bool := if oid_eq_dec a b then true else false.
Definition smap := list (ObjectId * ditem).
Fixpoint s_find (m : smap) (o : ObjectId) : option ditem :=
  match m with
  | [] => None
  | (o', v) :: r => if same_oid o' o then Some v else s_find r o
  end.
Fixpoint s_set (m : smap) (o : ObjectId) (v : ditem) : smap :=
  match m with
  | [] => [(o, v)]
  | (o', v') :: r => if same_oid o' o then (o', v) :: r else (o', v') :: s_set r o v
  end.
(** [sp_alloc]: nullopt means: for objects of small allocations
    (sparse_source.h:91-94) *)
Record sparse := mkSparse { sp_alloc : option ObjectId; sp_map : smap }.
(** sparse_source.h:86-89 ObjectBelongs *)
Definition belongs (s : sparse) (o : ObjectId) : bool :=
  match sp_alloc s with Some a => contains a o | None => is_small_alloc o end.
(** sparse_source.cc:41-47 Get *)
Definition sparse_get (s : sparse) (o : ObjectId) : option ditem := s_find (sp_map s) o.
(** sparse_source.cc:100-104 Set *)
Definition sparse_set (s : sparse) (o : ObjectId) (v : ditem) : sparse :=
  if belongs s o then mkSparse (sp_alloc s) (s_set (sp_map s) o v) else s.
(** sparse_source.cc:106-118 Set of many; None: size mismatch *)
Definition present_at (objs : list (option ObjectId)) : list (nat * ObjectId) :=
  flat_map (fun '(i, o) => match o with Some o => [(i, o)] | None => [] end)
    (combine (seq 0 (length objs)) objs).
Definition sparse_set_all (s : sparse) (objs : list (option ObjectId)) (vs : slice) : option sparse :=
  if negb (length objs =? sl_size vs) then None else
  Some (fold_left (fun s '(i, o) => sparse_set s o (slice_at vs i)) (present_at objs) s).
(** sparse_source.cc:87-98 Get into a builder, at one position: what the builder
    has there for the object [o] (None: not set). The loop treats every position
    on its own. *)
Definition sparse_fill (s : sparse) (o : ObjectId) (cur : option ditem) : option ditem :=
  match cur with Some _ => cur | None => sparse_get s o end.

(** ** Dense sources. The arrays are functions of the offset, of which only the
    part below the size is memory. *)
Definition array (k : kind) : Type := N -> option (cval k).
Definition fupd {A} (f : N -> A) (i : N) (v : A) : N -> A := fun j => if (j =? i)%N then v else f j.

(** types_buffer.h:37-45: kUnset, kRemoved or the index of a type *)
Inductive tidx := TUnset | TRemoved | TIdx (n : nat).
Definition is_present_idx (t : tidx) : bool := match t with TIdx _ => true | _ => false end.

(** A DataSliceImpl as storage: the types buffer (if there is one), and an array
    for each type *)
Record dslice := mkDslice {
  ds_size : N;
  ds_tidx : option (N -> tidx);
  ds_values : list {k : kind & array k}
}.

(** [Typed]: TypedDenseSource (dense_source.cc:951-961) with values_ and
    values_mask_ (None: empty vector, all set), as long as multitype_ is null;
    [Multi]: MultitypeDenseSource (489-502), also inside of a TypedDenseSource,
    with values_ of which some elements may be uninitialised (None);
    [ReadOnly]: ReadOnlyDenseSource and TypedReadOnlyDenseSource. *)
Inductive dense_data :=
  | Typed (k : kind) (vals : array k) (mask : option (N -> bool))
  | Multi (types : list kind) (idx : N -> tidx) (bufs : list {k : kind & array k})
  | ReadOnly (s : dslice).
Record dense := mkDense { de_alloc : ObjectId; de_size : N; de_data : dense_data }.

Definition array_at (a : {k : kind & array k}) (off : N) : ditem :=
  let 'existT _ k f := a in item_of_opt k (f off).
Definition buf_at (bufs : list {k : kind & array k}) (n : nat) (off : N) : ditem :=
  match nth_error bufs n with Some a => array_at a off | None => None end.
Definition mask_at (mask : option (N -> bool)) (off : N) : bool :=
  match mask with Some f => f off | None => true end.

(** dense_source.cc:982-991 Get for mixed types, 1105-1116 for a single type *)
Definition ro_at (s : dslice) (off : N) : option ditem :=
  match ds_values s with
  | [existT _ k f] =>
      match f off with
      | Some v => Some (Some (val k v))
      | None => match ds_tidx s with
                | None => Some None
                | Some t => match t off with TRemoved => Some None | _ => None end
                end
      end
  | vs =>
      match ds_tidx s with
      | Some t => match t off with
                  | TUnset => None
                  | TRemoved => Some None
                  | TIdx n => Some (buf_at vs n off)
                  end
      | None => None
      end
  end.

(** Get: dense_source.cc:153-166 (Multi), 639-654 (Typed), 982-991, 1105-1116 *)
Definition dense_at (d : dense) (off : N) : option ditem :=
  match de_data d with
  | Typed k vals mask =>
      match vals off with
      | Some v => Some (Some (val k v))
      | None => if mask_at mask off then Some None else None
      end
  | Multi _ idx bufs =>
      match idx off with
      | TUnset => None
      | TRemoved => Some None
      | TIdx n => Some (buf_at bufs n off)
      end
  | ReadOnly s => ro_at s off
  end.
Definition dense_get (d : dense) (o : ObjectId) : option ditem := dense_at d (offset o).

(** Get into a builder at one position (the loops treat positions on their own):
    176-209 (Multi: first the removed ones, then one pass per type), 672-701
    (Typed), 1001-1025 (read-only: one pass per type), 1132-1155 *)
Definition insert_if_not_set (cur : option ditem) (x : ditem) : option ditem :=
  match cur with Some _ => cur | None => Some x end.
Definition dense_fill (d : dense) (o : ObjectId) (cur : option ditem) : option ditem :=
  let off := offset o in
  if negb (contains (de_alloc d) o) then cur else
  match de_data d with
  | Typed k vals mask =>
      if mask_at mask off then insert_if_not_set cur (item_of_opt k (vals off)) else cur
  | Multi _ idx bufs =>
      let cur := match idx off with TRemoved => insert_if_not_set cur None | _ => cur end in
      fold_left (fun cur '(n, a) =>
        match idx off with
        | TIdx m => if m =? n then insert_if_not_set cur (array_at a off) else cur
        | _ => cur
        end) (combine (seq 0 (length bufs)) bufs) cur
  | ReadOnly s =>
      match ds_values s, ds_tidx s with
      | [a], None => insert_if_not_set cur (array_at a off)
      | [a], Some t => match t off with TUnset => cur | _ => insert_if_not_set cur (array_at a off) end
      | vs, Some t =>
          fold_left (fun cur '(n, a) =>
            match t off with
            | TIdx m => if m =? n then insert_if_not_set cur (array_at a off) else cur
            | TRemoved => insert_if_not_set cur None
            | TUnset => cur
            end) (combine (seq 0 (length vs)) vs) cur
      | _, None => cur
      end
  end.

(** Get of many without a builder: 168-174, 656-670, 993-999, 1118-1130; the
    answer does not tell unset from removed. [check]: check_alloc_id *)
Definition dense_get_plain (check : bool) (d : dense) (o : ObjectId) : ditem :=
  match de_data d with
  | Typed k vals _ =>
      if check && negb (contains (de_alloc d) o) then None else item_of_opt k (vals (offset o))
  | ReadOnly s =>
      match ds_values s with
      | [a] => if check && negb (contains (de_alloc d) o) then None else array_at a (offset o)
      | _ => match dense_fill d o None with Some x => x | None => None end
      end
  | _ => match dense_fill d o None with Some x => x | None => None end
  end.

(** *** Multitype sources *)

(** types_buffer.h:75-83 get_or_add_typeidx *)
Fixpoint find_kind (ks : list kind) (k : kind) : option nat :=
  match ks with
  | [] => None
  | k' :: r => if kind_eq_dec k' k then Some 0 else option_map S (find_kind r k)
  end.
Definition get_or_add_typeidx (types : list kind) (k : kind) : nat * list kind :=
  match find_kind types k with Some n => (n, types) | None => (length types, types ++ [k]) end.
(** dense_source.cc:411-418 GetOrAddTypeIdx, 259-261: a new buffer, uninitialised *)
Definition add_buf (ti : nat) (k : kind) (bufs : list {k : kind & array k}) :=
  if ti =? length bufs then bufs ++ [existT array k (fun _ => None)] else bufs.
(** std::get_if<ValueBuffer<T>>(&values_[ti])[off] = v *)
Definition write_buf (bufs : list {k : kind & array k}) (ti : nat) (k : kind) (off : N) (v : cval k)
  : list {k : kind & array k} :=
  map (fun '((n, a) : nat * {k : kind & array k}) =>
    let 'existT _ k' f := a in
    if n =? ti
    then match kind_eq_dec k k' with
         | left e => existT array k' (fupd f off (Some (eq_rect k cval v k' e)))
         | right _ => existT array k' f
         end
    else existT array k' f) (combine (seq 0 (length bufs)) bufs).

(** dense_source.cc:242-268 Set, the object being of this allocation. (A buffer of
    Unit has no memory, it is written here like the others.) *)
Definition multi_set (types : list kind) (idx : N -> tidx) (bufs : list {k : kind & array k})
    (off : N) (v : ditem) : dense_data :=
  match v with
  | None => Multi types (fupd idx off TRemoved) bufs
  | Some (existT _ k x) =>
      let '(ti, types) := get_or_add_typeidx types k in
      Multi types (fupd idx off (TIdx ti)) (write_buf (add_buf ti k bufs) ti k off x)
  end.

(** the default T() of the strings *)
Definition string_default (k : kind) : option (cval k) :=
  match k return option (cval k) with KText => Some [] | KBytes => Some [] | _ => None end.
(** dense_source.cc:420-447 SetImpl *)
Definition multi_set_array (remove_missing : bool) (alloc : ObjectId) (objs : list (option ObjectId))
    (k : kind) (xs : list (option (cval k))) (types : list kind) (idx : N -> tidx)
    (bufs : list {k : kind & array k}) : list kind * (N -> tidx) * list {k : kind & array k} :=
  let '(ti, types) := get_or_add_typeidx types k in
  let bufs := add_buf ti k bufs in
  let '(idx, bufs) :=
    fold_left (fun '(idx, bufs) '(i, o) =>
      if negb (contains alloc o) then (idx, bufs) else
      let off := offset o in
      match nth i xs None with
      | Some v => (fupd idx off (TIdx ti), write_buf bufs ti k off v)
      | None =>
          (if remove_missing then fupd idx off TRemoved else idx,
           match string_default k with Some e => write_buf bufs ti k off e | None => bufs end)
      end) (present_at objs) (idx, bufs) in
  (types, idx, bufs).
(** dense_source.cc:270-305 Set of many (equal sizes) *)
Definition multi_set_all (alloc : ObjectId) (objs : list (option ObjectId)) (vs : slice)
    (types : list kind) (idx : N -> tidx) (bufs : list {k : kind & array k}) : dense_data :=
  let mark p idx := fold_left (fun idx '(i, o) =>
      if contains alloc o && p i then fupd idx (offset o) TRemoved else idx) (present_at objs) idx in
  match sl_values vs with
  | [] => Multi types (mark (fun _ => true) idx) bufs
  | [existT _ k xs] =>
      let '(types, idx, bufs) := multi_set_array true alloc objs k xs types idx bufs in
      Multi types idx bufs
  | arrays =>
      let '(types, idx, bufs) :=
        fold_left (fun '(types, idx, bufs) (a : {k : kind & list (option (cval k))}) =>
          let 'existT _ k xs := a in multi_set_array false alloc objs k xs types idx bufs)
          arrays (types, idx, bufs) in
      Multi types (mark (fun i => match slice_at vs i with None => true | Some _ => false end) idx) bufs
  end.

(** dense_source.cc:918-949 CreateMultitype *)
Definition create_multitype (k : kind) (vals : array k) (mask : option (N -> bool)) :
    list kind * (N -> tidx) * list {k : kind & array k} :=
  ([k],
   (fun off => match vals off with
               | Some _ => TIdx 0
               | None => if mask_at mask off then TRemoved else TUnset
               end),
   [existT array k vals]).

(** *** Set *)
Definition set_bit (mask : option (N -> bool)) (off : N) : option (N -> bool) :=
  option_map (fun f => fupd f off true) mask.
(** dense_source.cc:732-755 Set (Typed), 242-268 (Multi), 1029-1032 (read-only: an
    error, None) *)
Definition dense_set (d : dense) (o : ObjectId) (v : ditem) : option dense :=
  let off := offset o in
  let put x := Some (mkDense (de_alloc d) (de_size d) x) in
  match de_data d with
  | ReadOnly _ => None
  | Typed k vals mask =>
      if negb (contains (de_alloc d) o) then Some d else
      let mask := set_bit mask off in
      match v with
      | None => put (Typed k (fupd vals off None) mask)
      | Some x =>
          match as_kind k x with
          | Some x => put (Typed k (fupd vals off (Some x)) mask)
          | None => let '(types, idx, bufs) := create_multitype k vals mask in
                    put (multi_set types idx bufs off v)
          end
      end
  | Multi types idx bufs =>
      if negb (contains (de_alloc d) o) then Some d else put (multi_set types idx bufs off v)
  end.
(** dense_source.cc:757-782 with ValueArraySet 512-587 (Typed), 270-305 (Multi);
    None: size mismatch or read-only *)
Definition dense_set_all (d : dense) (objs : list (option ObjectId)) (vs : slice) : option dense :=
  let put x := Some (mkDense (de_alloc d) (de_size d) x) in
  match de_data d with
  | ReadOnly _ => None
  | Multi types idx bufs =>
      if negb (length objs =? sl_size vs) then None
      else put (multi_set_all (de_alloc d) objs vs types idx bufs)
  | Typed k vals mask =>
      if negb (length objs =? sl_size vs) then None else
      let as_multi :=
        let '(types, idx, bufs) := create_multitype k vals mask in
        put (multi_set_all (de_alloc d) objs vs types idx bufs) in
      match sl_values vs with
      | [] =>
          let '(vals, mask) := fold_left (fun '(vals, mask) '(i, o) =>
            if contains (de_alloc d) o
            then (fupd vals (offset o) None, set_bit mask (offset o)) else (vals, mask))
            (present_at objs) (vals, mask) in
          put (Typed k vals mask)
      | [existT _ k' xs] =>
          match kind_eq_dec k' k with
          | left e =>
              let xs := eq_rect k' (fun k => list (option (cval k))) xs k e in
              let '(vals, mask) := fold_left (fun '(vals, mask) '(i, o) =>
                if contains (de_alloc d) o
                then (fupd vals (offset o) (nth i xs None), set_bit mask (offset o)) else (vals, mask))
                (present_at objs) (vals, mask) in
              put (Typed k vals mask)
          | right _ => as_multi
          end
      | _ => as_multi
      end
  end.

(** *** Copies and creation *)

(** dense_source.cc:371-388, 904-912, 1045-1054, 1157-1170 CreateMutableCopy *)
Definition mutable_copy (d : dense) : dense :=
  mkDense (de_alloc d) (de_size d)
    match de_data d with
    | ReadOnly s =>
        match ds_values s with
        | [existT _ k f] =>
            Typed k f
              (option_map (fun t off => (off <? ds_size s)%N
                             && match t off with TUnset => false | _ => true end) (ds_tidx s))
        | vs => Multi (map (@projT1 _ _) vs)
                  (match ds_tidx s with Some t => t | None => fun _ => TUnset end) vs
        end
    | x => x
    end.
(** dense_source.cc:1210-1228 CreateMutable, 1204-1208 CreateAllRemoved, 1179-1202
    CreateReadonly *)
Definition create_mutable (alloc : ObjectId) (size : N) (k : option kind) : dense :=
  mkDense alloc size
    match k with
    | None => Multi [] (fun _ => TUnset) []
    | Some k => Typed k (fun _ => None) (Some (fun _ => false))
    end.
Definition create_all_removed (alloc : ObjectId) : dense :=
  mkDense alloc (capacity alloc) (Typed KUnit (fun _ => None) None).
Definition create_readonly (alloc : ObjectId) (s : dslice) : option dense :=
  if (capacity alloc <? ds_size s)%N then None
  else match ds_values s with
       | [] => None
       | _ => Some (mkDense alloc (ds_size s) (ReadOnly s))
       end.
Definition is_mutable (d : dense) : bool :=
  match de_data d with ReadOnly _ => false | _ => true end.

(** *** Merging (dense_source.h:110-116 Merge, .cc MergeImpl) *)
Inductive policy := RaiseOnConflict | Overwrite | KeepOriginal.

(** dense_source.cc:211-238, 703-728, 1062 GetAll. (For several types the builder
    also drops the types that no longer occur, 237; here they stay.) *)
Definition get_all (d : dense) : dslice :=
  match de_data d with
  | Typed k vals mask =>
      mkDslice (de_size d)
        (option_map (fun m off => match vals off with
                                  | Some _ => TIdx 0
                                  | None => if m off : bool then TRemoved else TUnset
                                  end) mask)
        [existT array k vals]
  | Multi types idx bufs =>
      mkDslice (de_size d) (Some idx)
        (map (fun '((n, a) : nat * {k : kind & array k}) =>
           let 'existT _ k f := a in
           existT array k (fun off => match idx off with
                                      | TIdx m => if m =? n then f off else None
                                      | _ => None
                                      end)) (combine (seq 0 (length bufs)) bufs))
  | ReadOnly s => s
  end.

Definition below (n : N) : list N := map N.of_nat (seq 0 (N.to_nat n)).

(** dense_source.cc:449-487 MergeArrayImpl: each present element of the array; the
    flag tells a conflict *)
Definition merge_array (p : policy) (size : N) (k : kind) (f : array k) (types : list kind)
    (idx : N -> tidx) (bufs : list {k : kind & array k}) (err : bool)
  : list kind * (N -> tidx) * list {k : kind & array k} * bool :=
  let '(ti, types) := get_or_add_typeidx types k in
  let bufs := add_buf ti k bufs in
  let '(idx, bufs, err) :=
    fold_left (fun '(idx, bufs, err) off =>
      match f off with
      | None => (idx, bufs, err)
      | Some v =>
          let take := (fupd idx off (TIdx ti), write_buf bufs ti k off v, err) in
          match p with
          | Overwrite => take
          | KeepOriginal => match idx off with TUnset => take | _ => (idx, bufs, err) end
          | RaiseOnConflict =>
              match idx off with
              | TUnset => take
              | TRemoved => (idx, bufs, true)
              | TIdx m =>
                  (idx, bufs,
                   err || negb (m =? ti)
                   || match buf_at bufs m off with
                      | Some w => match as_kind k w with
                                  | Some w => cval_differ k w v
                                  | None => true
                                  end
                      | None => true
                      end)
              end
          end
      end) (below size) (idx, bufs, err) in
  (types, idx, bufs, err).

(** dense_source.cc:315-369 MergeImpl (Multi) *)
Definition multi_merge (p : policy) (size : N) (s : dslice) (types : list kind) (idx : N -> tidx)
    (bufs : list {k : kind & array k}) : dense_data * bool :=
  let '(types, idx, bufs, err) :=
    fold_left (fun '(types, idx, bufs, err) (a : {k : kind & array k}) =>
      let 'existT _ k f := a in merge_array p (ds_size s) k f types idx bufs err)
      (ds_values s) (types, idx, bufs, false) in
  let handle_removed '(idx, err) off :=
    match p with
    | Overwrite => (fupd idx off TRemoved, err)
    | _ =>
        if negb (is_present_idx (idx off)) then (fupd idx off TRemoved, err)
        else (idx, err || match p with RaiseOnConflict => true | _ => false end)
    end in
  let '(idx, err) :=
    match ds_tidx s with
    | None =>
        match rev (ds_values s) with
        | existT _ k f :: _ =>
            fold_left (fun st off => match f off with Some _ => st | None => handle_removed st off end)
              (below (ds_size s)) (idx, err)
        | [] => (idx, err)
        end
    | Some t =>
        fold_left (fun st off => match t off with TRemoved => handle_removed st off | _ => st end)
          (below (N.min (ds_size s) size)) (idx, err)
    end in
  (Multi types idx bufs, err).

(** dense_source.cc:88-95 ValuesAreDifferent on optional values *)
Definition opt_differ (k : kind) (a b : option (cval k)) : bool :=
  match a, b with
  | Some a, Some b => cval_differ k a b
  | None, None => false
  | _, _ => true
  end.
(** dense_source.cc:813-902 MergeImpl (Typed), the same type *)
Definition typed_merge (p : policy) (size : N) (s : dslice) (k : kind) (f : array k)
    (vals : array k) (mask : option (N -> bool)) : dense_data * bool :=
  let other_set off := match ds_tidx s with
                       | None => true
                       | Some t => match t off with TUnset => false | _ => true end
                       end in
  let '(vals, mask, err) :=
    fold_left (fun '(vals, mask, err) off =>
      let put := (fupd vals off (f off), set_bit mask off, err) in
      let keep := (vals, mask, err) in
      if negb (other_set off) then keep else
      match p with
      | Overwrite => put
      | KeepOriginal => if mask_at mask off then keep else put
      | RaiseOnConflict =>
          if mask_at mask off then (vals, mask, err || opt_differ k (vals off) (f off)) else put
      end) (below (N.min (ds_size s) size)) (vals, mask, false) in
  (Typed k vals mask, err).

(** The merged source and whether there was a conflict; None: read-only (1064-1068) *)
Definition dense_merge (p : policy) (d : dense) (s : dslice) : option (dense * bool) :=
  let put '(x, err) := Some (mkDense (de_alloc d) (de_size d) x, err : bool) in
  match de_data d with
  | ReadOnly _ => None
  | Multi types idx bufs => put (multi_merge p (de_size d) s types idx bufs)
  | Typed k vals mask =>
      let as_multi :=
        let '(types, idx, bufs) := create_multitype k vals mask in
        put (multi_merge p (de_size d) s types idx bufs) in
      match ds_values s with
      | [existT _ k' f] =>
          match kind_eq_dec k' k with
          | left e => put (typed_merge p (de_size d) s k (eq_rect k' array f k e) vals mask)
          | right _ => as_multi
          end
      | _ => as_multi
      end
  end.
