(** Slices and their builder: koladata/internal/slice_builder.{h,cc},
    types_buffer.h, data_slice.{h,cc}. *)
From Coq Require Import NArith ZArith List Bool Arith.
From Verif Require Import ObjectIdModel SchemaModel ItemModel.
Import ListNotations.
Local Open Scope nat_scope.

(** The C++ type of a value *)
Definition kind_of (v : value) : kind := projT1 v.
Definition oid_dec (a b : ObjectId) : {a = b} + {a <> b}.
Proof. repeat decide equality. Defined.

(** ** AllocationIdSet (object_id.h:541-633). That the data structure is a set of
    big allocations and a flag for the small ones is property C05. *)
Record allocs := mkAllocs { al_small : bool; al_big : list ObjectId }.
Definition no_allocs : allocs := mkAllocs false [].
(** object_id.h:571-585 Insert *)
Definition al_insert (a : ObjectId) (s : allocs) : allocs :=
  if is_small_alloc a then mkAllocs true (al_big s)
  else if in_dec oid_dec a (al_big s) then s else mkAllocs (al_small s) (al_big s ++ [a]).
Definition al_union (s t : allocs) : allocs :=
  let u := fold_left (fun s a => al_insert a s) (al_big t) s in
  mkAllocs (al_small u || al_small t) (al_big u).

(** ** Buffers, bitmaps and arrays *)

(** arolla::Buffer<T> and its builder: None is memory that was not written *)
Definition buffer : Type := list (option value).
(** arolla::bitmap::Bitmap: an empty bitmap means that all bits are set *)
Definition bit (bm : list bool) (i : nat) : bool :=
  match bm with [] => true | _ => nth i bm false end.
(** arolla::DenseArray<T>; [d_kind] is T *)
Record darr := mkArr { d_kind : kind; d_values : buffer; d_bitmap : list bool }.
Definition d_size (a : darr) : nat := length (d_values a).
Definition d_present (a : darr) (i : nat) : bool := bit (d_bitmap a) i.
(** the value at a position, missing if it is not present *)
Definition d_get (a : darr) (i : nat) : option value :=
  if d_present a i then nth i (d_values a) None else None.
Definition present_count (a : darr) : nat :=
  length (filter (d_present a) (seq 0 (d_size a))).
Definition all_missing (a : darr) : bool := present_count a =? 0.

(** types_buffer.h:37-45: kUnset, kRemoved or the index of a type *)
Inductive tidx := TUnset | TRemoved | TIdx (n : nat).
Definition tidx_eqb (a b : tidx) : bool :=
  match a, b with
  | TUnset, TUnset | TRemoved, TRemoved => true
  | TIdx m, TIdx n => m =? n
  | _, _ => false
  end.

(** data_slice.h:340-358 DataSliceImpl::Internal. [s_dtype]: None is NOTHING;
    [s_tidx] and [s_types] are the TypesBuffer. *)
Record slice := mkSlice {
  s_size : nat;
  s_dtype : option kind;
  s_allocs : allocs;
  s_values : list darr;
  s_tidx : list tidx;
  s_types : list kind
}.
(** data_slice.h:66 *)
Definition empty_slice : slice := mkSlice 0 None no_allocs [] [] [].
(** data_slice.cc:109-116 *)
Definition empty_and_unknown (n : nat) : slice :=
  if n =? 0 then empty_slice else mkSlice n None no_allocs [] [] [].
(** data_slice.cc:118-132 *)
Definition empty_with_types (ids : list tidx) (types : list kind) : slice :=
  if length ids =? 0 then empty_slice else mkSlice (length ids) None no_allocs [] ids types.

(** ** SliceBuilder *)

(** slice_builder.h:172-186 TypedStorage<T>: the index of the type and a buffer or
    a builder of a buffer *)
Inductive sdata := Buf (b : buffer) | Bld (b : buffer).
(** 187-199 StorageVariant; [STyped k] is TypedStorage<T> *)
Inductive storage := SMono | STyped (k : kind) (type_index : nat) (d : sdata).
(** 270-274 *)
Inductive sstate := SEmpty | SFirst | SMap.
(** 277 current_storage_: a pointer to first_storage_, to an entry of storage_, or null.
    (An entry of a hash map moves when another one is added; the code takes the address
    after it has added the entry.) *)
Inductive sptr := PFirst | PMap (k : kind) | PNull.

(** 263-299 *)
Record bldr := mkB {
  b_map : list (kind * storage);
  b_first : storage;
  b_state : sstate;
  b_current : sptr;
  b_type : option kind;
  b_typeidx : nat;
  b_tidx : list tidx;
  b_types : list kind;
  b_unset : nat;
  b_allocs : allocs
}.
Definition b_size (b : bldr) : nat := length (b_tidx b).

(** slice_builder.cc:42-47, slice_builder.h:55-59 *)
Definition new_builder (n : nat) (a : allocs) : bldr :=
  mkB [] SMono SEmpty PFirst None 0 (repeat TUnset n) [] n a.

Definition set_typeidx (b : bldr) (t : nat) : bldr :=
  mkB (b_map b) (b_first b) (b_state b) (b_current b) (b_type b) t (b_tidx b) (b_types b)
    (b_unset b) (b_allocs b).
Definition add_type (b : bldr) (k : kind) : bldr :=
  mkB (b_map b) (b_first b) (b_state b) (b_current b) (b_type b) (b_typeidx b) (b_tidx b)
    (b_types b ++ [k]) (b_unset b) (b_allocs b).
Definition set_alloc_ids (b : bldr) (a : allocs) : bldr :=
  mkB (b_map b) (b_first b) (b_state b) (b_current b) (b_type b) (b_typeidx b) (b_tidx b)
    (b_types b) (b_unset b) a.

Fixpoint upd {A} (i : nat) (x : A) (l : list A) : list A :=
  match l, i with
  | [], _ => []
  | _ :: r, 0 => x :: r
  | y :: r, S i => y :: upd i x r
  end.
(** an element of id_to_typeidx is set; one more element is not unset *)
Definition set_tidx (b : bldr) (i : nat) (t : tidx) : bldr :=
  mkB (b_map b) (b_first b) (b_state b) (b_current b) (b_type b) (b_typeidx b)
    (upd i t (b_tidx b)) (b_types b) (pred (b_unset b)) (b_allocs b).

(** 72-75 IsSet *)
Definition is_unset (b : bldr) (i : nat) : bool :=
  match nth i (b_tidx b) TUnset with TUnset => true | _ => false end.
(** 69 is_finalized *)
Definition is_finalized (b : bldr) : bool := b_unset b =? 0.

(** absl::flat_hash_map<KodaTypeId, StorageVariant> *)
Fixpoint m_find (m : list (kind * storage)) (k : kind) : option storage :=
  match m with
  | [] => None
  | (k', s) :: r => if kind_eq_dec k' k then Some s else m_find r k
  end.
Fixpoint m_set (m : list (kind * storage)) (k : kind) (s : storage) : list (kind * storage) :=
  match m with
  | [] => [(k, s)]
  | (k', s') :: r => if kind_eq_dec k' k then (k', s) :: r else (k', s') :: m_set r k s
  end.
(** emplace and operator[]: nothing happens to an entry that exists *)
Definition m_add (m : list (kind * storage)) (k : kind) (s : storage) : list (kind * storage) :=
  match m_find m k with Some _ => m | None => m_set m k s end.

(** *current_storage_; None: a null pointer *)
Definition deref (b : bldr) : option storage :=
  match b_current b with
  | PFirst => Some (b_first b)
  | PMap k => m_find (b_map b) k
  | PNull => None
  end.
Definition store (b : bldr) (s : storage) : option bldr :=
  match b_current b with
  | PFirst => Some (mkB (b_map b) s (b_state b) (b_current b) (b_type b) (b_typeidx b) (b_tidx b)
                      (b_types b) (b_unset b) (b_allocs b))
  | PMap k => Some (mkB (m_set (b_map b) k s) (b_first b) (b_state b) (b_current b) (b_type b)
                      (b_typeidx b) (b_tidx b) (b_types b) (b_unset b) (b_allocs b))
  | PNull => None
  end.

(** slice_builder.cc:151-165 ChangeCurrentType. (The type of first_storage_ is
    current_type_id_; None if it were not set.) *)
Definition change_type (k : kind) (b : bldr) : option bldr :=
  match b_state b with
  | SEmpty => Some (mkB (b_map b) (b_first b) SFirst (b_current b) (Some k) (b_typeidx b)
                      (b_tidx b) (b_types b) (b_unset b) (b_allocs b))
  | SFirst =>
      match b_type b with
      | None => None
      | Some k0 =>
          Some (mkB (m_add (m_add (b_map b) k0 (b_first b)) k SMono) (b_first b) SMap (PMap k)
                  (Some k) (b_typeidx b) (b_tidx b) (b_types b) (b_unset b) (b_allocs b))
      end
  | SMap =>
      Some (mkB (m_add (b_map b) k SMono) (b_first b) SMap (PMap k) (Some k) (b_typeidx b)
              (b_tidx b) (b_types b) (b_unset b) (b_allocs b))
  end.
(** 167-176 UnsetCurrentType *)
Definition unset_type (b : bldr) : option bldr :=
  match b_state b with
  | SEmpty => None
  | SFirst =>
      match b_type b with
      | None => None
      | Some k0 =>
          Some (mkB (m_add (b_map b) k0 (b_first b)) (b_first b) SMap PNull None (b_typeidx b)
                  (b_tidx b) (b_types b) (b_unset b) (b_allocs b))
      end
  | SMap => Some (mkB (b_map b) (b_first b) SMap (b_current b) None (b_typeidx b) (b_tidx b)
                    (b_types b) (b_unset b) (b_allocs b))
  end.

Definition obind {A B} (x : option A) (f : A -> option B) : option B :=
  match x with Some a => f a | None => None end.

(** slice_builder.h:315-334 GetBufferBuilderFromCurrentStorage; None: the storage is
    not one of this type *)
Definition from_current (k : kind) (b : bldr) : option bldr :=
  match deref b with
  | Some (STyped k' ti d) =>
      if kind_eq_dec k' k then
        let b := set_typeidx b ti in
        match d with
        | Bld _ => Some b
        | Buf buf =>
            store b (STyped k' ti (Bld (map (fun '(t, x) => if tidx_eqb t (TIdx ti) then x else None)
                                          (combine (b_tidx b) buf))))
        end
      else None
  | _ => None
  end.
(** 336-357 GetBufferBuilderWithTypeChange *)
Definition with_type_change (k : kind) (b : bldr) : option bldr :=
  obind (change_type k b) (fun b =>
    match deref b with
    | Some SMono =>
        let t := length (b_types b) in
        obind (store (set_typeidx b t) (STyped k t (Bld (repeat None (b_size b)))))
              (fun b => Some (add_type b k))
    | Some _ => from_current k b
    | None => None
    end).
(** 304-313 GetBufferBuilder *)
Definition get_builder (k : kind) (b : bldr) : option bldr :=
  match b_type b with
  | Some k' => if kind_eq_dec k' k then Some b else with_type_change k b
  | None => with_type_change k b
  end.
(** Buffer<T>::Builder::Set on the builder that is current *)
Definition buf_set (k : kind) (i : nat) (v : value) (b : bldr) : option bldr :=
  match deref b with
  | Some (STyped k' ti (Bld buf)) =>
      if kind_eq_dec k' k
      then if i <? length buf then store b (STyped k' ti (Bld (upd i (Some v) buf))) else None
      else None
  | _ => None
  end.

(** 359-381 InsertGuaranteedNotSet, slice_builder.cc:178-181; the position is not
    set (DCHECK) *)
Definition insert_new (i : nat) (x : option value) (b : bldr) : option bldr :=
  if negb ((i <? b_size b) && is_unset b i) then None else
  match x with
  | None => Some (set_tidx b i TRemoved)
  | Some v =>
      obind (get_builder (kind_of v) b) (fun b =>
      obind (buf_set (kind_of v) i v b) (fun b =>
      Some (set_tidx b i (TIdx (b_typeidx b)))))
  end.
(** 383-390, slice_builder.cc:183-188 InsertIfNotSet *)
Definition insert (i : nat) (x : option value) (b : bldr) : option bldr :=
  if negb (i <? b_size b) then None else
  if is_unset b i then insert_new i x b else Some b.
(** slice_builder.cc:190-207 Insert...AndUpdateAllocIds *)
Definition insert_new_alloc (i : nat) (x : option value) (b : bldr) : option bldr :=
  obind (insert_new i x b) (fun b =>
  Some (match x with
        | Some (existT _ KObjectId o) => set_alloc_ids b (al_insert (allocation_of o) (b_allocs b))
        | _ => b
        end)).
Definition insert_alloc (i : nat) (x : option value) (b : bldr) : option bldr :=
  if negb (i <? b_size b) then None else
  if is_unset b i then insert_new_alloc i x b else Some b.

(** 392-431 TypedBuilder<T>: the reference to the builder and the index of the type
    are taken when the view is made *)
Definition typed_insert (k : kind) (i : nat) (x : option value) (b : bldr) : option bldr :=
  if negb (i <? b_size b) then None else
  if negb (is_unset b i) then Some b else
  match x with
  | None => Some (set_tidx b i TRemoved)
  | Some v => obind (buf_set k i v b) (fun b => Some (set_tidx b i (TIdx (b_typeidx b))))
  end.
Definition ofold {A B} (f : A -> B -> option B) (l : list A) (b : B) : option B :=
  fold_left (fun acc a => obind acc (f a)) l (Some b).
Definition typed (k : kind) (ws : list (nat * option value)) (b : bldr) : option bldr :=
  obind (get_builder k b) (ofold (fun w => typed_insert k (fst w) (snd w)) ws).

(** 81-90 ApplyMask *)
Definition apply_mask (mask : list bool) (b : bldr) : bldr :=
  fold_left (fun b i => if negb (bit mask i) && is_unset b i then set_tidx b i TRemoved else b)
    (seq 0 (b_size b)) b.

(** 433-453 UpdateTypesBuffer *)
Definition update_types (ti : nat) (mask presence : list bool) (add : nat -> bldr -> option bldr)
    (b : bldr) : option bldr :=
  ofold (fun i b =>
           if bit mask i && is_unset b i then
             let b := set_tidx b i (if bit presence i then TIdx ti else TRemoved) in
             if bit presence i then add i b else Some b
           else Some b)
    (seq 0 (b_size b)) b.
(** 455-487 InsertIfNotSet of a buffer *)
Definition add_from (k : kind) (values : buffer) (i : nat) (b : bldr) : option bldr :=
  match nth i values None with Some v => buf_set k i v b | None => None end.
Definition insert_existing (k : kind) (mask presence : list bool) (values : buffer) (b : bldr)
    : option bldr :=
  obind (from_current k b) (fun b =>
  update_types (b_typeidx b) mask presence (add_from k values) b).
Definition insert_batch (k : kind) (mask presence : list bool) (values : buffer) (b : bldr)
    : option bldr :=
  if negb (length values =? b_size b) then None else
  let same := match b_type b with Some k' => if kind_eq_dec k' k then true else false | None => false end in
  if same then insert_existing k mask presence values b else
  obind (change_type k b) (fun b =>
    match deref b with
    | Some SMono =>
        let t := length (b_types b) in
        obind (store b (STyped k t (Buf values))) (fun b =>
        obind (update_types t mask presence (fun _ b => Some b) (add_type b k)) unset_type)
    | Some _ => insert_existing k mask presence values b
    | None => None
    end).

(** 49-72 BuildDataSliceVariant: whether a value is present, the index of the type and
    the array *)
Definition to_bitmap (b : bldr) (ti : nat) : list bool :=
  map (fun t => tidx_eqb t (TIdx ti)) (b_tidx b).
Definition build_variant (b : bldr) (s : storage) : option (bool * nat * darr) :=
  match s with
  | SMono => None
  | STyped k ti d =>
      let bm := to_bitmap b ti in
      let buf := match d with Buf x => x | Bld x => x end in
      Some (negb ((b_size b =? 0) || negb (length bm =? 0) && forallb negb bm), ti, mkArr k buf bm)
  end.

(** 74-102 RemoveEmptyTypes. [new_idx]: None is kUnset *)
Definition new_indices (count : nat) (rm : list nat) : list (option nat) :=
  snd (fold_left (fun '(next, res) idx =>
         if existsb (Nat.eqb idx) rm then (next, res ++ [None]) else (S next, res ++ [Some next]))
       (seq 0 count) (0, [])).
Definition renumber (count : nat) (ni : list (option nat)) (t : tidx) : option tidx :=
  match t with
  | TIdx v =>
      if v <=? count
      then match nth_error ni v with
           | Some (Some n) => Some (TIdx n)
           | Some None => Some TUnset
           | None => None
           end
      else Some t
  | _ => Some t
  end.
Fixpoint omap {A B} (f : A -> option B) (l : list A) : option (list B) :=
  match l with
  | [] => Some []
  | a :: r => obind (f a) (fun b => obind (omap f r) (fun r => Some (b :: r)))
  end.
(** 94-99: the loop moves elements to the front *)
Definition compact {A} (ni : list (option nat)) (l : list A) : list A :=
  fold_left (fun l i => match nth_error ni i, nth_error l i with
                        | Some (Some n), Some x => upd n x l
                        | _, _ => l
                        end)
    (seq 0 (length ni)) l.
Definition remove_empty (rm : list nat) (s : slice) : option slice :=
  let count := length (s_types s) in
  let ni := new_indices count rm in
  let new_count := length (filter (fun o : option nat => match o with Some _ => true | None => false end) ni) in
  obind (omap (renumber count ni) (s_tidx s)) (fun ids =>
  Some (mkSlice (s_size s) (s_dtype s) (s_allocs s) (firstn new_count (compact ni (s_values s))) ids
          (firstn new_count (compact ni (s_types s))))).

(** data_slice.h:328 Variant(): an array of ObjectIds of size 0 *)
Definition default_array : darr := mkArr KObjectId [] [].
(** slice_builder.cc:130-138: the loop over the storages, in any order *)
Definition collect (b : bldr) (order : list (kind * storage)) :
    option (list darr * list nat * option kind) :=
  ofold (fun e '(vals, rm, last) =>
           obind (build_variant b (snd e)) (fun '(present, idx, arr) =>
           if present : bool
           then if idx <? length vals then Some (upd idx arr vals, rm, Some (fst e)) else None
           else Some (vals, rm ++ [idx], last)))
    order (repeat default_array (length (b_map b)), [], None).
(** 104-149 Build. [order]: the order in which the entries of storage_ are visited. *)
Definition build (order : list (kind * storage)) (b : bldr) : option slice :=
  match b_state b with
  | SEmpty => Some (empty_with_types (b_tidx b) (b_types b))
  | SFirst =>
      obind (build_variant b (b_first b)) (fun '(present, _, arr) =>
      if present : bool
      then match b_types b with
           | k :: _ => Some (mkSlice (b_size b) (Some k) (b_allocs b) [arr] (b_tidx b) (b_types b))
           | [] => None
           end
      else Some (empty_with_types (b_tidx b) (b_types b)))
  | SMap =>
      obind (collect b order) (fun '(vals, rm, last) =>
      let s := mkSlice (b_size b) None (b_allocs b) vals (b_tidx b) (b_types b) in
      obind (match rm with [] => Some s | _ => remove_empty rm s end) (fun s =>
      Some (if length (s_values s) =? 1
            then mkSlice (s_size s) last (s_allocs s) (s_values s) (s_tidx s) (s_types s)
            else s)))
  end.

(** ** Reading a slice *)

(** data_slice.cc:349-378 operator[]; None: memory that was not written is read *)
Definition slice_get (s : slice) (i : nat) : option (option value) :=
  match s_values s with
  | [] => Some None
  | [a] => if d_present a i then option_map Some (nth i (d_values a) None) else Some None
  | _ =>
      match nth i (s_tidx s) TUnset with
      | TIdx t => obind (nth_error (s_values s) t) (fun a => option_map Some (nth i (d_values a) None))
      | _ => Some None
      end
  end.
(** 380-394 present *)
Definition slice_present (s : slice) (i : nat) : bool :=
  match s_tidx s with
  | _ :: _ => match nth i (s_tidx s) TUnset with TIdx _ => true | _ => false end
  | [] => match s_values s with [] => false | a :: _ => d_present a i end
  end.
(** 243-247 present_count *)
Definition slice_count (s : slice) : nat := list_sum (map present_count (s_values s)).
(** 396-409 AsDataItemDenseArray *)
Definition as_items (s : slice) : list (option value) :=
  fold_left (fun items a =>
      fold_left (fun items i => if d_present a i then upd i (nth i (d_values a) None) items else items)
        (seq 0 (d_size a)) items)
    (s_values s) (repeat None (s_size s)).
(** data_slice.h:136-142 *)
Definition is_mixed (s : slice) : bool := 1 <? length (s_values s).
Definition is_single (s : slice) : bool := length (s_values s) =? 1.
Definition is_empty_unknown (s : slice) : bool := length (s_values s) =? 0.

(** ** Histories of a builder *)
Inductive bop :=
  | OMask (mask : list bool)
  | OInsert (i : nat) (x : option value)
  | OInsertNew (i : nat) (x : option value)
  | OInsertAlloc (i : nat) (x : option value)
  | OInsertNewAlloc (i : nat) (x : option value)
  | OTyped (k : kind) (ws : list (nat * option value))
  | OBatch (k : kind) (mask presence : list bool) (values : buffer)
  | OAllocs (a : allocs).
Definition step (op : bop) (b : bldr) : option bldr :=
  match op with
  | OMask m => Some (apply_mask m b)
  | OInsert i x => insert i x b
  | OInsertNew i x => insert_new i x b
  | OInsertAlloc i x => insert_alloc i x b
  | OInsertNewAlloc i x => insert_new_alloc i x b
  | OTyped k ws => typed k ws b
  | OBatch k m p vs => insert_batch k m p vs b
  | OAllocs a => Some (set_alloc_ids b (al_union (b_allocs b) a))
  end.
Definition run (ops : list bop) (b : bldr) : option bldr := ofold step ops b.
