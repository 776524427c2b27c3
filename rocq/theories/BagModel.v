(** Bags: koladata/internal/data_bag.{h,cc}, data_list.{h,cc} (DataListVector),
    dict.h (DictVector), koladata/data_bag.{h,cc}. Merging is in MergeModel.v. *)
From Coq Require Import String NArith ZArith List Bool Arith.
From Verif Require Import ObjectIdModel SchemaModel ItemModel DictModel SourceModel.
Import ListNotations.
Local Open Scope nat_scope.

(** ** Hash maps, as lists in which each key is once *)
Section Assoc.
Context {K V : Type} (dec : forall a b : K, {a = b} + {a <> b}).
Fixpoint a_find (m : list (K * V)) (k : K) : option V :=
  match m with
  | [] => None
  | (k', v) :: r => if dec k' k then Some v else a_find r k
  end.
Fixpoint a_set (m : list (K * V)) (k : K) (v : V) : list (K * V) :=
  match m with
  | [] => [(k, v)]
  | (k', v') :: r => if dec k' k then (k', v) :: r else (k', v') :: a_set r k v
  end.
End Assoc.

(** data_bag.h:917-930 SourceKey: an allocation and an attribute *)
Definition key : Type := ObjectId * string.
Definition key_dec (a b : key) : {a = b} + {a <> b}.
Proof. decide equality; [apply string_dec | apply oid_eq_dec]. Defined.

(** ** One DataBagImpl ("layer"). Layers are objects on the heap, referred to by
    their addresses: positions in a list. *)

(** const_dense_source: a source of its own, or the mutable source that the layer
    at this address has for the same key (data_bag.cc:3557-3565) *)
Inductive cref := CVal (d : dense) | CShared (owner : nat).
(** data_bag.h:965-982 SourceCollection *)
Record coll := mkColl {
  msparse : option sparse;
  mdense : option dense;
  cdense : option cref;
  lookup_parent : bool
}.

(** data_list.h:264-300: an element of an array is unset, a list of its own, or a
    pointer to what the parent vector has at this index. (A pointer is followed
    when it is read; in the code it is the address of the list at the time when
    the vector was made. The lists of parents never change after that.) The content of
    a DataList is its sequence of values, see C10. *)
Inductive lslot := LNull | LOwn (l : list ditem) | LParent.
Inductive lvec_data := LArray (f : N -> lslot) | LMap (m : list (N * list ditem)).
(** data_list.h:352-355; [lv_parent]: whether parent_ is not null *)
Record lvec := mkLvec { lv_size : N; lv_parent : bool; lv_data : lvec_data }.
(** dict.h:165-187, 189-228: the dicts of an allocation in this layer: their data,
    and whether they have no parent *)
Record own_dict := mkOwnDict { od_data : dmap; od_cut : bool }.
Definition dvec : Type := N -> own_dict.

(** data_bag.h:1040-1069 *)
Record layer := mkLayer {
  frozen : bool;
  parent : option nat;
  small : list (string * smap);
  big : list (key * coll);
  lists : list (ObjectId * lvec);
  dicts : list (ObjectId * dvec)
}.
Definition heap : Type := list layer.

(** A layer and its parents, parent_data_bag_ being followed; [fuel] only makes the
    recursion structural: parents have smaller addresses *)
Fixpoint chain_from (h : heap) (fuel a : nat) : list (nat * layer) :=
  match nth_error h a with
  | None => []
  | Some l =>
      (a, l) :: match fuel, parent l with
                | S fuel, Some p => chain_from h fuel p
                | _, _ => []
                end
  end.
Definition chain (h : heap) (a : nat) : list (nat * layer) := chain_from h a a.
Definition parents (h : heap) (a : nat) : list (nat * layer) := tl (chain h a).
Definition put (h : heap) (a : nat) (l : layer) : heap :=
  firstn a h ++ match skipn a h with [] => [] | _ :: r => l :: r end.

(** data_bag.cc:494-497 IsPristine *)
Definition is_pristine (l : layer) : bool :=
  match small l, big l, lists l, dicts l with [], [], [], [] => true | _, _, _, _ => false end.
(** data_bag.cc:485-490 PartiallyPersistentFork: the new layer gets a new address *)
Definition impl_fork (h : heap) (a : nat) : option (heap * nat) :=
  match nth_error h a with
  | None => None
  | Some l =>
      Some (h ++ [mkLayer false (if is_pristine l then parent l else Some a) [] [] [] []], length h)
  end.
(** data_bag.h:180 Freeze *)
Definition freeze (h : heap) (a : nat) : heap :=
  match nth_error h a with
  | None => h
  | Some l => put h a (mkLayer true (parent l) (small l) (big l) (lists l) (dicts l))
  end.

(** *** Attributes: reading *)

(** const_dense_source.get() *)
Definition cd_of (h : heap) (k : key) (c : coll) : option dense :=
  match cdense c with
  | None => None
  | Some (CVal d) => Some d
  | Some (CShared b) =>
      match nth_error h b with
      | Some l => match a_find key_dec (big l) k with Some c => mdense c | None => None end
      | None => None
      end
  end.
Definition or_else {A} (x y : option A) : option A := match x with Some _ => x | None => y end.
Definition bind {A B} (x : option A) (f : A -> option B) : option B :=
  match x with Some v => f v | None => None end.

(** data_bag.h:1013-1033 LookupAttrInDataItemMap *)
Fixpoint look_small (ch : list (nat * layer)) (attr : string) (o : ObjectId) : option ditem :=
  match ch with
  | [] => None
  | (_, l) :: r =>
      or_else (bind (a_find string_dec (small l) attr) (fun m => s_find m o)) (look_small r attr o)
  end.
(** data_bag.cc:514-549 LookupAttrInDataSourcesMap *)
Fixpoint look_big (h : heap) (ch : list (nat * layer)) (k : key) (o : ObjectId) : option ditem :=
  match ch with
  | [] => None
  | (_, l) :: r =>
      match a_find key_dec (big l) k with
      | None => look_big h r k o
      | Some c =>
          or_else (bind (msparse c) (fun s => sparse_get s o))
            (or_else (bind (mdense c) (fun d => dense_get d o))
              (or_else (bind (cd_of h k c) (fun d => dense_get d o))
                (if lookup_parent c then look_big h r k o else None)))
      end
  end.
Definition look_attr (h : heap) (a : nat) (attr : string) (o : ObjectId) : option ditem :=
  if is_small_alloc o then look_small (chain h a) attr o
  else look_big h (chain h a) (allocation_of o, attr) o.
(** data_bag.cc:786-810 GetAttrWithRemoved of one object, [a :: fallbacks] *)
Fixpoint get_attr (h : heap) (bags : list nat) (attr : string) (o : ObjectId) : option ditem :=
  match bags with
  | [] => None
  | a :: r => or_else (look_attr h a attr o) (get_attr h r attr o)
  end.

(** data_bag.cc:865-874 GetSmallAllocDataSources *)
Fixpoint small_sources (ch : list (nat * layer)) (attr : string) : list sparse :=
  match ch with
  | [] => []
  | (_, l) :: r =>
      match a_find string_dec (small l) attr with
      | Some m => mkSparse None m :: small_sources r attr
      | None => small_sources r attr
      end
  end.
(** data_bag.cc:876-916 GetAttributeDataSources: the sparse sources, and the dense
    one *)
Fixpoint data_sources (h : heap) (ch : list (nat * layer)) (k : key) : list sparse * option dense :=
  match ch with
  | [] => ([], None)
  | (_, l) :: r =>
      match a_find key_dec (big l) k with
      | None => data_sources h r k
      | Some c =>
          let '(ss, d) :=
            match mdense c, cd_of h k c with
            | Some d, _ => ([], Some d)
            | None, Some d => ([], Some d)
            | None, None => if lookup_parent c then data_sources h r k else ([], None)
            end in
          (match msparse c with Some s => s :: ss | None => ss end, d)
      end
  end.

(** data_bag.cc:88-94 HasTooManyAllocationIds *)
Definition too_many_ids (ids objs : nat) : bool :=
  (5 <? ids) && ((64 <=? ids / 2) || (N.of_nat objs <? 2 ^ N.of_nat (ids / 2))%N).

(** A SliceBuilder with the objects: at each position the object, if there is one,
    and what was inserted; positions without an object are set (ApplyMask). *)
Definition builder : Type := list (option ObjectId * option ditem).
Definition new_builder (objs : list (option ObjectId)) : builder :=
  map (fun o => (o, match o with Some _ => None | None => Some None end)) objs.
Definition finalized (b : builder) : bool :=
  forallb (fun '(_, cur) => match cur with Some _ => true | None => false end) b.
Definition fill (f : ObjectId -> option ditem -> option ditem) (b : builder) : builder :=
  map (fun '(o, cur) => match o with Some o' => (o, f o' cur) | None => (o, cur) end) b.
Definition fill_sparse (b : builder) (s : sparse) : builder :=
  if finalized b then b else fill (sparse_fill s) b.
Definition fill_dense (b : builder) (d : dense) : builder :=
  if finalized b then b else fill (dense_fill d) b.
Definition built (b : builder) : list ditem :=
  map (fun '(_, cur) => match cur with Some x => x | None => None end) b.

(** data_bag.cc:587-703 GetAttrImpl for a slice of objects with the allocation ids
    [ids] and, if [has_small], objects of small allocations. [b]: the builder, if
    there is one. *)
Section GetAttrImpl.
Variable h : heap.
Variable attr : string.
Variable ids : list ObjectId.
Variable has_small : bool.
Variable objs : list (option ObjectId).
Definition many : bool := too_many_ids (length ids) (length objs).
(** the loop of lines 622-694 *)
Fixpoint get_attr_loop (bags : list nat) (b : option builder) : list ditem + option builder :=
  match bags with
  | [] => inr b
  | a :: r =>
      let ss := if has_small then small_sources (chain h a) attr else [] in
      if many then
        let b := match b with Some b => b | None => new_builder objs end in
        let b := fold_left fill_sparse ss b in
        let b := fill (fun o cur =>
                   match cur with
                   | Some _ => cur
                   | None => if is_small_alloc o then cur
                             else look_big h (chain h a) (allocation_of o, attr) o
                   end) b in
        if finalized b then inr (Some b) else get_attr_loop r (Some b)
      else
        let found := map (fun id => data_sources h (chain h a) (id, attr)) ids in
        let ss := ss ++ flat_map fst found in
        let ds := flat_map (fun '(_, d) => match d with Some d => [d] | None => [] end) found in
        match ss, ds with
        | [], [] => get_attr_loop r b
        | _, _ =>
            match b, r, ss, ds with
            | None, [], [], [d] =>
                let check := has_small || (1 <? length ids) in
                inl (map (fun o => match o with
                                   | Some o => dense_get_plain check d o
                                   | None => None
                                   end) objs)
            | _, _, _, _ =>
                let b := match b with Some b => b | None => new_builder objs end in
                let b := fold_left fill_sparse ss b in
                let b := fold_left fill_dense ds b in
                if finalized b then inr (Some b) else get_attr_loop r (Some b)
            end
        end
  end.
(** the values, missing if unset or removed *)
Definition get_attrs (bags : list nat) (with_removed : bool) : list ditem :=
  match get_attr_loop bags (if with_removed || many then Some (new_builder objs) else None) with
  | inl vs => vs
  | inr (Some b) => built b
  | inr None => map (fun _ => None) objs
  end.
(** with_removed: unset and removed are told apart in the result *)
Definition get_attrs_with_removed (bags : list nat) : list (option ditem) :=
  match get_attr_loop bags (Some (new_builder objs)) with
  | inr (Some b) => map snd b
  | _ => []
  end.
End GetAttrImpl.

(** *** Attributes: writing *)

(** slice_builder.cc: a slice of these items, an array for each type *)
Definition build_slice (xs : list ditem) : slice :=
  DataListModel.mkSlice (length xs)
    (flat_map (fun k =>
       let col := map (fun x : ditem => match x with Some v => as_kind k v | None => None end) xs in
       if existsb (fun x => match x with Some _ => true | None => false end) col
       then [existT (fun k => list (option (cval k))) k col] else [])
     [KObjectId; KInt32; KInt64; KFloat32; KFloat64; KBool; KUnit; KText; KBytes; KExprQuote; KDType]).

(** the hash map of data_bag.cc:1109-1122: the first source wins *)
Definition merged_maps (ss : list sparse) : smap :=
  match ss with
  | [] => []
  | s :: r =>
      fold_left (fun m s =>
        fold_left (fun m '(o, v) => match s_find m o with Some _ => m | None => s_set m o v end)
          (sp_map s) m) r (sp_map s)
  end.
(** data_bag.cc:1082-1146 CreateMutableDenseSource; [rest]: the parents. None: an
    error *)
Definition create_mutable_dense (h : heap) (rest : list (nat * layer)) (k : key) (size : N)
    (qtype : option kind) (c : coll) : option coll :=
  let md := option_map mutable_copy (cd_of h k c) in
  match md, msparse c with
  | Some d, None => Some (mkColl None (Some d) None (lookup_parent c))
  | _, _ =>
      let ss := match msparse c with Some s => [s] | None => [] end in
      let '(ss, d) :=
        if lookup_parent c
        then let '(ps, d) := data_sources h rest k in (ss ++ ps, d)
        else (ss, None) in
      let d :=
        match d, md with
        | Some d, _ => mutable_copy d
        | None, Some d => d
        | None, None => create_mutable (fst k) size qtype
        end in
      match ss with
      | [] => Some (mkColl None (Some d) None false)
      | _ =>
          let data := merged_maps ss in
          match dense_set_all d (map (fun '(o, _) => Some o) data) (build_slice (map snd data)) with
          | Some d => Some (mkColl None (Some d) None false)
          | None => None
          end
      end
  end.
(** data_bag.cc:920-935 GetOrCreateMutableSourceInCollection *)
Definition mutable_source (h : heap) (rest : list (nat * layer)) (k : key)
    (qtype : option kind) (update_size : N) (c : coll) : option coll :=
  match mdense c with
  | Some _ => Some c
  | None =>
      if (update_size <=? capacity (fst k) / 64)%N
      then Some (mkColl (Some (match msparse c with Some s => s | None => mkSparse (Some (fst k)) [] end))
                   None (cdense c) (lookup_parent c))
      else create_mutable_dense h rest k (capacity (fst k)) qtype c
  end.
(** data_bag.cc:1148-1154 GetOrCreateSourceCollection *)
Definition get_or_create_coll (l : layer) (k : key) : coll :=
  match a_find key_dec (big l) k with
  | Some c => c
  | None => mkColl None None None (match parent l with Some _ => true | None => false end)
  end.
Definition set_big (l : layer) (k : key) (c : coll) : layer :=
  mkLayer (frozen l) (parent l) (small l) (a_set key_dec (big l) k c) (lists l) (dicts l).
(** data_bag.cc:551-553 GetMutableSmallAllocSource *)
Definition small_source (l : layer) (attr : string) : smap :=
  match a_find string_dec (small l) attr with Some m => m | None => [] end.
Definition set_small (l : layer) (attr : string) (m : smap) : layer :=
  mkLayer (frozen l) (parent l) (a_set string_dec (small l) attr m) (big l) (lists l) (dicts l).

Definition layer_set_attr (h : heap) (rest : list (nat * layer)) (l : layer) (o : ObjectId)
    (attr : string) (v : ditem) : option layer :=
  if is_small_alloc o
  then Some (set_small l attr (sp_map (sparse_set (mkSparse None (small_source l attr)) o v)))
  else
    let k := (allocation_of o, attr) in
    match mutable_source h rest k (option_map (@projT1 _ _) v) 1 (get_or_create_coll l k) with
    | None => None
    | Some c =>
        match mdense c, msparse c with
        | Some d, _ =>
            option_map (fun d => set_big l k (mkColl (msparse c) (Some d) (cdense c) (lookup_parent c)))
              (dense_set d o v)
        | None, Some s => Some (set_big l k (mkColl (Some (sparse_set s o v)) None (cdense c) (lookup_parent c)))
        | None, None => None
        end
    end.
(** data_bag.cc:1258-1285 SetAttr of one object *)
Definition on_layer (h : heap) (a : nat) (f : layer -> option layer) : option heap :=
  match nth_error h a with
  | None => None
  | Some l => if frozen l then None else option_map (put h a) (f l)
  end.
Definition set_attr (h : heap) (a : nat) (o : ObjectId) (attr : string) (v : ditem) : option heap :=
  on_layer h a (fun l => layer_set_attr h (parents h a) l o attr v).

Definition slice_kind (vs : slice) : option kind :=
  match sl_values vs with [existT _ k _] => Some k | _ => None end.
Fixpoint fold_opt {A S} (f : S -> A -> option S) (l : list A) (s : S) : option S :=
  match l with
  | [] => Some s
  | x :: r => match f s x with Some s => fold_opt f r s | None => None end
  end.
(** data_bag.cc:1207-1256 SetAttr of many, with the allocation ids of the objects *)
Definition layer_set_attrs (h : heap) (rest : list (nat * layer)) (l : layer)
    (objs : list (option ObjectId)) (ids : list ObjectId) (has_small : bool) (attr : string) (vs : slice)
  : option layer :=
  match (if has_small
         then option_map (fun s => set_small l attr (sp_map s))
                (sparse_set_all (mkSparse None (small_source l attr)) objs vs)
         else Some l) with
  | None => None
  | Some l =>
      if too_many_ids (length ids) (sl_size vs)
      then
        fold_opt (fun l '(i, o) =>
          if is_small_alloc o then Some l
          else layer_set_attr h rest l o attr (slice_at vs i)) (present_at objs) l
      else
        fold_opt (fun l id =>
          let k := (id, attr) in
          match mutable_source h rest k (slice_kind vs) (N.of_nat (length objs)) (get_or_create_coll l k) with
          | None => None
          | Some c =>
              match mdense c, msparse c with
              | Some d, _ =>
                  option_map (fun d => set_big l k (mkColl (msparse c) (Some d) (cdense c) (lookup_parent c)))
                    (dense_set_all d objs vs)
              | None, Some s =>
                  option_map (fun s => set_big l k (mkColl (Some s) None (cdense c) (lookup_parent c)))
                    (sparse_set_all s objs vs)
              | None, None => None
              end
          end) ids l
  end.
Definition set_attrs (h : heap) (a : nat) (objs : list (option ObjectId)) (ids : list ObjectId)
    (has_small : bool) (attr : string) (vs : slice) : option heap :=
  on_layer h a (fun l => layer_set_attrs h (parents h a) l objs ids has_small attr vs).

(** data_bag.cc:1027-1080 CreateObjectsFromFields for a new big allocation: the
    values of one attribute after the other (for a small one it is SetAttr of
    all). emplace does not replace anything. *)
Definition layer_create (l : layer) (alloc : ObjectId) (fields : list (string * dslice)) : option layer :=
  fold_opt (fun l '(attr, s) =>
    match (match ds_values s with [] => Some (create_all_removed alloc) | _ => create_readonly alloc s end) with
    | None => None
    | Some d =>
        Some (match a_find key_dec (big l) (alloc, attr) with
              | Some _ => l
              | None => set_big l (alloc, attr) (mkColl None None (Some (CVal d)) false)
              end)
    end) fields l.
Definition create_objects (h : heap) (a : nat) (alloc : ObjectId) (fields : list (string * dslice)) : option heap :=
  on_layer h a (fun l => layer_create l alloc fields).

(** data_bag.cc:1156-1205 SetAttrFullAlloc: values for all objects of an allocation;
    unset values leave the objects as they are. If there is no value it does nothing
    (1160-1163), even if the missing values are removed ones. *)
Definition slice_of (s : dslice) : slice :=
  DataListModel.mkSlice (N.to_nat (ds_size s))
    (map (fun a : {k : kind & array k} =>
            let 'existT _ k f := a in existT (fun k => list (option (cval k))) k (map f (below (ds_size s))))
       (ds_values s)).
(** the objects whose value is set (types_buffer.h ToSetBitmap) *)
Definition set_objects (alloc : ObjectId) (s : dslice) : list (option ObjectId) :=
  map (fun off => match ds_tidx s with
                  | Some t => match t off with TUnset => None | _ => Some (object_by_offset alloc off) end
                  | None => Some (object_by_offset alloc off)
                  end) (below (ds_size s)).
Definition layer_set_full (h : heap) (rest : list (nat * layer)) (l : layer) (alloc : ObjectId) (attr : string)
    (s : dslice) : option layer :=
  match ds_values s with
  | [] => Some l
  | _ =>
      let has_source l := match a_find key_dec (big l) (alloc, attr) with Some _ => true | None => false end in
      let use_new_dense_source :=
        negb (is_small_alloc alloc)
        && match ds_tidx s with
           | None => true
           | Some _ => negb (has_source l) && forallb (fun '(_, l) => negb (has_source l)) rest
           end in
      if use_new_dense_source
      then option_map (fun d => set_big l (alloc, attr) (mkColl None None (Some (CVal d)) false)) (create_readonly alloc s)
      else layer_set_attrs h rest l (set_objects alloc s)
             (if is_small_alloc alloc then [] else [alloc]) (is_small_alloc alloc) attr (slice_of s)
  end.
Definition set_attr_full (h : heap) (a : nat) (alloc : ObjectId) (attr : string) (s : dslice) : option heap :=
  on_layer h a (fun l => layer_set_full h (parents h a) l alloc attr s).

(** *** Lists *)

(** data_list.h:326-332 Get, data_list.cc:208-218 GetFromMap; [up]: what the parent
    vector has *)
Definition lvec_get (v : lvec) (i : N) (up : option (list ditem)) : option (list ditem) :=
  match lv_data v with
  | LArray f => match f i with LNull => None | LOwn l => Some l | LParent => up end
  | LMap m =>
      match a_find N.eq_dec m i with
      | Some l => Some l
      | None => if lv_parent v then up else None
      end
  end.
(** data_bag.cc:1349-1367 GetConstListsOrNull, and Get *)
Fixpoint look_list (ch : list (nat * layer)) (alloc : ObjectId) (i : N) : option (list ditem) :=
  match ch with
  | [] => None
  | (_, l) :: r =>
      match a_find oid_eq_dec (lists l) alloc with
      | Some v => lvec_get v i (look_list r alloc i)
      | None => look_list r alloc i
      end
  end.
Fixpoint has_lists (ch : list (nat * layer)) (alloc : ObjectId) : option lvec :=
  match ch with
  | [] => None
  | (_, l) :: r =>
      match a_find oid_eq_dec (lists l) alloc with Some v => Some v | None => has_lists r alloc end
  end.
(** data_bag.cc:1369-1425 GetFirstPresentList with fallbacks; kEmptyList otherwise *)
Fixpoint get_list (h : heap) (bags : list nat) (o : ObjectId) : option (list ditem) :=
  match bags with
  | [] => None
  | a :: r => or_else (look_list (chain h a) (allocation_of o) (offset o)) (get_list h r o)
  end.

(** data_list.h:290-292 ShouldUseArray *)
Definition should_use_array (size update_size : N) : bool :=
  (size <=? 4)%N || (size * 3 <? update_size * 10)%N.
(** data_list.h:297-324 constructors, data_bag.cc:1427-1446 GetOrCreateMutableLists *)
Definition get_or_create_lists (rest : list (nat * layer)) (l : layer) (alloc : ObjectId) (update_size : N) : lvec :=
  match a_find oid_eq_dec (lists l) alloc with
  | Some v => v
  | None =>
      match has_lists rest alloc with
      | Some p =>
          mkLvec (lv_size p) true
            (if should_use_array (lv_size p) update_size then LArray (fun _ => LParent) else LMap [])
      | None =>
          mkLvec (capacity alloc) false
            (if should_use_array (capacity alloc) update_size then LArray (fun _ => LNull) else LMap [])
      end
  end.
(** GetMutable and the edit of the list: data_list.cc:194-206 ConvertToArray,
    220-230 GetMutableFromArray, 232-253 GetMutableFromMap *)
Definition lvec_edit (v : lvec) (i : N) (up : option (list ditem)) (f : list ditem -> list ditem) : lvec :=
  let edit_array g :=
    let cur := match g i with
               | LNull => []
               | LOwn l => l
               | LParent => match up with Some l => l | None => [] end
               end in
    LArray (fupd g i (LOwn (f cur))) in
  mkLvec (lv_size v) (lv_parent v)
    match lv_data v with
    | LArray g => edit_array g
    | LMap m =>
        match a_find N.eq_dec m i with
        | Some l => LMap (a_set N.eq_dec m i (f l))
        | None =>
            if should_use_array (lv_size v) (N.of_nat (length m) + 1)
            then edit_array (fun j => match a_find N.eq_dec m j with
                                      | Some l => LOwn l
                                      | None => if lv_parent v then LParent else LNull
                                      end)
            else LMap (a_set N.eq_dec m i
                         (f (if lv_parent v then match up with Some l => l | None => [] end else [])))
        end
    end.
(** data_bag.cc:1316-1347 MutableListGetter and one edit of the list it returns *)
Definition edit_list (h : heap) (a : nat) (o : ObjectId) (update_size : N) (f : list ditem -> list ditem) : option heap :=
  let alloc := allocation_of o in
  if negb (is_list alloc) then None else
  on_layer h a (fun l =>
    let v := get_or_create_lists (parents h a) l alloc update_size in
    let v := lvec_edit v (offset o) (look_list (parents h a) alloc (offset o)) f in
    Some (mkLayer (frozen l) (parent l) (small l) (big l) (a_set oid_eq_dec (lists l) alloc v) (dicts l))).

(** *** Dicts *)

(** dict.h:199-208: a dict on top of the parent's *)
Definition on_top (p : option dict) : option dict :=
  match p with
  | None => None
  | Some p => match d_data p with [] => d_parent p | _ => Some p end
  end.
(** data_bag.cc:2110-2122 GetConstDictsOrNull: the dict with its parents; it is at
    the address of its layer *)
Fixpoint look_dict (ch : list (nat * layer)) (alloc : ObjectId) (i : N) : option dict :=
  match ch with
  | [] => None
  | (a, l) :: r =>
      match a_find oid_eq_dec (dicts l) alloc with
      | Some v =>
          Some (mkDict (N.of_nat a) (od_data (v i))
                  (if od_cut (v i) then None else on_top (look_dict r alloc i)))
      | None => look_dict r alloc i
      end
  end.
(** data_bag.cc:2163-2189 ReadOnlyDictGetter: empty_dict_ if there is none *)
Definition read_dict (h : heap) (a : nat) (o : ObjectId) : dict :=
  match look_dict (chain h a) (allocation_of o) (offset o) with
  | Some d => d
  | None => mkDict 0 [] None
  end.
(** data_bag.cc:2674-2712 GetFromDictObjectWithFallbacks, and at one position
    2357-2398 and 2421-2437 GetFromDictImpl: None: no bag has the key *)
Fixpoint get_from_dict (h : heap) (bags : list nat) (o : ObjectId) (k : value) : option ditem :=
  match bags with
  | [] => None
  | a :: r => or_else (d_get (read_dict h a o) k) (get_from_dict h r o k)
  end.
(** data_bag.cc:2124-2149 GetOrCreateMutableDicts *)
Definition get_or_create_dicts (l : layer) (alloc : ObjectId) : dvec :=
  match a_find oid_eq_dec (dicts l) alloc with
  | Some v => v
  | None => fun _ => mkOwnDict [] false
  end.
(** one write to a dict; [iter] as in DictModel.v *)
Definition edit_dict (iter : dmap -> dmap) (h : heap) (a : nat) (o : ObjectId) (op : dict_op) : option heap :=
  let alloc := allocation_of o in
  if negb (is_dict alloc || is_schema alloc) then None else
  on_layer h a (fun l =>
    let v := get_or_create_dicts l alloc in
    let l1 := mkLayer (frozen l) (parent l) (small l) (big l) (lists l) (a_set oid_eq_dec (dicts l) alloc v) in
    match look_dict ((a, l1) :: parents h a) alloc (offset o) with
    | None => None
    | Some d =>
        let d := dict_step iter d op in
        let od := mkOwnDict (d_data d) (match d_parent d with None => true | Some _ => false end) in
        Some (mkLayer (frozen l) (parent l) (small l) (big l) (lists l)
                (a_set oid_eq_dec (dicts l) alloc (fupd v (offset o) od)))
    end).

(** ** koladata/data_bag.h:66-260 DataBag *)
Record bag := mkBag {
  impl : nat;
  bag_mutable : bool;
  forked : bool;
  fallbacks : list nat
}.
Record state := mkState { layers : heap; bags : list bag }.
Definition init : state := mkState [] [].
Definition put_bag (bs : list bag) (b : nat) (x : bag) : list bag :=
  firstn b bs ++ match skipn b bs with [] => [] | _ :: r => x :: r end.

(** data_bag.h:228-240, data_bag.cc:51-66: a new bag; ImmutableEmptyWithFallbacks
    refuses mutable fallbacks *)
Definition new_bag (st : state) (mut : bool) (fbs : list nat) : state :=
  mkState (layers st ++ [mkLayer (negb mut) None [] [] [] []])
          (bags st ++ [mkBag (length (layers st)) mut false fbs]).
Definition immutable_with_fallbacks (st : state) (fbs : list nat) : option state :=
  if forallb (fun b => match nth_error (bags st) b with
                       | Some x => negb (bag_mutable x)
                       | None => false
                       end) fbs
  then Some (new_bag st false fbs) else None.

(** koladata/data_bag.cc:68-93 FallbackFreeFork of the bag [b] *)
Definition fallback_free_fork (st : state) (b : nat) (immutable : bool) : option state :=
  match nth_error (bags st) b with
  | None => None
  | Some x =>
      match impl_fork (layers st) (impl x) with
      | None => None
      | Some (h, a) =>
          let h := freeze h (impl x) in
          let h := if immutable then freeze h a else h in
          let x := if bag_mutable x then mkBag (impl x) true true (fallbacks x) else x in
          Some (mkState h (put_bag (bags st) b x ++ [mkBag a (negb immutable) false []]))
      end
  end.
(** 95-102 Fork: refused with fallbacks *)
Definition fork (st : state) (b : nat) (immutable : bool) : option state :=
  match nth_error (bags st) b with
  | Some x => match fallbacks x with [] => fallback_free_fork st b immutable | _ => None end
  | None => None
  end.
(** 104-111 Freeze: an immutable bag is its own frozen version *)
Definition freeze_bag (st : state) (b : nat) : option (state * nat) :=
  match nth_error (bags st) b with
  | None => None
  | Some x =>
      if bag_mutable x
      then option_map (fun st' => (st', length (bags st))) (fallback_free_fork st b true)
      else Some (st, b)
  end.
(** data_bag.h:120-123 UnsafeMakeImmutable *)
Definition make_immutable (st : state) (b : nat) : option state :=
  match nth_error (bags st) b with
  | None => None
  | Some x => Some (mkState (freeze (layers st) (impl x))
                      (put_bag (bags st) b (mkBag (impl x) false (forked x) (fallbacks x))))
  end.
(** data_bag.h:90-106 GetMutableImpl *)
Definition mutable_impl (st : state) (b : nat) : option (state * nat) :=
  match nth_error (bags st) b with
  | None => None
  | Some x =>
      if negb (bag_mutable x) then None
      else if forked x then
        let h := freeze (layers st) (impl x) in
        match impl_fork h (impl x) with
        | None => None
        | Some (h, a) => Some (mkState h (put_bag (bags st) b (mkBag a true false (fallbacks x))), a)
        end
      else Some (st, impl x)
  end.
(** a write through the bag [b]: if it fails after GetMutableImpl, the bag may
    already have a new impl *)
Definition write_bag (st : state) (b : nat) (f : heap -> nat -> option heap) : state * bool :=
  match mutable_impl st b with
  | None => (st, false)
  | Some (st, a) =>
      match f (layers st) a with
      | Some h => (mkState h (bags st), true)
      | None => (st, false)
      end
  end.

(** koladata/data_bag.cc:194-214 VisitFallbacks, data_bag.h:271-280
    FlattenFallbackFinder: the fallbacks of [b] (not [b] itself) in the order in
    which they are visited. [fuel] bounds the number of times something is taken
    from the stack. *)
Fixpoint visit (bs : list bag) (fuel : nat) (stack : list nat) (seen : list nat) : list nat :=
  match fuel, stack with
  | S fuel, f :: stack =>
      if existsb (Nat.eqb f) seen then visit bs fuel stack seen
      else f :: visit bs fuel (match nth_error bs f with Some x => fallbacks x | None => [] end ++ stack) (f :: seen)
  | _, _ => []
  end.
Definition all_fallbacks (bs : list bag) : list nat := flat_map fallbacks bs.
Definition flatten_fallbacks (st : state) (b : nat) : list nat :=
  match nth_error (bags st) b with
  | None => []
  | Some x => visit (bags st) (2 * length (all_fallbacks (bags st))) (fallbacks x) [b]
  end.
(** The impls of a bag and its fallbacks, as the lookups get them *)
Definition impls_of (st : state) (b : nat) : list nat :=
  flat_map (fun f => match nth_error (bags st) f with Some x => [impl x] | None => [] end)
    (b :: flatten_fallbacks st b).
