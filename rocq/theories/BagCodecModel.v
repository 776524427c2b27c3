(** Serialization of bags: koladata/internal/data_bag.cc (CreateIndex, ExtractContent,
    SetSchemaAttr), koladata/s11n/encoder.cc and decoder.cc (data bags). Items and
    slices in the messages are taken as values; how they are written is in
    S11nModel.v (C45). *)
From Coq Require Import String Ascii NArith ZArith List Bool Arith.
From Verif Require Import ObjectIdModel SchemaModel ItemModel DataListModel DictModel SourceModel BagModel MergeModel.
Import ListNotations.
Local Open Scope nat_scope.

(** ** Messages *)

(** codec.proto AttrChunkProto: one value of one object, or the values of the
    objects of an allocation ([None]: unset, [Some None]: removed) *)
Inductive chunk :=
  | CItem (o : ObjectId) (v : ditem)
  | CAlloc (first : ObjectId) (vs : list (option ditem)).
(** codec.proto:153-164 DataBagProto with its AttrProto, ListProto and DictProto, the
    values put in the places of their indices. *)
Record bag_msg := mkMsg {
  m_immutable : bool;
  m_attrs : list (string * list chunk);
  m_lists : list (ObjectId * list ditem);
  m_dicts : list (ObjectId * list value * list ditem)
}.
(** A message and those of the fallbacks. (A fallback that occurs twice is written
    once and referred to twice: bag_id and arolla's table of values; here it is
    written each time.) *)
Inductive dumped := Dumped (m : bag_msg) (fbs : list dumped).

(** ** Encoding *)

(** The orders in which things are written: std::sort, btree_map (which sort, but what
    the order is does not matter here). *)
Record orders := mkOrders {
  o_names : list string -> list string;
  o_ids : list ObjectId -> list ObjectId;
  o_items : list (ObjectId * ditem) -> list (ObjectId * ditem);
  o_keys : list value -> list value
}.

Section Encode.
Variable iter : dmap -> dmap.
Variable ord : orders.

(** data_bag.cc:3919-3952 CreateIndex, from a layer and its parents *)
Definition big_keys (ch : list (nat * layer)) : list key := flat_map (fun '(_, l) => map fst (big l)) ch.
Definition small_names (ch : list (nat * layer)) : list string := flat_map (fun '(_, l) => map fst (small l)) ch.
Definition index_names (ch : list (nat * layer)) : list string :=
  o_names ord (nodup string_dec (map snd (big_keys ch) ++ small_names ch)).
Definition index_allocs (ch : list (nat * layer)) (attr : string) : list ObjectId :=
  o_ids ord (nodup oid_eq_dec
    (map fst (filter (fun k => if string_dec (snd k) attr then true else false) (big_keys ch)))).
Definition with_small_allocs (ch : list (nat * layer)) (attr : string) : bool :=
  if in_dec string_dec attr (small_names ch) then true else false.
Definition index_lists (ch : list (nat * layer)) : list ObjectId :=
  o_ids ord (nodup oid_eq_dec (flat_map (fun '(_, l) => map fst (lists l)) ch)).
Definition index_dicts (ch : list (nat * layer)) : list ObjectId :=
  o_ids ord (nodup oid_eq_dec (flat_map (fun '(_, l) => map fst (dicts l)) ch)).

(** the loops over several sources: of an object that was visited nothing more is
    taken *)
Definition visit_all (ss : list sparse) : list (ObjectId * ditem) :=
  dedup oid_eq_dec fst [] (flat_map sp_map ss).
(** 4002-4017 ExtractSmallAllocAttrContent *)
Definition small_items (ch : list (nat * layer)) (attr : string) : list (ObjectId * ditem) :=
  visit_all (small_sources ch attr).
(** 876-916 GetAttributeDataSources of an allocation *)
Definition sources_of (h : heap) (ch : list (nat * layer)) (alloc : ObjectId) (attr : string) : list sparse * option dense :=
  if is_small_alloc alloc then (small_sources ch attr, None) else data_sources h ch (alloc, attr).
(** 96-125 GetAttributeFromSources of the first [size] objects of an allocation *)
Definition alloc_values (alloc : ObjectId) (size : N) (ss : list sparse) (d : dense) : list (option ditem) :=
  let b := new_builder (map (fun i => Some (object_by_offset alloc i)) (below size)) in
  map snd (fill_dense (fold_left fill_sparse ss b) d).
(** 4019-4068 ExtractAttrContent: what one allocation adds to the items and to the
    allocations *)
Definition alloc_content (h : heap) (ch : list (nat * layer)) (attr : string) (alloc : ObjectId)
  : list (ObjectId * ditem) * list (ObjectId * list (option ditem)) :=
  let '(ss, d) := sources_of h ch alloc attr in
  let size := match d with Some d => de_size d | None => capacity alloc end in
  if (size =? 0)%N then ([], [])
  else match d with
       | None => (match ss with [s] => sp_map s | _ => visit_all ss end, [])
       | Some d => ([], [(alloc, alloc_values alloc size ss d)])
       end.
(** with encoder.cc:282-311 EncodeAttribute *)
Definition attr_chunks (h : heap) (ch : list (nat * layer)) (attr : string) : list chunk :=
  let found := map (alloc_content h ch attr) (index_allocs ch attr) in
  let items := (if with_small_allocs ch attr then small_items ch attr else []) ++ flat_map fst found in
  map (fun '(o, v) => CItem o v) (o_items ord items)
  ++ map (fun '(alloc, vs) => CAlloc (object_by_offset alloc 0) vs) (flat_map snd found).

(** data_bag.cc:3954-3984 ListVectorToContent, encoder.cc:332-361 EncodeLists: the
    lists of an allocation that are set. (The code concatenates them and cuts them
    apart again.) *)
Definition alloc_lists (ch : list (nat * layer)) (alloc : ObjectId) : option (list (ObjectId * list ditem)) :=
  if negb (is_list alloc) then None
  else Some match has_lists ch alloc with
            | None => []
            | Some v =>
                flat_map (fun i => match look_list ch alloc i with
                                   | Some l => [(object_by_offset alloc i, l)]
                                   | None => []
                                   end) (below (lv_size v))
            end.
(** data_bag.cc:3986-4000 AddDictToContent, encoder.cc:313-330 EncodeDict; None: a key
    without a value, undefined in the code *)
Fixpoint values_of (d : dict) (keys : list value) : option (list ditem) :=
  match keys with
  | [] => Some []
  | k :: r => bind (d_get d k) (fun v => option_map (cons v) (values_of d r))
  end.
Definition dict_content (o : ObjectId) (d : dict) : option (list (ObjectId * list value * list ditem)) :=
  match o_keys ord (d_keys iter d []) with
  | [] => Some []
  | keys => option_map (fun vs => [(o, keys, vs)]) (values_of d keys)
  end.
Fixpoint concat_opt {A} (l : list (option (list A))) : option (list A) :=
  match l with
  | [] => Some []
  | x :: r => bind x (fun x => option_map (app x) (concat_opt r))
  end.
(** the loop of ExtractContent over the dicts of an allocation *)
Definition alloc_dicts (ch : list (nat * layer)) (alloc : ObjectId) : option (list (ObjectId * list value * list ditem)) :=
  if negb (is_dict alloc) && negb (is_schema alloc) then None
  else concat_opt (map (fun i => match look_dict ch alloc i with
                                 | Some d => dict_content (object_by_offset alloc i) d
                                 | None => Some []
                                 end) (below (capacity alloc))).
(** encoder.cc:363-417 EncodeDataBag with data_bag.cc:4170-4212 ExtractContent: what is
    in the bag's own layers *)
Definition encode_impl (h : heap) (a : nat) (immutable : bool) : option bag_msg :=
  let ch := chain h a in
  bind (concat_opt (map (alloc_lists ch) (index_lists ch))) (fun ls =>
  bind (concat_opt (map (alloc_dicts ch) (index_dicts ch))) (fun ds =>
  Some (mkMsg immutable (map (fun attr => (attr, attr_chunks h ch attr)) (index_names ch)) ls ds))).

Fixpoint all_opt {A} (l : list (option A)) : option (list A) :=
  match l with
  | [] => Some []
  | x :: r => bind x (fun x => option_map (cons x) (all_opt r))
  end.
(** encoder.cc:363-417, the fallbacks first. [fuel]: how deep fallbacks are nested at
    most *)
Fixpoint dump_from (st : state) (fuel b : nat) : option dumped :=
  match fuel, nth_error (bags st) b with
  | S fuel, Some x =>
      bind (all_opt (map (dump_from st fuel) (fallbacks x))) (fun fbs =>
      option_map (fun m => Dumped m fbs) (encode_impl (layers st) (impl x) (negb (bag_mutable x))))
  | _, _ => None
  end.
(** fallbacks are older than the bags that have them *)
Definition dump (st : state) (b : nat) : option dumped := dump_from st (S b) b.
End Encode.

(** ** Decoding *)

(** schema_attrs.h:36-38; attribute names as texts *)
Definition kSchemaNameAttr : string := "__schema_name__".
Definition kSchemaMetadataAttr : string := "__schema_metadata__".
Definition text_of (s : string) : list N := map N_of_ascii (list_ascii_of_string s).
Definition same_text (a b : list N) : bool := if list_N_eq_dec a b then true else false.

(** The writes that decoding a message does, in order. [WFull]: SetAttrFullAlloc,
    [WExtend]: ExtendList, [WKey]: Dict::Set. *)
Inductive wop :=
  | WAttr (o : ObjectId) (attr : string) (v : ditem)
  | WAttrs (alloc : ObjectId) (attr : string) (objs : list (option ObjectId)) (vs : slice)
  | WFull (alloc : ObjectId) (attr : string) (s : dslice)
  | WExtend (o : ObjectId) (vs : list ditem)
  | WKey (o : ObjectId) (k : value) (v : ditem).
(** data_bag.cc:1258-1285, 1207-1256, 1156-1205, 2016-2042, dict.h:69-80 *)
Definition apply_wop (iter : dmap -> dmap) (a : nat) (h : heap) (w : wop) : option heap :=
  match w with
  | WAttr o attr v => set_attr h a o attr v
  | WAttrs alloc attr objs vs => set_attrs h a objs [alloc] false attr vs
  | WFull alloc attr s => set_attr_full h a alloc attr s
  | WExtend o vs => edit_list h a o 1 (fun l => l ++ vs)
  | WKey o k v => edit_dict iter h a o (DSetKey (Some k) v)
  end.

(** data_bag.cc:186-194 VerifyIsSchemaOrNone *)
Definition is_schema_or_none (v : ditem) : bool :=
  match v with
  | None => true
  | Some v => match as_kind KDType v with
              | Some _ => true
              | None => match as_kind KObjectId v with Some o => is_schema o | None => false end
              end
  end.
Definition holds (k : kind) (v : ditem) : bool :=
  match v with Some v => match as_kind k v with Some _ => true | None => false end | None => false end.
(** data_bag.cc:3016-3030: the values that SetSchemaAttr of one schema accepts *)
Definition schema_value_ok (attr : list N) (v : ditem) : bool :=
  if same_text attr (text_of kSchemaNameAttr) then holds KText v
  else if same_text attr (text_of kSchemaMetadataAttr) then holds KObjectId v
  else is_schema_or_none v.
(** data_bag.cc:3007-3043 SetSchemaAttr of one schema: of a small allocation (the
    attributes are the keys of its dict), and of any *)
Definition set_schema_key (o : ObjectId) (attr : list N) (v : ditem) : option (list wop) :=
  if negb (schema_value_ok attr v) then None
  else if negb (is_schema o) then None
  else Some [WKey o (val KText attr) v].
Definition set_schema_attr (o : ObjectId) (attr : string) (v : ditem) : option (list wop) :=
  if is_small_alloc o then set_schema_key o (text_of attr) v
  else if negb (schema_value_ok (text_of attr) v) then None
  else if negb (is_schema o) then None
  else Some [WAttr o attr v; WKey (allocation_of o) (val KText (text_of attr)) (Some (val KUnit tt))].

(** the values of a slice, missing where they are unset *)
Definition plain (vs : list (option ditem)) : list ditem :=
  map (fun v => match v with Some v => v | None => None end) vs.
(** decoder.cc:606-623: the objects whose values are set *)
Definition set_ids (alloc : ObjectId) (vs : list (option ditem)) : list (option ObjectId) :=
  map (fun '(i, v) => match v with Some _ => Some (object_by_offset alloc i) | None => None end)
    (combine (below (N.of_nat (length vs))) vs).
(** data_bag.cc:3143-3200: the values that SetSchemaAttr of many accepts. The
    attribute is not the name here. *)
Definition schema_values_ok (attr : string) (objs : list (option ObjectId)) (vs : list ditem) : bool :=
  let metadata := same_text (text_of attr) (text_of kSchemaMetadataAttr) in
  let each (f : ditem -> bool) := forallb (fun '(o, v) => match o with Some _ => f v | None => true end) (combine objs vs) in
  match slice_kind (build_slice vs) with
  | Some KDType => true
  | Some KObjectId => each (fun v => metadata || is_schema_or_none v)
  | Some _ => false
  | None => each (fun v => metadata || is_schema_or_none v)
  end.
(** data_bag.cc:3112-3200 SetSchemaAttr of many, of one allocation. In a small
    allocation there is one object at most. (The code writes the values before it
    looks at them; the bag is dropped when there is an error.) *)
Definition set_schema_attrs (alloc : ObjectId) (attr : string) (vs : list (option ditem)) : option (list wop) :=
  let objs := set_ids alloc vs in
  if forallb (fun o => match o with Some _ => false | None => true end) objs then Some []
  else if negb (is_schema alloc) then None
  else if negb (schema_values_ok attr objs (plain vs)) then None
  else if is_small_alloc alloc
  then Some (flat_map (fun '(o, v) => match o with
                                      | Some o => [WKey o (val KText (text_of attr)) v]
                                      | None => []
                                      end) (combine objs (plain vs)))
  else Some [WAttrs alloc attr objs (build_slice (plain vs)); WKey alloc (val KText (text_of attr)) (Some (val KUnit tt))].

(** slice_builder.cc:104-149: a slice of these values with its types buffer; arrays
    only for types that occur *)
Definition all_kinds : list kind :=
  [KObjectId; KInt32; KInt64; KFloat32; KFloat64; KBool; KUnit; KText; KBytes; KExprQuote; KDType].
Definition value_at (vs : list (option ditem)) (off : N) : option value :=
  match nth_error vs (N.to_nat off) with Some (Some (Some v)) => Some v | _ => None end.
Definition found_kinds (vs : list (option ditem)) : list kind :=
  filter (fun k => existsb (fun v => match v with Some v => holds k v | None => false end) vs) all_kinds.
Fixpoint index_of (k : kind) (ks : list kind) : nat :=
  match ks with
  | [] => 0
  | k' :: r => if kind_eq_dec k' k then 0 else S (index_of k r)
  end.
Definition build_dslice (vs : list (option ditem)) : dslice :=
  mkDslice (N.of_nat (length vs))
    (Some (fun off => match nth_error vs (N.to_nat off) with
                      | Some (Some (Some v)) => TIdx (index_of (projT1 v) (found_kinds vs))
                      | Some (Some None) => TRemoved
                      | _ => TUnset
                      end))
    (map (fun k => existT array k (fun off => match value_at vs off with Some v => as_kind k v | None => None end))
       (found_kinds vs)).

(** decoder.cc:569-629 DecodeAttrProto, one chunk *)
Definition decode_chunk (attr : string) (c : chunk) : option (list wop) :=
  match c with
  | CItem o v =>
      if is_schema o && negb (String.eqb attr kSchemaNameAttr) then set_schema_attr o attr v
      else Some [WAttr o attr v]
  | CAlloc o vs =>
      let alloc := allocation_of o in
      if negb (offset o =? 0)%N then None
      else if (capacity alloc <? N.of_nat (length vs))%N then None
      else if negb (is_schema alloc) || String.eqb attr kSchemaNameAttr
      then Some [WFull alloc attr (build_dslice vs)]
      else set_schema_attrs alloc attr vs
  end.
Definition decode_attr (m : string * list chunk) : option (list wop) :=
  let '(attr, cs) := m in concat_opt (map (decode_chunk attr) cs).
(** decoder.cc:631-640 DecodeListProto *)
Definition decode_list (m : ObjectId * list ditem) : list wop := let '(o, vs) := m in [WExtend o vs].
(** decoder.cc:642-670 DecodeDictProto with data_bag.cc:2452-2527 SetInDict. (If
    there are fewer values than keys, which the encoder does not write, the code reads
    beyond the end of the values in some cases; here it is an error.) *)
Definition decode_dict (m : ObjectId * list value * list ditem) : option (list wop) :=
  let '(o, keys, values) := m in
  if negb (length keys =? length values) then None
  else if is_schema o then
    if is_small_alloc o
    then concat_opt (map (fun '(k, v) => match as_kind KText k with
                                         | Some attr => set_schema_key o attr v
                                         | None => None
                                         end) (combine keys values))
    else Some []
  else match keys with
       | [] => Some []
       | _ =>
           if existsb (fun k => unsupported_key (Some k)) keys then None
           else if negb (is_dict (allocation_of o)) then None
           else Some (map (fun '(k, v) => WKey o k v) (combine keys values))
       end.
(** decoder.cc:694-706: attributes, lists, dicts *)
Definition decode_writes (m : bag_msg) : option (list wop) :=
  bind (concat_opt (map decode_attr (m_attrs m))) (fun ws1 =>
  bind (concat_opt (map decode_dict (m_dicts m))) (fun ws3 =>
  Some (ws1 ++ flat_map decode_list (m_lists m) ++ ws3))).

Section Decode.
Variable iter : dmap -> dmap.

(** decoder.cc:694-709: a new bag with this content *)
Definition load_plain (st : state) (m : bag_msg) : option (state * nat) :=
  bind (decode_writes m) (fun ws =>
  let b := length (bags st) in
  let st := new_bag st true [] in
  bind (mutable_impl st b) (fun '(st, a) =>
  bind (fold_opt (apply_wop iter a) ws (layers st)) (fun h =>
  let st := mkState h (bags st) in
  if m_immutable m then option_map (fun st => (st, b)) (make_immutable st b) else Some (st, b)))).
Definition no_content (m : bag_msg) : bool :=
  match m_attrs m, m_lists m, m_dicts m with [], [], [] => true | _, _, _ => false end.
(** decoder.cc:674-722 DecodeDataBagValue; the fallbacks are decoded before *)
Fixpoint load (st : state) (d : dumped) : option (state * nat) :=
  let 'Dumped m fbs := d in
  match fbs with
  | [] => load_plain st m
  | _ =>
      bind ((fix load_all (st : state) (fbs : list dumped) : option (state * list nat) :=
               match fbs with
               | [] => Some (st, [])
               | d :: r =>
                   bind (load st d) (fun '(st, b) =>
                   bind (load_all st r) (fun '(st, bs) => Some (st, b :: bs)))
               end) st fbs) (fun '(st, bs) =>
      if negb (no_content m) then None
      else
        bind ((fix freeze_all (st : state) (bs : list nat) : option (state * list nat) :=
                 match bs with
                 | [] => Some (st, [])
                 | b :: r =>
                     bind (freeze_bag st b) (fun '(st, b) =>
                     bind (freeze_all st r) (fun '(st, bs) => Some (st, b :: bs)))
                 end) st bs) (fun '(st, bs) =>
        option_map (fun st' => (st', length (bags st))) (immutable_with_fallbacks st bs)))
  end.
End Decode.
