(** kd.extract: koladata/internal/op_utils/extract.cc (class CopyingProcessor,
    ExtractOp), and the reads and writes of DataBagImpl it uses
    (koladata/internal/data_bag.cc).

    Modelled: extraction with the schema taken from the bag of the data
    (schema_databag == nullptr), without a bound on the depth (max_depth == -1,
    which is what kd.extract asks for), without casting and leaf callbacks.
    A slice is the list of its present items: missing items are dropped, and
    so the visit of a slice without present items by an OBJECT schema, which
    queues an empty slice without any effect, is dropped as well. *)

From Coq Require Import String List NArith Arith Bool.
Import ListNotations.
Open Scope list_scope.

(** ** Ids and items *)

(** The type bits of an id, object_id.h:40-330; the flag of a schema says
    whether it is a no-follow schema. *)
Inductive kind := KEntity | KList | KDict | KSchema (nofollow : bool).

(** AllocationId: a block of ids; [a_cap] is Capacity(). *)
Record alloc := mkAlloc { a_kind : kind; a_cap : nat; a_num : N }.

(** ObjectId: an allocation and an offset. *)
Record id := mkId { i_alloc : alloc; i_off : nat }.

(** object_id.h:50-51 kSmallAllocMaxCapacity. *)
Definition small (a : alloc) : bool := Nat.leb (a_cap a) 2.

(** schema::DType, as far as extract.cc looks at it; the other primitive
    types are numbered. *)
Inductive dtype := TObject | TSchema | TItemId | TPrim (t : N).

(** DataItem. *)
Inductive item := IId (x : id) | IPrim (t : N) (v : N) | IDType (t : dtype).

Definition kind_eq_dec (a b : kind) : {a = b} + {a <> b}.
Proof. decide equality. apply bool_dec. Defined.
Definition alloc_eq_dec (a b : alloc) : {a = b} + {a <> b}.
Proof. decide equality. apply N.eq_dec. apply Nat.eq_dec. apply kind_eq_dec. Defined.
Definition id_eq_dec (a b : id) : {a = b} + {a <> b}.
Proof. decide equality. apply Nat.eq_dec. apply alloc_eq_dec. Defined.
Definition dtype_eq_dec (a b : dtype) : {a = b} + {a <> b}.
Proof. decide equality. apply N.eq_dec. Defined.
Definition item_eq_dec (a b : item) : {a = b} + {a <> b}.
Proof. decide equality. apply id_eq_dec. apply N.eq_dec. apply N.eq_dec. apply dtype_eq_dec. Defined.

Definition cell_eq_dec (a b : option item) : {a = b} + {a <> b}.
Proof. decide equality. apply item_eq_dec. Defined.

(** schema_attrs.h:25-38. *)
Definition kSchemaAttr : string := "__schema__".
Definition kItems : string := "__items__".
Definition kKeys : string := "__keys__".
Definition kValues : string := "__values__".
Definition kName : string := "__schema_name__".
Definition kMetadata : string := "__schema_metadata__".

(** ** Bags *)

(** What a bag says about one attribute: [None] in the outer option means
    unset, [Some None] removed. *)
Notation cell := (option item).

(** DataBagImpl: values of single objects (small allocations and sparse
    sources), values of whole allocations (dense sources), lists, dicts, and
    the attributes of schemas. A dense source holds one entry per offset.
    The parents of a bag are not modelled (they are in BagModel). *)
Record layer := mkLayer {
  l_attrs : list ((id * string) * cell);
  l_dense : list ((alloc * string) * list (option cell));
  l_lists : list (id * list cell);
  l_dicts : list ((id * item) * cell);
  l_schemas : list ((id * string) * cell) }.

Definition empty_layer : layer := mkLayer [] [] [] [] [].

(** A bag with its fallbacks, in the order of lookup. *)
Definition bag := list layer.

Definition pair_eq_dec {A B} (da : forall a b : A, {a = b} + {a <> b})
    (db : forall a b : B, {a = b} + {a <> b}) (x y : A * B) : {x = y} + {x <> y}.
Proof. decide equality. Defined.

Definition key_eq_dec := pair_eq_dec id_eq_dec string_dec.
Definition akey_eq_dec := pair_eq_dec alloc_eq_dec string_dec.
Definition dkey_eq_dec := pair_eq_dec id_eq_dec item_eq_dec.

Fixpoint find_key {K V} (dec : forall a b : K, {a = b} + {a <> b}) (k : K)
    (l : list (K * V)) : option V :=
  match l with
  | [] => None
  | (k', v) :: r => if dec k k' then Some v else find_key dec k r
  end.

(** The first answer of the bag and its fallbacks. *)
Fixpoint first_of {A} (f : layer -> option A) (b : bag) : option A :=
  match b with
  | [] => None
  | l :: r => match f l with Some v => Some v | None => first_of f r end
  end.

(** data_bag.cc:621-695 for one bag: sparse sources have priority over dense
    ones. *)
Definition layer_attr (x : id) (a : string) (l : layer) : option cell :=
  match find_key key_eq_dec (x, a) (l_attrs l) with
  | Some c => Some c
  | None =>
      match find_key akey_eq_dec (i_alloc x, a) (l_dense l) with
      | Some vs => nth (i_off x) vs None
      | None => None
      end
  end.

(** data_bag.cc:587-716 GetAttrWithRemoved, for one object. *)
Definition get_attr (b : bag) (x : id) (a : string) : option cell := first_of (layer_attr x a) b.

(** data_bag.cc:1369-1399 GetFirstPresentList. *)
Definition get_list (b : bag) (x : id) : option (list cell) :=
  first_of (fun l => find_key id_eq_dec x (l_lists l)) b.

(** data_bag.cc:2686-2712 GetFromDictObjectWithFallbacks. *)
Definition get_dict (b : bag) (x : id) (k : item) : option cell :=
  first_of (fun l => find_key dkey_eq_dec (x, k) (l_dicts l)) b.

(** data_bag.cc:2230-2295 GetDictKeys, for one dict: the keys set in any of
    the bags. (Their order is not modelled.) *)
Definition dict_keys (b : bag) (x : id) : list item :=
  nodup item_eq_dec
    (flat_map (fun l => flat_map (fun e => if id_eq_dec x (fst (fst e)) then [snd (fst e)] else [])
                          (l_dicts l)) b).

(** data_bag.cc:2867-2882 GetSchemaAttrAllowMissingWithRemoved. *)
Definition get_schema (b : bag) (s : id) (a : string) : option cell :=
  first_of (fun l => find_key key_eq_dec (s, a) (l_schemas l)) b.

(** data_bag.cc:2778-2829 GetSchemaAttrsAsVector: the names set (or removed)
    for a schema. *)
Definition schema_names (b : bag) (s : id) : list string :=
  nodup string_dec
    (flat_map (fun l => flat_map (fun e => if id_eq_dec s (fst (fst e)) then [snd (fst e)] else [])
                          (l_schemas l)) b).

(** data_bag.cc:2831-2836 GetSchemaAttrsForBigAllocationAsVector: the names
    set for any schema of an allocation. *)
Definition alloc_names (b : bag) (al : alloc) : list string :=
  nodup string_dec
    (flat_map (fun l =>
       flat_map (fun e => if alloc_eq_dec al (i_alloc (fst (fst e))) then [snd (fst e)] else [])
         (l_schemas l)) b).

(** data_bag.cc:720-738 IsFullAllocPrefix: the objects are the first ones of a
    single big allocation, in order. *)
Definition full_prefix (objs : list id) : bool :=
  match objs with
  | [] => false
  | x :: _ =>
      negb (small (i_alloc x)) &&
      if list_eq_dec id_eq_dec objs (map (mkId (i_alloc x)) (seq 0 (List.length objs)))
      then true else false
  end.

(** data_bag.cc:876-916 GetAttributeDataSources for a big allocation: the
    size, the dense source, and whether there is a sparse source. *)
Definition sources (al : alloc) (a : string) (l : layer) : nat * option (list (option cell)) * bool :=
  let dense := find_key akey_eq_dec (al, a) (l_dense l) in
  (match dense with Some vs => List.length vs | None => a_cap al end, dense,
   existsb (fun e => (if alloc_eq_dec al (i_alloc (fst (fst e))) then true else false) &&
                     (if string_dec a (snd (fst e)) then true else false)) (l_attrs l)).

(** data_bag.cc:753-769, over the bag and its fallbacks. [None] as dense
    source in [inr]: there is none. [inl]: the sources have to be combined. *)
Fixpoint scan_sources (al : alloc) (a : string) (n : nat) (b : bag) (full : bool)
    (dense : option (list (option cell))) : bool * (unit + option (list (option cell))) :=
  match b with
  | [] => (full, inr dense)
  | l :: r =>
      let '(size, dense1, sparse) := sources al a l in
      let full := full || Nat.eqb size n in
      if sparse then (full, inl tt)
      else match dense, dense1 with
           | Some _, Some _ => (full, inl tt)
           | Some d, None => scan_sources al a n r full (Some d)
           | None, d => scan_sources al a n r full d
           end
  end.

(** data_bag.cc:742-784 GetMaybeFullAllocAttrWithRemoved: the attribute of
    every object, and the new value of [full_alloc]. *)
Definition get_maybe_full (b : bag) (objs : list id) (a : string) (full : bool)
  : list (option cell) * bool :=
  let plain := map (fun x => get_attr b x a) objs in
  if negb full && negb (full_prefix objs) then (plain, full)
  else match objs with
       | [] => (plain, full)
       | x :: _ =>
           match scan_sources (i_alloc x) a (List.length objs) b full None with
           | (full', inl _) => (plain, full')
           | (full', inr None) => (map (fun _ => None) objs, full')
           | (full', inr (Some d)) => (firstn (List.length objs) d, full')
           end
       end.

(** data_bag.cc:1207-1285 SetAttr, for one object. *)
Definition set_attr (n : layer) (x : id) (a : string) (c : cell) : layer :=
  mkLayer (((x, a), c) :: l_attrs n) (l_dense n) (l_lists n) (l_dicts n) (l_schemas n).

Definition set_attrs (n : layer) (a : string) (l : list (id * cell)) : layer :=
  fold_left (fun n e => set_attr n (fst e) a (snd e)) l n.

(** extract.cc:330-345 SetAttrToNewDatabagSkipUnset. *)
Definition set_skip_unset (n : layer) (objs : list id) (a : string) (vals : list (option cell)) : layer :=
  set_attrs n a
    (flat_map (fun e => match snd e with Some c => [(fst e, c)] | None => [] end) (combine objs vals)).

(** data_bag.cc:1156-1205 SetAttrFullAlloc: a new dense source, or, if some
    values are unset and there are sources already, single writes. Without a
    present value nothing happens. *)
Definition set_full (n : layer) (al : alloc) (a : string) (vals : list (option cell)) : layer :=
  if negb (existsb (fun v => match v with Some (Some _) => true | _ => false end) vals) then n
  else
    let has_source :=
      let '(_, dense, sparse) := sources al a n in
      sparse || match dense with Some _ => true | None => false end in
    if forallb (fun v => match v with Some _ => true | None => false end) vals || negb has_source then
      mkLayer
        (filter (fun e => negb ((if alloc_eq_dec al (i_alloc (fst (fst e))) then true else false) &&
                                (if string_dec a (snd (fst e)) then true else false))) (l_attrs n))
        (((al, a), vals) :: l_dense n) (l_lists n) (l_dicts n) (l_schemas n)
    else set_skip_unset n (map (mkId al) (seq 0 (List.length vals))) a vals.

(** data_bag.cc:1639-1677 ExtendLists, for one list. *)
Definition extend_list (n : layer) (x : id) (l : list cell) : layer :=
  let old := match find_key id_eq_dec x (l_lists n) with Some o => o | None => [] end in
  mkLayer (l_attrs n) (l_dense n) ((x, old ++ l) :: l_lists n) (l_dicts n) (l_schemas n).

(** data_bag.cc:2452-2500 SetInDict, for one key. *)
Definition set_dict (n : layer) (x : id) (k : item) (c : cell) : layer :=
  mkLayer (l_attrs n) (l_dense n) (l_lists n) (((x, k), c) :: l_dicts n) (l_schemas n).

(** SetSchemaAttr, for one schema. *)
Definition set_schema (n : layer) (s : id) (a : string) (c : cell) : layer :=
  mkLayer (l_attrs n) (l_dense n) (l_lists n) (l_dicts n) (((s, a), c) :: l_schemas n).

(** ** The processor *)

(** extract.cc:88-98 QueuedSlice. *)
Record queued := mkQ { q_items : list id; q_schema : item; q_only : bool }.

(** extract.cc:1109-1122: the queue, the new bag, and objects_tracker_: the
    ids visited as entities, as objects, and as schemas. *)
Record state := mkState {
  s_new : layer;
  s_queue : list queued;
  s_seen : list id;
  s_seen_obj : list id;
  s_seen_schema : list id }.

Definition with_new (st : state) (n : layer) : state :=
  mkState n (s_queue st) (s_seen st) (s_seen_obj st) (s_seen_schema st).

Inductive error :=
| NotIds | BadSchemaType | BadPrimitive | NotASchema | NotLists | NotDicts | NoSourceSchema
| SchemaConflict | BadListSchema | BadDictSchema | BadObjectSchema | OutOfFuel.

Inductive result (A : Type) := Ok (a : A) | Err (e : error).
Arguments Ok {A} a.
Arguments Err {A} e.

Definition bind {A B} (r : result A) (f : A -> result B) : result B :=
  match r with Ok a => f a | Err e => Err e end.
Notation "'let*' x ':=' r 'in' f" := (bind r (fun x => f)) (at level 200, x pattern, right associativity).

Fixpoint fold_res {A S} (f : S -> A -> result S) (l : list A) (s : S) : result S :=
  match l with
  | [] => Ok s
  | a :: r => let* s' := f s a in fold_res f r s'
  end.

(** extract.cc:139-146 UpdateDepthAndAddToQueue. *)
Definition enqueue (st : state) (q : queued) (front : bool) : state :=
  mkState (s_new st) (if front then q :: s_queue st else s_queue st ++ [q])
    (s_seen st) (s_seen_obj st) (s_seen_schema st).

(** data_bag.cc:945-1025 InternalSetUnitAttrAndReturnMissingObjects: the
    objects not seen before, once each. (The code also groups them by
    allocation.) *)
Definition missing (seen : list id) (objs : list id) : list id :=
  nodup id_eq_dec (filter (fun x => if in_dec id_eq_dec x seen then false else true) objs).

(** extract.cc:184-193 FilterToObjects. *)
Definition ids_of (items : list item) : list id :=
  flat_map (fun i => match i with IId x => [x] | _ => [] end) items.

Definition is_id (i : item) : bool := match i with IId _ => true | _ => false end.

(** extract.cc:270-291 VisitEntities. *)
Definition visit_entities (st : state) (items : list item) (s : id) (front : bool) : result state :=
  if negb (forallb is_id items) then Err NotIds
  else
    let new := missing (s_seen st) (ids_of items) in
    let st := mkState (s_new st) (s_queue st) (s_seen st ++ new) (s_seen_obj st) (s_seen_schema st) in
    if match new with [] => true | _ => false end &&
       (if in_dec id_eq_dec s (s_seen_schema st) then true else false)
    then Ok st
    else
      Ok (enqueue
            (mkState (s_new st) (s_queue st) (s_seen st) (s_seen_obj st) (s :: s_seen_schema st))
            (mkQ new (IId s) false) front).

(** extract.cc:237-268 VisitObjects. *)
Definition visit_objects (st : state) (items : list item) (sch : item) (front : bool) : result state :=
  let part := missing (s_seen_obj st) (ids_of items) in
  match part with
  | [] => Ok st
  | _ =>
      let new := missing (s_seen st) part in
      let st := mkState (s_new st) (s_queue st) (s_seen st ++ new) (s_seen_obj st ++ part) (s_seen_schema st) in
      let st := if Nat.eqb (List.length new) (List.length part) then st
                else enqueue st (mkQ part sch true) front in
      Ok (match new with [] => st | _ => enqueue st (mkQ new sch false) front end)
  end.

(** extract.cc:148-182 ValidatePrimitiveTypes. *)
Definition of_prim (t : N) (i : item) : bool :=
  match i with IPrim t' _ => N.eqb t' t | _ => false end.

(** extract.cc:293-310 VisitImpl and 319-325 Visit. *)
Definition visit (st : state) (items : list item) (sch : option item) (front : bool) : result state :=
  match sch with
  | Some (IId s) => visit_entities st items s front
  | Some (IDType TObject) => visit_objects st items (IDType TObject) front
  | Some (IDType TSchema) => visit_objects st items (IDType TSchema) front
  | Some (IDType (TPrim t)) => if forallb (of_prim t) items then Ok st else Err BadPrimitive
  | Some (IDType TItemId) => Ok st
  | _ => Err BadSchemaType
  end.

Definition presents (l : list (option cell)) : list item :=
  flat_map (fun c => match c with Some (Some i) => [i] | _ => [] end) l.
Definition present_items (l : list cell) : list item :=
  flat_map (fun c => match c with Some i => [i] | None => [] end) l.

Section Process.
  (** databag_ with fallbacks_. *)
  Variable src : bag.

  (** extract.cc:360-391 ProcessAttribute. *)
  Definition process_attribute (st : state) (objs : list id) (a : string) (t : item) (full : bool)
    : result (state * bool) :=
    let '(vals, full) := get_maybe_full src objs a full in
    let st :=
      with_new st
        (match objs with
         | x :: _ => if full then set_full (s_new st) (i_alloc x) a vals
                     else set_skip_unset (s_new st) objs a vals
         | [] => s_new st
         end) in
    let* st := visit st (presents vals) (Some t) false in
    Ok (st, full).

  (** extract.cc:393-447 ProcessDictKeysAndValues. *)
  Definition process_dicts (st : state) (objs : list id) (kt vt : option item) : result state :=
    if negb (forallb (fun x => match a_kind (i_alloc x) with KDict => true | _ => false end) objs)
    then Err NotDicts
    else
      let entries := flat_map (fun x => map (fun k => (x, k)) (dict_keys src x)) objs in
      let values := map (fun e => match get_dict src (fst e) (snd e) with Some c => c | None => None end) entries in
      let st :=
        with_new st (fold_left (fun n e => set_dict n (fst (fst e)) (snd (fst e)) (snd e))
                       (combine entries values) (s_new st)) in
      let* st := visit st (map snd entries) kt false in
      visit st (present_items values) vt false.

  (** extract.cc:449-487 ProcessListItems. *)
  Definition process_lists (st : state) (objs : list id) (t : option item) : result state :=
    if negb (forallb (fun x => match a_kind (i_alloc x) with KList => true | _ => false end) objs)
    then Err NotLists
    else
      let lists := flat_map (fun x => match get_list src x with Some l => [(x, l)] | None => [] end) objs in
      let st := with_new st (fold_left (fun n e => extend_list n (fst e) (snd e)) lists (s_new st)) in
      visit st (flat_map (fun e => present_items (snd e)) lists) t false.

  (** extract.cc:493-537 CopyAttrSchema. *)
  Definition copy_schema (st : state) (s : id) (a : string) : result (state * cell * bool) :=
    match get_schema src s a with
    | None => Err NoSourceSchema
    | Some c =>
        match get_schema [s_new st] s a with
        | Some c' => if cell_eq_dec c' c then Ok (st, c, false) else Err SchemaConflict
        | None => Ok (with_new st (set_schema (s_new st) s a c), c, true)
        end
    end.
  Definition is_nil {A} (l : list A) : bool := match l with [] => true | _ => false end.

  (** The loop of extract.cc:634-669 over the names of the attributes. *)
  Record loop := mkLoop { lp_state : state; lp_full : bool; lp_regular : bool }.

  Definition entity_attr (objs : list id) (s : id) (lp : loop) (a : string) : result loop :=
    if string_dec a kItems then Ok lp
    else if string_dec a kKeys then Ok lp
    else if string_dec a kValues then Ok lp
    else
      let* (st, t, updated) := copy_schema (lp_state lp) s a in
      match t with
      | None => Ok (mkLoop st (lp_full lp) (lp_regular lp))
      | Some t =>
          if string_dec a kName then Ok (mkLoop st (lp_full lp) (lp_regular lp))
          else if string_dec a kMetadata then
            if updated then
              let* st := visit st [t] (Some (IDType TObject)) true in
              Ok (mkLoop st (lp_full lp) (lp_regular lp))
            else Ok (mkLoop st (lp_full lp) (lp_regular lp))
          else if updated || negb (is_nil objs) then
            let* (st, full) := process_attribute st objs a t (lp_full lp) in
            Ok (mkLoop st full true)
          else Ok (mkLoop st (lp_full lp) true)
      end.

  Definition has_name (a : string) (names : list string) : bool :=
    if in_dec string_dec a names then true else false.

  (** extract.cc:612-685 ProcessEntitySliceAttrs, with 581-596 ProcessDicts and
      599-609 ProcessLists. *)
  Definition process_entity_attrs (st : state) (objs : list id) (s : id) : result state :=
    let names := schema_names src s in
    let* lp := fold_res (entity_attr objs s) names (mkLoop st false false) in
    let st := lp_state lp in
    if has_name kItems names then
      if lp_regular lp || has_name kKeys names || has_name kValues names then Err BadListSchema
      else
        let* (st, t, updated) := copy_schema st s kItems in
        if updated || negb (is_nil objs) then process_lists st objs t else Ok st
    else if has_name kKeys names || has_name kValues names then
      if lp_regular lp || negb (has_name kKeys names) || negb (has_name kValues names) then Err BadDictSchema
      else
        let* (st, kt, updated1) := copy_schema st s kKeys in
        let* (st, vt, updated2) := copy_schema st s kValues in
        if updated1 || updated2 || negb (is_nil objs) then process_dicts st objs kt vt else Ok st
    else Ok st.

  (** extract.cc:688-704 ProcessEntitySlice. *)
  Definition process_entities (st : state) (objs : list id) (s : id) : result state :=
    match a_kind (i_alloc s) with
    | KSchema true => Ok st
    | KSchema false => process_entity_attrs st objs s
    | _ => Err NotASchema
    end.

  (** extract.cc:707-732 ProcessSchemaSlice. *)
  Definition process_schemas (st : state) (schemas : list id) : result state :=
    fold_res (fun st s => process_entities st [] s) schemas st.

  (** extract.cc:543-578 CopyAttrSchemas. The cells of the schemas, and
      whether the new bag was changed. *)
  Definition copy_schemas (st : state) (schemas : list (option id)) (a : string)
    : result (state * list (option item) * bool) :=
    let cells := map (fun s => match s with Some s => get_schema src s a | None => None end) schemas in
    let* changed :=
      fold_res (fun (changed : bool) e =>
          match e with
          | (Some s, Some c) =>
              match get_schema [s_new st] s a with
              | None => Ok true
              | Some c' => if cell_eq_dec c c' then Ok changed else Err SchemaConflict
              end
          | _ => Ok changed
          end) (combine schemas cells) false in
    let st :=
      if changed then
        with_new st
          (fold_left (fun n e => match e with (Some s, Some c) => set_schema n s a c | _ => n end)
             (combine schemas cells) (s_new st))
      else st in
    Ok (st, map (fun c => match c with Some t => t | None => None end) cells, changed).

  (** group_by_utils.h:57-171: the different schemas of the slice, and the
      objects of one of them. *)
  Definition groups {K} (dec : forall a b : K, {a = b} + {a <> b}) (keys : list (option K)) : list K :=
    nodup dec (flat_map (fun k => match k with Some k => [k] | None => [] end) keys).
  Definition group_of {K A} (dec : forall a b : K, {a = b} + {a <> b}) (k : K) (keys : list (option K))
      (objs : list A) : list A :=
    flat_map (fun e => match fst e with
                       | Some k' => if dec k k' then [snd e] else []
                       | None => []
                       end) (combine keys objs).

  (** extract.cc:850-906 ProcessObjectsAttribute. *)
  Definition objects_attr (objs : list id) (schemas : list (option id))
      (acc : state * bool) (a : string) : result (state * bool) :=
    if string_dec a kItems then Ok acc
    else if string_dec a kKeys then Ok acc
    else if string_dec a kValues then Ok acc
    else
      let '(st, full) := acc in
      let* (st, types, updated) := copy_schemas st schemas a in
      if string_dec a kMetadata then
        let* st := visit st (present_items types) (Some (IDType TObject)) true in Ok (st, full)
      else if string_dec a kName then Ok (st, full)
      else if negb updated && is_nil objs then Ok (st, full)
      else match groups item_eq_dec types with
           | [] => Ok (st, full)
           | [t] => process_attribute st objs a t full
           | ts => fold_res (fun acc t =>
                       process_attribute (fst acc) (group_of item_eq_dec t types objs) a t (snd acc))
                     ts (st, full)
           end.

  (** extract.cc:734-777 ProcessObjectsListItemsAttribute. *)
  Definition objects_lists (st : state) (objs : list id) (schemas : list (option id)) : result state :=
    let* (st, types, updated) := copy_schemas st schemas kItems in
    if negb updated && is_nil objs then Ok st
    else match groups item_eq_dec types with
         | [t] => process_lists st objs (Some t)
         | ts => fold_res (fun st t => process_lists st (group_of item_eq_dec t types objs) (Some t)) ts st
         end.

  (** extract.cc:779-848 ProcessObjectsDictKeysAndValuesAttributes. *)
  Definition objects_dicts (st : state) (objs : list id) (schemas : list (option id)) : result state :=
    let* (st, kts, updated1) := copy_schemas st schemas kKeys in
    let* (st, vts, updated2) := copy_schemas st schemas kValues in
    if negb updated1 && negb updated2 && is_nil objs then Ok st
    else match groups item_eq_dec kts, groups item_eq_dec vts with
         | [kt], [vt] => process_dicts st objs (Some kt) (Some vt)
         | _, _ =>
             let pairs := map (fun e => match e with (Some k, Some v) => Some (k, v) | _ => None end)
                            (combine kts vts) in
             fold_res (fun st p =>
                 process_dicts st (group_of (pair_eq_dec item_eq_dec item_eq_dec) p pairs objs)
                   (Some (fst p)) (Some (snd p)))
               (groups (pair_eq_dec item_eq_dec item_eq_dec) pairs) st
         end.

  (** extract.cc:910-948 ProcessObjectsWithSchemasInSingleAllocation. *)
  Definition objects_single (st : state) (repr : id) (objs : list id) (schemas : list (option id))
    : result state :=
    let names := if small (i_alloc repr) then schema_names src repr else alloc_names src (i_alloc repr) in
    let* (st, _) := fold_res (objects_attr objs schemas) names (st, false) in
    let* st := if has_name kItems names then objects_lists st objs schemas else Ok st in
    if has_name kKeys names || has_name kValues names then objects_dicts st objs schemas else Ok st.

  (** extract.cc:962-977: the schema itself if its allocation is small, else
      the first schema of the allocation; nothing for a no-follow schema. *)
  Definition schema_repr (s : option id) : option id :=
    match s with
    | None => None
    | Some s =>
        match a_kind (i_alloc s) with
        | KSchema true => None
        | _ => Some (if small (i_alloc s) then s else mkId (i_alloc s) 0)
        end
    end.

  (** extract.cc:951-1007 ProcessObjectsWithSchemas. *)
  Definition objects_with_schemas (st : state) (objs : list id) (schemas : list (option id))
    : result state :=
    let reprs := map schema_repr schemas in
    match groups id_eq_dec reprs with
    | [] => Ok st
    | [r] => objects_single st r objs schemas
    | rs => fold_res (fun st r =>
                objects_single st r (group_of id_eq_dec r reprs objs) (group_of id_eq_dec r reprs schemas))
              rs st
    end.

  (** extract.cc:1010-1036 ProcessObjectSlice. *)
  Definition process_objects (st : state) (objs : list id) (only : bool) : result state :=
    let cells := map (fun x => get_attr src x kSchemaAttr) objs in
    if negb (forallb is_id (presents cells)) then Err BadObjectSchema
    else
      let st := with_new st (set_skip_unset (s_new st) objs kSchemaAttr cells) in
      if is_nil (presents cells) || only then Ok st
      else objects_with_schemas st objs
             (map (fun c => match c with Some (Some (IId s)) => Some s | _ => None end) cells).

  (** extract.cc:1091-1104: one slice of the queue. *)
  Definition process (st : state) (q : queued) : result state :=
    match q_schema q with
    | IId s => process_entities st (q_items q) s
    | IDType TObject => process_objects st (q_items q) (q_only q)
    | IDType TSchema => process_schemas st (q_items q)
    | IDType _ => Ok st
    | IPrim _ _ => Err BadSchemaType
    end.

  (** extract.cc:1079-1107 ProcessQueue. *)
  Fixpoint process_queue (fuel : nat) (st : state) : result state :=
    match s_queue st with
    | [] => Ok st
    | q :: r =>
        match fuel with
        | O => Err OutOfFuel
        | S n =>
            let* st := process (mkState (s_new st) r (s_seen st) (s_seen_obj st) (s_seen_schema st)) q in
            process_queue n st
        end
    end.
End Process.

(** The ids that occur in a bag; they bound the number of steps. *)
Definition cell_ids (c : cell) : list id := match c with Some (IId x) => [x] | _ => [] end.
Definition ocell_ids (c : option cell) : list id := match c with Some c => cell_ids c | None => [] end.
Definition layer_ids (l : layer) : list id :=
  flat_map (fun e => cell_ids (snd e)) (l_attrs l) ++
  flat_map (fun e => flat_map ocell_ids (snd e)) (l_dense l) ++
  flat_map (fun e => flat_map cell_ids (snd e)) (l_lists l) ++
  flat_map (fun e => cell_ids (Some (snd (fst e))) ++ cell_ids (snd e)) (l_dicts l) ++
  flat_map (fun e => cell_ids (snd e)) (l_schemas l).
Definition universe (src : bag) (ds : list item) (sch : item) : list id :=
  cell_ids (Some sch) ++ ids_of ds ++ flat_map layer_ids src.

(** extract.cc:1192-1217 ExtractOp and 125-128 ExtractSlice, into an empty
    bag (extract_utils.cc:52). The fuel is never used up
    (ExtractProps.C44_terminates). *)
Definition extract (src : bag) (ds : list item) (sch : item) : result layer :=
  let* st := visit (mkState empty_layer [] [] [] []) ds (Some sch) false in
  let* st := process_queue src (4 * List.length (universe src ds sch)) st in
  Ok (s_new st).
