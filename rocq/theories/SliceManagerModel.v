(** Model of py/koladata/ext/storage/data_slice_manager.py: the data slice
    manager, which stores a data slice as many small bags of data, indexed by the
    names of the schema nodes, and loads the bags that are needed for the paths
    that are asked for.

    Schemas, paths and the schema helper are those of PathModel.v and
    GraphModel.v. Simplifications:
    - the initial data is that of a BareRootInitialDataManager
      (bare_root_initial_data_manager.py:31-166): one entity without attributes;
    - names and metadata of schemas, descriptions and timestamps are left out;
    - a bag manager is the list of its bags in the order in which they were
      added; what it does on disk is the subject of StoreModel.v. All bags are
      added without dependencies, so get_minimal_bag gives the bags with the
      wanted names in that order (C21);
    - fresh names (uuids) are numbers that were not used before. *)
From Coq Require Import String.
From Coq Require Import NArith ZArith List Bool PeanoNat.
From Verif Require Import PathModel GraphModel.
Import ListNotations.
Local Open Scope list_scope.
Local Open Scope nat_scope.

(** * Data *)

(** An item: an item id, or a value of a primitive schema. *)
Inductive item :=
| Obj (id : N)
| Prim (value : N).

Definition item_eqb (i j : item) : bool :=
  match i, j with
  | Obj a, Obj b => N.eqb a b
  | Prim a, Prim b => N.eqb a b
  | _, _ => false
  end.

(** What a bag can say about an item id: the value of an attribute of an entity,
    the items of a list, the entries of a dict. *)
Inductive field :=
| FAttr (name : text)
| FItems
| FEntries.

Definition field_eqb (f g : field) : bool :=
  match f, g with
  | FAttr s, FAttr t => text_eqb s t
  | FItems, FItems => true
  | FEntries, FEntries => true
  | _, _ => false
  end.

Definition slot := (N * field)%type.
Definition slot_eqb (s t : slot) : bool :=
  N.eqb (fst s) (fst t) && field_eqb (snd s) (snd t).

(** [CValue None] is an attribute whose value was removed. An empty list is
    [CItems []]; a dict without entries leaves no trace in a bag. *)
Inductive content :=
| CValue (value : option item)
| CItems (items : list (option item))
| CEntries (entries : list (item * item)).

Definition fact := (slot * content)%type.
Definition bag := list fact.

Fixpoint bag_get (b : bag) (s : slot) : option content :=
  match b with
  | [] => None
  | (t, c) :: b => if slot_eqb t s then Some c else bag_get b s
  end.

(** d[k] = v *)
Fixpoint put (d : list (item * item)) (k v : item) : list (item * item) :=
  match d with
  | [] => [(k, v)]
  | (k', v') :: d =>
      if item_eqb k' k then (k', v) :: d else (k', v') :: put d k v
  end.
Definition put_all (d e : list (item * item)) : list (item * item) :=
  fold_left (fun d kv => put d (fst kv) (snd kv)) e d.

(** What is seen when a bag is updated with another one: attributes and lists are
    replaced, the entries of dicts are put into the existing ones (C17, C18). *)
Definition over (old : option content) (new : content) : content :=
  match old, new with
  | Some (CEntries d), CEntries e => CEntries (put_all d e)
  | _, _ => new
  end.

(** kd.bags.updated, the last bag has the highest priority *)
Definition composed (bags : list bag) (s : slot) : option content :=
  fold_left
    (fun acc b => match bag_get b s with Some c => Some (over acc c) | None => acc end)
    bags None.

(** * Evaluation of paths *)

Inductive tree :=
| Leaf (i : option item)
| Branch (l : list tree).

Section Evaluate.
  Variable data : slot -> option content.

  Definition attr_of (i : option item) (s : text) : option item :=
    match i with
    | Some (Obj o) => match data (o, FAttr s) with Some (CValue v) => v | _ => None end
    | _ => None
    end.
  Definition items_of (i : option item) : list (option item) :=
    match i with
    | Some (Obj o) => match data (o, FItems) with Some (CItems l) => l | _ => [] end
    | _ => []
    end.
  Definition entries_of (i : option item) : list (item * item) :=
    match i with
    | Some (Obj o) => match data (o, FEntries) with Some (CEntries l) => l | _ => [] end
    | _ => []
    end.
  Definition keys_of (i : option item) : list (option item) :=
    map (fun kv => Some (fst kv)) (entries_of i).
  Definition values_of (i : option item) : list (option item) :=
    map (fun kv => Some (snd kv)) (entries_of i).

  (** data_slice_path.py:136-141, 173-178, 210-215, 312-326 evaluate, for the
      actions of a path one after the other (data_slice_path.py:447-460): the
      data that is found below an item. *)
  Fixpoint evaluate (p : path) (i : option item) : tree :=
    match p with
    | [] => Leaf i
    | GetAttr s :: p => evaluate p (attr_of i s)
    | ListExplode :: p => Branch (map (evaluate p) (items_of i))
    | DictGetKeys :: p => Branch (map (evaluate p) (keys_of i))
    | DictGetValues :: p => Branch (map (evaluate p) (values_of i))
    end.

  (** The same, flattened. *)
  Fixpoint flattened (p : path) (i : option item) : list (option item) :=
    match p with
    | [] => [i]
    | GetAttr s :: p => flattened p (attr_of i s)
    | ListExplode :: p => flat_map (flattened p) (items_of i)
    | DictGetKeys :: p => flat_map (flattened p) (keys_of i)
    | DictGetValues :: p => flat_map (flattened p) (values_of i)
    end.
End Evaluate.

(** * Schemas *)

(** The attributes of [new] replace and extend those of [old]. (kd.dir sorts
    them; nothing depends on their order.) *)
Fixpoint put_attr (attrs : list (text * schema)) (s : text) (x : schema)
  : list (text * schema) :=
  match attrs with
  | [] => [(s, x)]
  | (t, y) :: attrs =>
      if text_eqb t s then (t, x) :: attrs else (t, y) :: put_attr attrs s x
  end.
Definition put_attrs (attrs new : list (text * schema)) : list (text * schema) :=
  fold_left (fun attrs sx => put_attr attrs (fst sx) (snd sx)) new attrs.

Definition merge_node (old new : node) : node :=
  match old, new with
  | NEntity xs, NEntity ys => NEntity (put_attrs xs ys)
  | _, NEntity [] => old
  | _, _ => new
  end.

(** schema.updated(bag) *)
Definition schema_updated (b u : schema_bag) : schema_bag :=
  map (fun idn => (fst idn, merge_node (snd idn) (lookup u (fst idn)))) b
  ++ filter (fun idn => negb (mem (fst idn) (map fst b))) u.

(** * The state on disk and in memory *)

Inductive revision_kind :=
| Creation
| AttributeUpdate (at_path : path) (attr_name : text)
| BranchOf (parent_index : nat).

(** metadata_pb2.RevisionMetadata *)
Record revision := Revision {
  r_data : list nat;
  r_schema : list nat;
  r_index : list nat;
  r_kind : revision_kind }.

(** schema node name -> names of data bags, a Koda DICT of LISTs *)
Definition index := list (text * list nat).
Fixpoint index_get (ix : index) (n : text) : option (list nat) :=
  match ix with
  | [] => None
  | (m, l) :: ix => if text_eqb m n then Some l else index_get ix n
  end.

(** A persistence directory: the bags of the three bag managers and the committed
    metadata files, number 0 first. *)
Record dir := Dir {
  d_initial_index : index;
  d_data : list (nat * bag);
  d_schema : list (nat * schema_bag);
  d_index : list (nat * index);
  d_meta : list (list revision);
  d_fresh : nat }.

(** A DataSliceManager object. [m_number] is metadata_update_number. *)
Record manager := Manager {
  m_revisions : list revision;
  m_number : nat;
  m_schema : schema_bag;
  m_read_only : bool }.

Inductive error :=
| SchemaError (f : failure)
| ReadOnly
| ShapeMismatch
| ConcurrentUpdate
| IndexOutOfBounds
| InvariantViolation.

Inductive outcome (A : Type) :=
| Done (a : A)
| Raised (e : error).
Arguments Done {A}.
Arguments Raised {A}.

Definition andthen {A B} (r : outcome A) (k : A -> outcome B) : outcome B :=
  match r with Done a => k a | Raised e => Raised e end.
Definition of_result {A} (r : result A) : outcome A :=
  match r with Ok a => Done a | Fail f => Raised (SchemaError f) end.

Definition memn (n : nat) (l : list nat) : bool := existsb (Nat.eqb n) l.

(** data_bag_manager.py get_minimal_bag, for bags without dependencies *)
Definition minimal {A} (bags : list (nat * A)) (names : list nat) : list (nat * A) :=
  filter (fun nb => memn (fst nb) names) bags.

(** A loaded data slice: the facts of its schema, and its data. *)
Record slice := Slice {
  s_schema : list schema_fact;
  s_bags : list bag }.

Fixpoint fact_find (l : list schema_fact) (id : text) (a : action) : option schema :=
  match l with
  | [] => None
  | (i, a', x) :: l =>
      if text_eqb i id && action_eqb a' a then Some x else fact_find l id a
  end.

(** Whether the schema of a slice knows the actions of a path. *)
Fixpoint slice_schema (l : list schema_fact) (x : schema) (p : path) : option schema :=
  match p with
  | [] => Some x
  | a :: p =>
      match x with
      | SNode id =>
          match fact_find l id a with
          | Some y => slice_schema l y p
          | None => None
          end
      | _ => None
      end
  end.

(** The argument of an update: where, which attribute, and the extracted value,
    that is its items at the positions of the slice at [u_path] (broadcasting is
    up to the caller), the data below, its schema, and the bag of its schema. *)
Record change := Change {
  u_path : path;
  u_attr : text;
  u_values : list (option item);
  u_data : bag;
  u_schema : schema;
  u_schemas : schema_bag }.

Section Managers.
  Variable lx : lexicon.
  Variable pop : list text -> option (text * list text).
  (** The root item and the item id of its schema. *)
  Variable root : N.
  Variable root_schema : text.

  (** data_slice_manager.py:168-286 create_new, for an empty directory. The only
      name is that of the root. *)
  Definition new_dir : dir :=
    Dir [(root_schema, [])] [] [] [] [[Revision [] [] [] Creation]] 0.
  Definition new_manager : manager :=
    Manager [Revision [] [] [] Creation] 0 [] false.

  (** data_slice_manager.py:338-346: the schema of the initial data, updated with
      the schema bags that the metadata mentions *)
  Definition schema_of (d : dir) (revisions : list revision) : schema_bag :=
    fold_left (fun b nu => schema_updated b (snd nu))
      (minimal (d_schema d) (flat_map r_schema revisions)) [].

  (** data_slice_manager.py:288-377 create_from_dir, 1449-1489 _read_metadata *)
  Definition create_from_dir (d : dir) (at_index : option nat) (read_only : bool)
    : outcome manager :=
    let latest := length (d_meta d) - 1 in
    let i := match at_index with Some i => i | None => latest end in
    match nth_error (d_meta d) i with
    | Some revisions => Done (Manager revisions i (schema_of d revisions) read_only)
    | None => Raised IndexOutOfBounds
    end.

  (** data_slice_manager.py:1242-1293 get_readonly_copy *)
  Definition readonly_copy (m : manager) : manager :=
    Manager (m_revisions m) (m_number m) (m_schema m) true.

  (** data_slice_manager.py:1299-1331 _get_schema_node_name_to_data_bag_names and
      _get_data_bag_names. The updates are dicts with whole lists. *)
  Definition full_index (d : dir) (revisions : list revision) : index :=
    fold_left (fun ix nu => snd nu ++ ix)
      (minimal (d_index d) (flat_map r_index revisions)) (d_initial_index d).
  Definition data_bag_names (d : dir) (m : manager) (n : text) : option (list nat) :=
    index_get (full_index d (m_revisions m)) n.

  (** data_slice_manager.py:545-552 *)
  Fixpoint needed_bag_names (d : dir) (m : manager) (ns : list text)
    : outcome (list nat) :=
    match ns with
    | [] => Done []
    | n :: ns =>
        match data_bag_names d m n with
        | None => Raised InvariantViolation
        | Some l =>
            andthen (needed_bag_names d m ns) (fun k => Done (l ++ k))
        end
    end.

  Definition helper_of (m : manager) : outcome helper :=
    of_result (make_helper lx pop (m_schema m) (SNode root_schema)).

  (** data_slice_manager.py:475-517 get_data_slice and 539-566
      internal_get_data_bag_for_schema_node_names *)
  Definition get_data_slice (d : dir) (m : manager) (ps ds : list path)
    : outcome slice :=
    andthen (helper_of m) (fun h =>
    andthen (of_result (names_needed_to h ps ds)) (fun needed =>
    andthen (needed_bag_names d m needed) (fun bag_names =>
    andthen (of_result (schema_bag_for h needed)) (fun schema_facts =>
    Done (Slice schema_facts (map snd (minimal (d_data d) bag_names))))))).

  Definition evaluate_slice (s : slice) (p : path) : outcome tree :=
    match slice_schema (s_schema s) (SNode root_schema) p with
    | Some _ => Done (evaluate (composed (s_bags s)) p (Some (Obj root)))
    | None => Raised (SchemaError InvalidPath)
    end.
  Definition flattened_slice (s : slice) (p : path) : outcome (list (option item)) :=
    match slice_schema (s_schema s) (SNode root_schema) p with
    | Some _ => Done (flattened (composed (s_bags s)) p (Some (Obj root)))
    | None => Raised (SchemaError InvalidPath)
    end.

  (** s.updated(t.get_bag()): what [t] has comes before what [s] has *)
  Definition slice_updated (s t : slice) : slice :=
    Slice (s_schema t ++ s_schema s) (s_bags s ++ s_bags t).

  (** schema_helper_mixin.py:65-91 get_data_slice_at *)
  Definition get_data_slice_at (d : dir) (m : manager) (p : path)
      (with_all_descendants : bool) : outcome tree :=
    andthen (if with_all_descendants then get_data_slice d m [] [p]
             else get_data_slice d m [p] []) (fun s => evaluate_slice s p).

  (** * Update: splitting the new data into bags *)

  (** The state of the traversal: the item ids seen so far, the bags made so far
      (a bag id is a position), and schema_node_name_to_new_bag_ids. *)
  Record progress := Progress {
    seen : list N;
    made : list bag;
    assigned : list (text * list nat) }.

  Definition memN (o : N) (l : list N) : bool := existsb (N.eqb o) l.

  (** schema_node_name_to_new_bag_ids[name].append(bag_id); [None] is a KeyError *)
  Fixpoint assign (l : list (text * list nat)) (n : text) (id : nat)
    : option (list (text * list nat)) :=
    match l with
    | [] => None
    | (m, ids) :: l =>
        if text_eqb m n then Some ((m, ids ++ [id]) :: l)
        else match assign l n id with
             | Some l => Some ((m, ids) :: l)
             | None => None
             end
    end.
  Definition assign_name (l : list (text * list nat)) (o : origin) (x : schema)
      (id : nat) : outcome (list (text * list nat)) :=
    andthen (of_result (node_name lx o x)) (fun n =>
      match assign l n id with
      | Some l => Done l
      | None => Raised (SchemaError KeyMissing)
      end).

  (** kd.unique *)
  Definition unique (l : list N) : list N :=
    fold_left (fun l o => if memN o l then l else l ++ [o]) l [].

  (** The item ids of the present items. *)
  Definition objects (l : list (option item)) : list N :=
    flat_map (fun i => match i with Some (Obj o) => [o] | _ => [] end) l.

  (** stubs_and_minimal_bags_lib.py:152-225: the facts that [data] has about one
      field of some item ids; the bag is None if there are none *)
  Definition minimal_bag (data : bag) (os : list N) (f : field) : bag :=
    flat_map (fun o => match bag_get data (o, f) with
                       | Some c => [((o, f), c)]
                       | None => []
                       end) (unique os).

  (** is_non_leaf_schema_node_name: there is something below (C28) *)
  Definition non_leaf (b : schema_bag) (x : schema) : option text :=
    match x, expand_schema b x with
    | SNode id, _ :: _ => Some id
    | _, _ => None
    end.

  Section Process.
    (** stub_with_update: its data and its schema *)
    Variable data : bag.
    Variable b : schema_bag.
    Variable process : progress -> text -> list N -> outcome progress.

    (** Recursion into the values at a child, if it is not a leaf. *)
    Definition descend (st : progress) (x : schema) (l : list (option item))
      : outcome progress :=
      match non_leaf b x with
      | Some id => process st id (objects l)
      | None => Done st
      end.

    (** data_slice_manager.py:874-890 *)
    Fixpoint process_attrs (st : progress) (id : text) (os : list N)
        (attrs : list (text * schema)) : outcome progress :=
      match attrs with
      | [] => Done st
      | (s, x) :: attrs =>
          match minimal_bag data os (FAttr s) with
          | [] => process_attrs st id os attrs
          | facts =>
              andthen (assign_name (assigned st) (Some (SNode id, GetAttr s)) x
                         (length (made st))) (fun l =>
              andthen (descend (Progress (seen st) (made st ++ [facts]) l) x
                         (map (fun o => attr_of (bag_get data) (Some (Obj o)) s) os))
                (fun st => process_attrs st id os attrs))
          end
      end.

    (** data_slice_manager.py:822-839 *)
    Definition process_list (st : progress) (id : text) (os : list N) (x : schema)
      : outcome progress :=
      match minimal_bag data os FItems with
      | [] => Done st
      | facts =>
          andthen (assign_name (assigned st) (Some (SNode id, ListExplode)) x
                     (length (made st))) (fun l =>
          descend (Progress (seen st) (made st ++ [facts]) l) x
            (flat_map (fun o => items_of (bag_get data) (Some (Obj o))) os))
      end.

    (** data_slice_manager.py:841-871 *)
    Definition process_dict (st : progress) (id : text) (os : list N) (k v : schema)
      : outcome progress :=
      match minimal_bag data os FEntries with
      | [] => Done st
      | facts =>
          andthen (assign_name (assigned st) (Some (SNode id, DictGetKeys)) k
                     (length (made st))) (fun l =>
          andthen (assign_name l (Some (SNode id, DictGetValues)) v
                     (length (made st))) (fun l =>
          andthen (descend (Progress (seen st) (made st ++ [facts]) l) k
                     (flat_map (fun o => keys_of (bag_get data) (Some (Obj o))) os))
            (fun st =>
               descend st v
                 (flat_map (fun o => values_of (bag_get data) (Some (Obj o))) os))))
      end.
  End Process.

  (** data_slice_manager.py:795-890 process: the sub-slice is given by its schema
      and its present items; the path only serves to name the children. Each call
      that does not return early sees a new item id. *)
  Fixpoint process (data : bag) (b : schema_bag) (fuel : nat) (st : progress)
      (id : text) (os : list N) : outcome progress :=
    match fuel with
    | O => Raised (SchemaError OutOfFuel)
    | S fuel =>
        let new := filter (fun o => negb (memN o (seen st))) os in
        match new with
        | [] => Done st
        | _ =>
            let st := Progress (seen st ++ os) (made st) (assigned st) in
            match lookup b id with
            | NList x => process_list data b (process data b fuel) st id new x
            | NDict k v => process_dict data b (process data b fuel) st id new k v
            | NEntity attrs =>
                process_attrs data b (process data b fuel) st id new attrs
            end
        end
    end.

  (** * Update: merging the bags *)

  (** Lexicographic order of lists of numbers. *)
  Fixpoint ids_leb (a b : list nat) : bool :=
    match a, b with
    | [], _ => true
    | _ :: _, [] => false
    | x :: a, y :: b => Nat.ltb x y || Nat.eqb x y && ids_leb a b
    end.
  Fixpoint ids_eqb (a b : list nat) : bool :=
    match a, b with
    | [], [] => true
    | x :: a, y :: b => Nat.eqb x y && ids_eqb a b
    | _, _ => false
    end.
  Fixpoint insert_ids (x : list nat) (l : list (list nat)) : list (list nat) :=
    match l with
    | [] => [x]
    | y :: l => if ids_leb x y then x :: y :: l else y :: insert_ids x l
    end.
  Definition sort_ids (l : list (list nat)) : list (list nat) :=
    fold_right insert_ids [] l.

  Fixpoint merged_name (l : list (list nat * nat)) (ids : list nat) : option nat :=
    match l with
    | [] => None
    | (k, n) :: l => if ids_eqb k ids then Some n else merged_name l ids
    end.

  (** data_slice_manager.py:899-918: the distinct lists of bag ids and the names of
      their merged bags *)
  Fixpoint merge_names (l : list (list nat)) (known : list (list nat * nat))
      (fresh : nat) : list (list nat * nat) * nat :=
    match l with
    | [] => (known, fresh)
    | [] :: l => merge_names l known fresh
    | ids :: l =>
        match merged_name known ids with
        | Some _ => merge_names l known fresh
        | None => merge_names l (known ++ [(ids, fresh)]) (S fresh)
        end
    end.

  (** kd.bags.updated(...).merge_fallbacks() *)
  Definition merged_bag (bags : list bag) (ids : list nat) : bag :=
    flat_map (fun i => nth i bags []) (rev ids).

  (** data_slice_manager.py:921-928 *)
  Definition merged_names_of (names : list (list nat * nat)) (ids : list nat)
    : list nat :=
    match ids with
    | [] => []
    | _ => match merged_name names ids with Some n => [n] | None => [] end
    end.

  (** What an update adds to the directory. *)
  Record plan := Plan {
    p_data : list (nat * bag);
    p_schema : nat * schema_bag;
    p_index : nat * index;
    p_fresh : nat }.

  (** The data of stub_with_update: the new values of the attribute, a later
      position before an earlier one, before the data of the value. *)
  Definition stub_data (u : change) (targets : list (option item)) : bag :=
    rev (flat_map (fun tv => match fst tv with
                             | Some (Obj o) => [((o, FAttr (u_attr u)), CValue (snd tv))]
                             | _ => []
                             end) (combine targets (u_values u)))
    ++ u_data u.

  (** The schema of stub_with_update, which is also new_schema_bag: the bag of the
      schema of the value, and the attribute (data_slice_manager.py:766-779) *)
  Definition stub_schemas (u : change) (at_id : text) : schema_bag :=
    schema_updated (u_schemas u) [(at_id, NEntity [(u_attr u, u_schema u)])].

  (** All item ids that occur in a bag. *)
  Definition content_items (c : content) : list (option item) :=
    match c with
    | CValue v => [v]
    | CItems l => l
    | CEntries l => map (fun kv => Some (fst kv)) l ++ map (fun kv => Some (snd kv)) l
    end.
  Definition bag_objects (l : bag) : list N :=
    flat_map (fun sc => objects (content_items (snd sc))) l.

  (** data_slice_manager.py:733-928 and 998-1010, everything before the first
      write *)
  Definition plan_update (d : dir) (m : manager) (u : change) : outcome plan :=
    if m_read_only m then Raised ReadOnly
    else
      andthen (helper_of m) (fun h =>
      andthen (of_result (name_of_path h (u_path u))) (fun at_name =>
      andthen (of_result (subschema_at h at_name)) (fun at_schema =>
      match at_schema with
      | SNode at_id =>
          if negb (is_entity_schema (m_schema m) at_schema)
          then Raised (SchemaError NotAnEntity)
          else
            andthen (of_result (affected_names h at_name (u_attr u) (u_schemas u)
                                  (u_schema u))) (fun affected =>
            andthen (get_data_slice d m [u_path u] []) (fun s =>
            andthen (flattened_slice s (u_path u)) (fun targets =>
            if negb (Nat.eqb (length targets) (length (u_values u)))
            then Raised ShapeMismatch
            else
              let data := stub_data u targets in
              let b := stub_schemas u at_id in
              andthen (of_result (make_helper lx pop b (SNode at_id))) (fun _ =>
              let os := objects targets in
              andthen (process data b (S (length (os ++ bag_objects data)))
                         (Progress [] [] (map (fun n => (n, [])) affected)) at_id os)
                (fun st =>
              let names := merge_names (sort_ids (map snd (assigned st))) []
                             (d_fresh d) in
              let fresh := snd names in
              Done (Plan
                (map (fun idsn => (snd idsn, merged_bag (made st) (fst idsn)))
                   (fst names))
                (fresh, b)
                (S fresh,
                 map (fun nids =>
                        (fst nids,
                         match data_bag_names d m (fst nids) with
                         | Some l => l
                         | None => []
                         end ++ merged_names_of (fst names) (snd nids)))
                   (assigned st))
                (S (S fresh))))))))
      | _ => Raised (SchemaError NotAnEntity)
      end))).

  (** * Update: writing *)

  (** data_slice_manager.py:983 *)
  Definition write_data (d : dir) (p : plan) : dir :=
    Dir (d_initial_index d) (d_data d ++ p_data p) (d_schema d) (d_index d)
      (d_meta d) (p_fresh p).
  (** data_slice_manager.py:996 *)
  Definition write_schema (d : dir) (p : plan) : dir :=
    Dir (d_initial_index d) (d_data d) (d_schema d ++ [p_schema p]) (d_index d)
      (d_meta d) (p_fresh p).
  (** data_slice_manager.py:1012-1021 *)
  Definition write_index (d : dir) (p : plan) : dir :=
    Dir (d_initial_index d) (d_data d) (d_schema d) (d_index d ++ [p_index p])
      (d_meta d) (p_fresh p).
  (** data_slice_manager.py:1417-1446 _persist_metadata, for a file system with an
      atomic rename. The numbers of the committed files are the positions below
      the length of the list. *)
  Definition write_metadata (d : dir) (number : nat) (revisions : list revision)
    : outcome dir :=
    if Nat.ltb number (length (d_meta d)) then Raised ConcurrentUpdate
    else
      Done (Dir (d_initial_index d) (d_data d) (d_schema d) (d_index d)
              (d_meta d ++ [revisions]) (d_fresh d)).

  (** data_slice_manager.py:1022-1039 *)
  Definition next_revisions (m : manager) (u : change) (p : plan) : list revision :=
    m_revisions m
    ++ [Revision (map fst (p_data p)) [fst (p_schema p)] [fst (p_index p)]
          (AttributeUpdate (u_path u) (u_attr u))].

  (** How far an update gets before the process is killed or a write fails. *)
  Inductive cut := AfterNothing | AfterData | AfterSchema | AfterIndex | NoCut.

  (** data_slice_manager.py:645-1060 update: the directory and the manager
      afterwards, and what was raised. [None] stands for an update that was cut
      off. *)
  Definition update (d : dir) (m : manager) (u : change) (c : cut)
    : dir * manager * option (outcome unit) :=
    match plan_update d m u with
    | Raised e => (d, m, Some (Raised e))
    | Done p =>
        let d1 := write_data d p in
        let d2 := write_schema d1 p in
        let d3 := write_index d2 p in
        match c with
        | AfterNothing => (d, m, None)
        | AfterData => (d1, m, None)
        | AfterSchema => (d2, m, None)
        | AfterIndex => (d3, m, None)
        | NoCut =>
            match write_metadata d3 (S (m_number m)) (next_revisions m u p) with
            | Raised e => (d3, m, Some (Raised e))
            | Done d4 =>
                (d4,
                 Manager (next_revisions m u p) (S (m_number m))
                   (schema_updated (m_schema m) (snd (p_schema p))) false,
                 Some (Done tt))
            end
        end
    end.

  (** * Branches *)

  (** data_slice_manager.py:1062-1240 branch, for an empty output directory and a
      non-negative index *)
  Definition branch (d : dir) (m : manager) (at_index : nat)
    : outcome (dir * manager) :=
    if negb (Nat.ltb at_index (length (m_revisions m))) then Raised IndexOutOfBounds
    else
      let revisions := firstn (S at_index) (m_revisions m) in
      let names := [Revision (flat_map r_data revisions) (flat_map r_schema revisions)
                      (flat_map r_index revisions) (BranchOf at_index)] in
      let d' := Dir (d_initial_index d)
                  (minimal (d_data d) (flat_map r_data revisions))
                  (minimal (d_schema d) (flat_map r_schema revisions))
                  (minimal (d_index d) (flat_map r_index revisions))
                  [names] (d_fresh d) in
      Done (d', Manager names 0 (schema_of d' names) false).

  (** data_slice_manager.py:568-627 get_revision_history *)
  Definition revision_history (m : manager) : list revision_kind :=
    map r_kind (m_revisions m).
End Managers.
