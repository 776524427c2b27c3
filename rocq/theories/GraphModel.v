(** Model of py/koladata/ext/storage/schema_helper.py: the names of schema
    nodes, the schema graph, and the queries of [SchemaHelper].

    Schemas and the actions on them are those of PathModel.v. The item id of a
    schema is represented by its base62 text (kd.encode_itemid, Base62Model.v).
    Sets and dicts of Python are lists here; the order in which a set hands out
    its elements is a parameter ([pop]). *)
From Coq Require Import String.
From Coq Require Import NArith ZArith List Bool PeanoNat.
From Verif Require Import PathModel.
Import ListNotations.
Local Open Scope list_scope.
Local Open Scope nat_scope.

(** Raised exceptions. All but [AssertionFailed] and [KeyMissing] are
    ValueErrors. [OutOfFuel] marks a loop that did not finish within the rounds
    given to it by the model; it is proved not to happen. *)
Inductive failure :=
| UnsupportedObject
| UnsupportedSchema
| UnencodableName
| InvalidPath
| InvalidName (name : text)
| InvalidArgument (p : path)
| NotAnEntity
| AssertionFailed
| KeyMissing
| OutOfFuel.

Inductive result (A : Type) :=
| Ok (a : A)
| Fail (f : failure).
Arguments Ok {A}.
Arguments Fail {A}.

Definition bind {A B} (r : result A) (k : A -> result B) : result B :=
  match r with Ok a => k a | Fail f => Fail f end.

Definition mem (x : text) (l : list text) : bool := existsb (text_eqb x) l.

(** set.add and set.update *)
Definition set_add (x : text) (l : list text) : list text :=
  if mem x l then l else l ++ [x].
Definition set_update (l k : list text) : list text :=
  fold_left (fun l x => set_add x l) k l.

(** * Names of schema nodes *)

(** data_slice_path.py:148-149, 185-186, 222-223, 339-340
    get_subschema_operation. [None] if the attribute name cannot be encoded. *)
Definition subschema_operation (lx : lexicon) (a : action) : option text :=
  match a with
  | DictGetKeys => Some (str ".get_key_schema()")
  | DictGetValues => Some (str ".get_value_schema()")
  | ListExplode => Some (str ".get_item_schema()")
  | GetAttr _ => action_text lx a
  end.

(** The parent schema and the action, or None at a root. *)
Definition origin := option (schema * action).

(** schema_helper.py:230-235 *)
Definition item_id_name (x : schema) : result text :=
  match x with SNode id => Ok id | _ => Fail AssertionFailed end.

(** schema_helper.py:238-323 get_schema_node_name *)
Definition node_name (lx : lexicon) (o : origin) (child : schema) : result text :=
  match child with
  | SNode id => Ok id
  | SPrimitive name =>
      match o with
      | None => Ok (str "." ++ str ":" ++ name)
      | Some (parent, a) =>
          bind (item_id_name parent) (fun parent_name =>
            match subschema_operation lx a with
            | Some operation => Ok (parent_name ++ operation ++ str ":" ++ name)
            | None => Fail UnencodableName
            end)
      end
  | SObject => Fail UnsupportedObject
  | SSchema => Fail UnsupportedSchema
  end.

(** * The schema graph *)

(** dict[str, set[str]] *)
Definition relation := list (text * list text).

Fixpoint get (r : relation) (x : text) : option (list text) :=
  match r with
  | [] => None
  | (y, ys) :: r => if text_eqb y x then Some ys else get r x
  end.

(** schema_graph[parent].add(child); [None] is a KeyError *)
Fixpoint add_child (r : relation) (parent child : text) : option relation :=
  match r with
  | [] => None
  | (y, ys) :: r =>
      if text_eqb y parent then Some ((y, set_add child ys) :: r)
      else match add_child r parent child with
           | Some r => Some ((y, ys) :: r)
           | None => None
           end
  end.

(** A fact of a schema bag: the schema of what an action gives on a schema
    (data_slice_path.py:151-159, 188-196, 225-233, 342-350 get_subschema_bag).
    The names and the metadata of schemas are left out. *)
Definition schema_fact := (text * action * schema)%type.

(** schema_helper.py:370-382 _AnalyzeSchemaResult. In [relationship_bags] the
    parent is None for _NO_PARENT_MARKER. *)
Record analysis := Analysis {
  schema_graph : relation;
  node_schemas : list (text * schema);
  relationship_bags : list (option text * text * list schema_fact) }.

Fixpoint find_schema (l : list (text * schema)) (x : text) : option schema :=
  match l with
  | [] => None
  | (y, s) :: l => if text_eqb y x then Some s else find_schema l x
  end.

Definition parent_eqb (p q : option text) : bool :=
  match p, q with
  | Some p, Some q => text_eqb p q
  | None, None => true
  | _, _ => false
  end.

(** schema_helper.py:480-489. An existing bag takes precedence over the new one. *)
Fixpoint add_relationship (l : list (option text * text * list schema_fact))
    (p : option text) (c : text) (bag : list schema_fact)
  : list (option text * text * list schema_fact) :=
  match l with
  | [] => [(p, c, bag)]
  | (p', c', bag') :: l =>
      if parent_eqb p' p && text_eqb c' c then (p', c', bag' ++ bag) :: l
      else (p', c', bag') :: add_relationship l p c bag
  end.

(** schema_helper.py:326-359 _get_schema_bag; a root has only a stub *)
Definition relationship_bag (o : origin) (child : schema)
  : result (list schema_fact) :=
  match o with
  | None => Ok []
  | Some (parent, a) =>
      bind (item_id_name parent) (fun id => Ok [(id, a, child)])
  end.

(** schema_helper.py:412-446 expand_one_step *)
Definition expand_item (b : schema_bag) (x : schema) : list (origin * schema) :=
  map (fun az => (Some (x, fst az), snd az)) (expand_schema b x).

(** schema_helper.py:457-498, the body of the for loop; the state holds the
    artifacts and new_level. *)
Definition analyze_item (lx : lexicon) (b : schema_bag)
    (only_graph is_first_level : bool)
    (st : analysis * list (origin * schema)) (it : origin * schema)
  : result (analysis * list (origin * schema)) :=
  let an := fst st in
  let o := fst it in
  let child := snd it in
  bind (node_name lx o child) (fun child_name =>
  bind (match o with
        | None => Ok None
        | Some (parent, _) => bind (item_id_name parent) (fun n => Ok (Some n))
        end) (fun parent_name =>
  bind (if is_first_level then Ok (schema_graph an)
        else match parent_name with
             | Some p =>
                 match add_child (schema_graph an) p child_name with
                 | Some g => Ok g
                 | None => Fail KeyMissing
                 end
             | None => Fail KeyMissing
             end) (fun graph =>
  bind (if only_graph then Ok (relationship_bags an)
        else bind (relationship_bag o child) (fun bag =>
               Ok (add_relationship (relationship_bags an) parent_name child_name
                     bag))) (fun bags =>
  if mem child_name (map fst graph)
  then Ok (Analysis graph (node_schemas an) bags, snd st)
  else
    Ok (Analysis (graph ++ [(child_name, [])])
          (if only_graph then node_schemas an
           else node_schemas an ++ [(child_name, child)]) bags,
        snd st ++ expand_item b child))))).

Fixpoint analyze_level (lx : lexicon) (b : schema_bag)
    (only_graph is_first_level : bool)
    (st : analysis * list (origin * schema)) (level : list (origin * schema))
  : result (analysis * list (origin * schema)) :=
  match level with
  | [] => Ok st
  | it :: level =>
      bind (analyze_item lx b only_graph is_first_level st it) (fun st =>
        analyze_level lx b only_graph is_first_level st level)
  end.

(** schema_helper.py:455-500, the while loop *)
Fixpoint analyze_loop (lx : lexicon) (b : schema_bag) (only_graph : bool)
    (rounds : nat) (is_first_level : bool) (an : analysis)
    (level : list (origin * schema)) : result analysis :=
  match level with
  | [] => Ok an
  | _ =>
      match rounds with
      | O => Fail OutOfFuel
      | S rounds =>
          bind (analyze_level lx b only_graph is_first_level (an, []) level)
            (fun st =>
               analyze_loop lx b only_graph rounds false (fst st) (snd st))
      end
  end.

(** schema_helper.py:385-505 _analyze_schema. A level can only be followed by
    another one if it brings up an item id of the bag for the first time. *)
Definition analyze_schema (lx : lexicon) (b : schema_bag) (x : schema)
    (o : origin) (only_graph : bool) : result analysis :=
  analyze_loop lx b only_graph (S (length b)) true (Analysis [] [] []) [(o, x)].

(** schema_helper.py:557-566, the loop of
    _get_schema_node_name_for_data_slice_path *)
Fixpoint walk (b : schema_bag) (o : origin) (x : schema) (p : path)
  : option (origin * schema) :=
  match p with
  | [] => Some (o, x)
  | a :: p =>
      match get_subschema b a x with
      | Some y => walk b (Some (x, a)) y p
      | None => None
      end
  end.

(** schema_helper.py:508-571 _get_schema_node_name_for_data_slice_path *)
Definition path_node_name (lx : lexicon) (b : schema_bag) (x : schema) (p : path)
  : result text :=
  match walk b None x p with
  | Some (o, y) => node_name lx o y
  | None => Fail InvalidPath
  end.

(** * Closures *)

(** result[y].add(x) on a defaultdict *)
Fixpoint default_add (r : relation) (y x : text) : relation :=
  match r with
  | [] => [(y, [x])]
  | (z, zs) :: r =>
      if text_eqb z y then (z, set_add x zs) :: r else (z, zs) :: default_add r y x
  end.

(** schema_helper.py:574-582 _get_converse_relation *)
Definition converse_relation (r : relation) : relation :=
  fold_left
    (fun res xys => fold_left (fun res y => default_add res y (fst xys))
                      (snd xys) res) r [].

(** relation[x] on a dict, and on a defaultdict (which never fails) *)
Definition strict_get (r : relation) (x : text) : result (list text) :=
  match get r x with Some ys => Ok ys | None => Fail KeyMissing end.
Definition default_get (r : relation) (x : text) : result (list text) :=
  match get r x with Some ys => Ok ys | None => Ok [] end.

Section Closures.
  (** set.pop: an arbitrary element and the others. *)
  Variable pop : list text -> option (text * list text).
  Variable rel : text -> result (list text).

  (** schema_helper.py:603-605 *)
  Fixpoint first_images (unvisited of_set : list text) : result (list text) :=
    match of_set with
    | [] => Ok unvisited
    | x :: of_set =>
        bind (rel x) (fun ys => first_images (set_update unvisited ys) of_set)
    end.

  (** schema_helper.py:606-613 *)
  Fixpoint closure_loop (rounds : nat) (unvisited res : list text)
    : result (list text) :=
    match pop unvisited with
    | None => Ok res
    | Some (current, unvisited) =>
        match rounds with
        | O => Fail OutOfFuel
        | S rounds =>
            if mem current res then closure_loop rounds unvisited res
            else bind (rel current) (fun ys =>
                   closure_loop rounds (set_update unvisited ys)
                     (set_add current res))
        end
    end.
End Closures.

(** The number of pairs in a relation. *)
Fixpoint pairs (r : relation) : nat :=
  match r with [] => 0 | (_, ys) :: r => length ys + pairs r end.

(** schema_helper.py:585-613 _get_transitive_closure_image. Every pair of the
    relation adds at most one element to unvisited, after the first images. *)
Definition closure_image (pop : list text -> option (text * list text))
    (rel : text -> result (list text)) (rounds : nat) (of_set : list text)
  : result (list text) :=
  bind (first_images rel [] of_set) (fun unvisited =>
    closure_loop pop rel (length unvisited + rounds) unvisited []).

(** * SchemaHelper *)

(** schema_helper.py:625-634 __init__ *)
Record helper := Helper {
  h_lexicon : lexicon;
  h_pop : list text -> option (text * list text);
  h_bag : schema_bag;
  h_schema : schema;
  h_analysis : analysis;
  h_parents : relation }.

Definition make_helper (lx : lexicon) (pop : list text -> option (text * list text))
    (b : schema_bag) (x : schema) : result helper :=
  bind (analyze_schema lx b x None false) (fun an =>
    Ok (Helper lx pop b x an (converse_relation (schema_graph an)))).

Definition h_graph (h : helper) : relation := schema_graph (h_analysis h).

(** schema_helper.py:639-646 *)
Definition all_names (h : helper) : list text := map fst (h_graph h).
Definition leaf_names (h : helper) : list text :=
  map fst (filter (fun kv => match snd kv with [] => true | _ => false end)
             (h_graph h)).
Definition non_leaf_names (h : helper) : list text :=
  map fst (filter (fun kv => match snd kv with [] => false | _ => true end)
             (h_graph h)).

(** schema_helper.py:868-873, 678-679 *)
Definition is_valid_name (h : helper) (n : text) : bool := mem n (all_names h).
Definition check_name (h : helper) (n : text) : result unit :=
  if is_valid_name h n then Ok tt else Fail (InvalidName n).
Fixpoint check_names (h : helper) (l : list text) : result unit :=
  match l with
  | [] => Ok tt
  | n :: l => bind (check_name h n) (fun _ => check_names h l)
  end.

(** schema_helper.py:648-658 *)
Definition parent_names (h : helper) (n : text) : result (list text) :=
  bind (check_name h n) (fun _ => default_get (h_parents h) n).
Definition child_names (h : helper) (n : text) : result (list text) :=
  bind (check_name h n) (fun _ => strict_get (h_graph h) n).

(** schema_helper.py:660-676 *)
Definition ancestor_names (h : helper) (ns : list text) : result (list text) :=
  bind (check_names h ns) (fun _ =>
    closure_image (h_pop h) (default_get (h_parents h)) (pairs (h_parents h)) ns).
Definition descendant_names (h : helper) (ns : list text) : result (list text) :=
  bind (check_names h ns) (fun _ =>
    closure_image (h_pop h) (strict_get (h_graph h)) (pairs (h_graph h)) ns).

(** schema_helper.py:681-689 *)
Definition is_leaf_name (h : helper) (n : text) : result bool :=
  bind (check_name h n) (fun _ =>
    bind (strict_get (h_graph h) n) (fun ys =>
      Ok (match ys with [] => true | _ => false end))).

(** schema_helper.py:754-757 *)
Definition subschema_at (h : helper) (n : text) : result schema :=
  bind (check_name h n) (fun _ =>
    match find_schema (node_schemas (h_analysis h)) n with
    | Some x => Ok x
    | None => Fail KeyMissing
    end).

Definition is_entity_schema (b : schema_bag) (x : schema) : bool :=
  match x with
  | SNode id => match lookup b id with NEntity _ => true | _ => false end
  | _ => false
  end.

(** schema_helper.py:691-752. The schema of the value comes with its own bag. *)
Definition affected_names (h : helper) (at_name : text) (attr_name : text)
    (value_bag : schema_bag) (value_schema : schema) : result (list text) :=
  bind (subschema_at h at_name) (fun at_schema =>
    if negb (is_entity_schema (h_bag h) at_schema) then Fail NotAnEntity
    else
      bind (analyze_schema (h_lexicon h) value_bag value_schema
              (Some (at_schema, GetAttr attr_name)) true) (fun an =>
        Ok (map fst (schema_graph an)))).

(** schema_helper.py:785-790 *)
Definition name_of_path (h : helper) (p : path) : result text :=
  path_node_name (h_lexicon h) (h_bag h) (h_schema h) p.

(** schema_helper.py:778-783. An AssertionError is not caught; node_name only
    raises it for a parent without an item id. *)
Definition path_exists (h : helper) (p : path) : bool :=
  match name_of_path h p with Ok _ => true | Fail _ => false end.

Fixpoint check_paths (h : helper) (ps : list path) : result unit :=
  match ps with
  | [] => Ok tt
  | p :: ps => if path_exists h p then check_paths h ps else Fail (InvalidArgument p)
  end.

(** A set comprehension over paths. *)
Fixpoint names_of_paths (h : helper) (acc : list text) (ps : list path)
  : result (list text) :=
  match ps with
  | [] => Ok acc
  | p :: ps =>
      bind (name_of_path h p) (fun n => names_of_paths h (set_add n acc) ps)
  end.

(** schema_helper.py:792-829 get_schema_node_names_needed_to *)
Definition names_needed_to (h : helper)
    (populate populate_including_descendants : list path) : result (list text) :=
  bind (check_paths h populate) (fun _ =>
  bind (check_paths h populate_including_descendants) (fun _ =>
  bind (names_of_paths h [] populate_including_descendants) (fun needed =>
  bind (descendant_names h needed) (fun ds =>
  let needed := set_update needed ds in
  bind (names_of_paths h [] populate) (fun ns =>
  let needed := set_update needed ns in
  bind (ancestor_names h needed) (fun anc =>
  Ok (set_update needed anc))))))).

(** schema_helper.py:831-857 get_schema_bag, without the stubs *)
Definition schema_bag_for (h : helper) (ns : list text)
  : result (list schema_fact) :=
  bind (check_names h ns) (fun _ =>
    Ok (flat_map
          (fun pcb =>
             match pcb with
             | (p, c, bag) =>
                 if mem c ns
                    && match p with None => true | Some p => mem p ns end
                 then bag else []
             end) (relationship_bags (h_analysis h)))).
