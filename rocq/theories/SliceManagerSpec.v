(** What a data slice manager is supposed to hold, without bags and indexes: a
    schema and data, changed by updates. *)
From Coq Require Import String.
From Coq Require Import NArith ZArith List Bool.
From Verif Require Import PathModel PathSpec GraphModel GraphSpec SliceManagerModel.
Import ListNotations.
Local Open Scope list_scope.
Local Open Scope nat_scope.

(** The schema says what an action gives on a schema node, the data says what an
    item id has in a field. *)
Record state := State {
  st_child : text -> action -> option schema;
  st_data : slot -> option content }.

(** The schema at a path. *)
Fixpoint schema_along (child : text -> action -> option schema) (x : schema) (p : path)
  : option schema :=
  match p with
  | [] => Some x
  | a :: p =>
      match x with
      | SNode id =>
          match child id a with
          | Some y => schema_along child y p
          | None => None
          end
      | _ => None
      end
  end.

(** The field that an action reads. *)
Definition field_of (a : action) : field :=
  match a with
  | GetAttr s => FAttr s
  | ListExplode => FItems
  | DictGetKeys | DictGetValues => FEntries
  end.

(** The items that an action reads from a content. *)
Definition items_read (a : action) (c : content) : list (option item) :=
  match a, c with
  | GetAttr _, CValue v => [v]
  | ListExplode, CItems l => l
  | DictGetKeys, CEntries l => map (fun kv => Some (fst kv)) l
  | DictGetValues, CEntries l => map (fun kv => Some (snd kv)) l
  | _, _ => []
  end.

Section Spec.
  (** Item ids have one schema each (the documented restriction on updates). *)
  Variable ty : N -> text.
  (** The item ids of list and dict schemas are computed from the schemas of their
      items, keys and values (koladata/object_factories.h:325-330, CreateListSchema
      and CreateDictSchema make uuids): what they stand for never changes. All
      others are entity schemas. *)
  Variable struct : text -> option node.

  (** An item can stand where the schema is [x]. *)
  Definition item_ok (x : schema) (i : option item) : Prop :=
    match x, i with
    | SNode id, Some (Obj o) => ty o = id
    | SNode id, Some (Prim _) => False
    | _, _ => True
    end.

  (** The data fits to the schema. *)
  Definition typed (child : text -> action -> option schema)
      (data : slot -> option content) : Prop :=
    forall o a x c i,
      child (ty o) a = Some x -> data (o, field_of a) = Some c ->
      In i (items_read a c) -> item_ok x i.

  (** The kinds of contents fit to the fields, dicts have no repeated keys and at
      least one entry. *)
  Definition content_ok (f : field) (c : content) : Prop :=
    match f, c with
    | FAttr _, CValue _ => True
    | FItems, CItems _ => True
    | FEntries, CEntries l => l <> [] /\ NoDup (map fst l)
    | _, _ => False
    end.

  (** The data of an update: the value of the attribute of the targets, and the
      data that comes with the value. *)
  Definition update_data (u : change) (targets : list (option item))
    : slot -> option content := bag_get (stub_data u targets).

  (** The schema of an update: the attribute, and what the schema of the value
      says. *)
  Definition update_child (u : change) (at_id : text) (id : text) (a : action)
    : option schema :=
    if text_eqb id at_id && action_eqb a (GetAttr (u_attr u)) then Some (u_schema u)
    else get_subschema (u_schemas u) a (SNode id).

  Section Update.
    Variable child : text -> action -> option schema.
    Variable data : slot -> option content.
    Variable targets : list N.

    (** The item ids that an update reaches from its targets. *)
    Inductive reached : N -> Prop :=
    | reached_target : forall o, In o targets -> reached o
    | reached_step : forall o a id c o',
        reached o -> child (ty o) a = Some (SNode id) ->
        data (o, field_of a) = Some c -> In (Some (Obj o')) (items_read a c) ->
        reached o'.

    (** What an update writes: all that it knows about what it reaches. *)
    Definition writes (s : slot) (c : content) : Prop :=
      reached (fst s) /\ data s = Some c
      /\ exists a x, child (ty (fst s)) a = Some x /\ field_of a = snd s.
  End Update.

  Variable root : N.
  Variable root_schema : text.

  (** What is at a path. *)
  Definition at_path (st : state) (p : path) : tree :=
    evaluate (st_data st) p (Some (Obj root)).
  Definition targets_of (st : state) (p : path) : list (option item) :=
    flattened (st_data st) p (Some (Obj root)).

  Definition written (st : state) (u : change) (at_id : text) : slot -> content -> Prop :=
    writes (update_child u at_id) (update_data u (targets_of st (u_path u)))
      (objects (targets_of st (u_path u))).

  (** The state after an update: what the update says, and for the rest what it
      was before. *)
  Definition after (st : state) (u : change) (st' : state) : Prop :=
    exists at_id,
      schema_along (st_child st) (SNode root_schema) (u_path u) = Some (SNode at_id)
      /\ (forall id a, st_child st' id a
            = match update_child u at_id id a with
              | Some x => Some x
              | None => st_child st id a
              end)
      /\ (forall s c, written st u at_id s c ->
            st_data st' s = Some (over (st_data st s) c))
      /\ (forall s, (forall c, ~ written st u at_id s c) ->
            st_data st' s = st_data st s).

  (** An update that changes the schema of an attribute replaces the values of
      this attribute everywhere. *)
  Definition replaces (st : state) (u : change) (at_id : text) : Prop :=
    forall o s x y,
      st_child st (ty o) (GetAttr s) = Some x ->
      update_child u at_id (ty o) (GetAttr s) = Some y -> x <> y ->
      st_data st (o, FAttr s) <> None -> exists c, written st u at_id (o, FAttr s) c.

  (** An update that changes no schema of an attribute. *)
  Definition keeps_schemas (st : state) (u : change) (at_id : text) : Prop :=
    forall id a x y,
      st_child st id a = Some x -> update_child u at_id id a = Some y -> x = y.

  (** Bags of schemas as they occur. *)
  Definition mentions (b : schema_bag) (x : schema) : Prop :=
    exists id a, get_subschema b a (SNode id) = Some x.
  Definition node_ok (b : schema_bag) (x : schema) : Prop :=
    match x with
    | SNode id =>
        match struct id with
        | Some n => lookup b id = n
        | None => exists attrs, lookup b id = NEntity attrs
        end
    | _ => True
    end.
  Definition bag_ok (lx : lexicon) (b : schema_bag) : Prop :=
    schema_bag_ok b
    /\ (forall id a x, get_subschema b a (SNode id) = Some x ->
          plain (SNode id) /\ plain x /\ printable lx a
          /\ node_ok b (SNode id) /\ node_ok b x).
  Definition struct_ok : Prop :=
    forall id n, struct id = Some n -> match n with NEntity _ => False | _ => True end.

  (** An acceptable argument for an update: the value fits to its schema, the bag
      of its schema is extracted. *)
  Definition change_ok (lx : lexicon) (st : state) (u : change) (at_id : text) : Prop :=
    bag_ok lx (u_schemas u)
    /\ plain (u_schema u) /\ node_ok (u_schemas u) (u_schema u)
    /\ printable lx (GetAttr (u_attr u))
    /\ (forall id a x, get_subschema (u_schemas u) a (SNode id) = Some x ->
          exists p, leads (u_schemas u) (u_schema u) p (SNode id))
    /\ (forall s c, In (s, c) (u_data u) -> content_ok (snd s) c)
    /\ typed (update_child u at_id) (update_data u (targets_of st (u_path u))).

  (** An acceptable argument for an update in the state [st]. *)
  Definition valid_change (lx : lexicon) (st : state) (u : change) : Prop :=
    exists at_id,
      schema_along (st_child st) (SNode root_schema) (u_path u) = Some (SNode at_id)
      /\ change_ok lx st u at_id.

  (** The same two kinds of updates, with the entity schema that is at the path. *)
  Definition replacing (st : state) (u : change) : Prop :=
    forall at_id,
      schema_along (st_child st) (SNode root_schema) (u_path u) = Some (SNode at_id) ->
      replaces st u at_id.
  Definition keeping (st : state) (u : change) : Prop :=
    forall at_id,
      schema_along (st_child st) (SNode root_schema) (u_path u) = Some (SNode at_id) ->
      keeps_schemas st u at_id.

  (** A path of a state. *)
  Definition has_path (st : state) (p : path) : Prop :=
    schema_along (st_child st) (SNode root_schema) p <> None.

  (** The entity without attributes. *)
  Definition initial_state : state := State (fun _ _ => None) (fun _ => None).

  (** What can happen to a persistence directory, with the managers that exist for
      it. For each of its revisions there is a kind and a state. A manager is
      created with the directory, by opening it at some revision, as a read-only
      copy, and it changes by an update. Any number of managers can be used side
      by side. An update can be cut off at any point, by a crash or by an error of
      the file system, and it can be refused; both give no new revision. A new
      directory can be a branch of another one; what happens to one of them later
      does not concern the other one. [allowed] restricts the updates that come
      into effect. *)
  Inductive history (allowed : state -> change -> Prop) (lx : lexicon) (pop : list text -> option (text * list text))
    : dir -> list manager -> list revision_kind -> list state -> Prop :=
  | history_new :
      history allowed lx pop (new_dir root_schema) [new_manager] [Creation] [initial_state]
  | history_open : forall d ms ks sts i ro m,
      history allowed lx pop d ms ks sts -> create_from_dir d i ro = Done m ->
      history allowed lx pop d (m :: ms) ks sts
  | history_copy : forall d ms ks sts m,
      history allowed lx pop d ms ks sts -> In m ms ->
      history allowed lx pop d (readonly_copy m :: ms) ks sts
  | history_update : forall d ms ks sts m u c d' m' st st',
      history allowed lx pop d ms ks sts -> In m ms ->
      nth_error sts (m_number m) = Some st -> valid_change lx st u -> allowed st u ->
      update lx pop root root_schema d m u c = (d', m', Some (Done tt)) ->
      after st u st' ->
      history allowed lx pop d' (m' :: ms) (ks ++ [AttributeUpdate (u_path u) (u_attr u)])
        (sts ++ [st'])
  | history_no_update : forall d ms ks sts m u c d' m' st r,
      history allowed lx pop d ms ks sts -> In m ms ->
      nth_error sts (m_number m) = Some st ->
      valid_change lx st u
      \/ (exists e, plan_update lx pop root root_schema d m u = Raised e) ->
      update lx pop root root_schema d m u c = (d', m', r) -> r <> Some (Done tt) ->
      history allowed lx pop d' (m' :: ms) ks sts
  | history_branch : forall d ms ks sts m i d' m' st,
      history allowed lx pop d ms ks sts -> In m ms -> branch d m i = Done (d', m') ->
      nth_error sts i = Some st ->
      history allowed lx pop d' [m'] [BranchOf i] [st].
End Spec.

(** The parameters: an encoding of names, the order of traversals, the schemas of
    the item ids, and a root that is an entity. *)
Definition setting (lx : lexicon) (pop : list text -> option (text * list text))
    (ty : N -> text) (struct : text -> option node) (root : N) (root_schema : text) : Prop :=
  codec_ok lx /\ pop_ok pop /\ struct_ok struct
  /\ ty root = root_schema /\ plain (SNode root_schema) /\ struct root_schema = None.

(** A path that was asked for by [populate] and [populate_including_descendants]:
    a given path, what is above one, and what is below one of the latter. *)
Definition asked (ps ds : list path) (p : path) : Prop :=
  (exists q, In (p ++ q) (ps ++ ds)) \/ (exists r t, In r ds /\ p = r ++ t).

(** A manager shows a state: it gives what is there at the paths of the state and
    refuses all other paths. *)
Definition shows (lx : lexicon) (pop : list text -> option (text * list text))
    (root : N) (root_schema : text) (d : dir) (m : manager) (st : state) : Prop :=
  forall p descendants,
    (has_path root_schema st p ->
       get_data_slice_at lx pop root root_schema d m p descendants
       = Done (at_path root st p))
    /\ (~ has_path root_schema st p ->
       get_data_slice_at lx pop root root_schema d m p descendants
       = Raised (SchemaError (InvalidArgument p))).

(** Two managers, perhaps of different directories, show the same. *)
Definition same_view (lx : lexicon) (pop : list text -> option (text * list text))
    (root_schema : text) (d : dir) (m : manager) (d' : dir) (m' : manager) : Prop :=
  m_schema m' = m_schema m
  /\ revision_history m' = revision_history m
  /\ forall ps ds, get_data_slice lx pop root_schema d' m' ps ds
                   = get_data_slice lx pop root_schema d m ps ds.
