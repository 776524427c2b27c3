(** What kd.extract should return: the part of the bag that can be reached
    from the items of the slice by following the schemas. *)

From Coq Require Import String List NArith Arith Bool.
From Verif Require Import ExtractModel.
Import ListNotations.
Open Scope list_scope.

(** The value of an attribute, if it has one. *)
Definition value (b : bag) (x : id) (a : string) : option item :=
  match get_attr b x a with Some (Some v) => Some v | _ => None end.

(** The schema [s] gives the attribute [a] the type [t]. *)
Definition typed (b : bag) (s : id) (a : string) (t : item) : Prop := get_schema b s a = Some (Some t).

(** A schema whose attributes are to be followed. *)
Definition follow (s : id) : Prop := a_kind (i_alloc s) = KSchema false.

Definition is_schema_id (x : id) : Prop := exists f, a_kind (i_alloc x) = KSchema f.

(** The names with a special meaning among the attributes of a schema. *)
Definition regular (a : string) : Prop :=
  a <> kItems /\ a <> kKeys /\ a <> kValues /\ a <> kName /\ a <> kMetadata.

(** What is reached: an item with its schema, an item that carries its own
    schema, or a schema. *)
Inductive node := Inst (x s : id) | Obj (x : id) | Sch (s : id).

(** What an item is, looked at with a type. *)
Inductive enters : item -> item -> node -> Prop :=
| enters_entity x s : enters (IId x) (IId s) (Inst x s)
| enters_object x : enters (IId x) (IDType TObject) (Obj x)
| enters_schema x : enters (IId x) (IDType TSchema) (Sch x).

(** What the attribute [a] of a schema, with the value [t], leads to: the
    metadata is an object, the types of attributes, items, keys and values may
    be schemas. *)
Inductive leads : string -> item -> node -> Prop :=
| leads_metadata t n : enters t (IDType TObject) n -> leads kMetadata t n
| leads_type a s : a <> kName -> a <> kMetadata -> leads a (IId s) (Sch s).

Section Reach.
  Variables (src : bag) (ds : list item) (sch : item).

  Inductive reach : node -> Prop :=
  | reach_root it n : In it ds -> enters it sch n -> reach n
  | reach_root_schema s : sch = IId s -> reach (Sch s)
  | reach_object x s : reach (Obj x) -> value src x kSchemaAttr = Some (IId s) -> reach (Inst x s)
  | reach_schema x s : reach (Inst x s) -> reach (Sch s)
  | reach_attr x s a t it n :
      reach (Inst x s) -> follow s -> regular a -> typed src s a t -> value src x a = Some it ->
      enters it t n -> reach n
  | reach_item x s t l it n :
      reach (Inst x s) -> follow s -> typed src s kItems t -> get_list src x = Some l -> In (Some it) l ->
      enters it t n -> reach n
  | reach_key x s t k n :
      reach (Inst x s) -> follow s -> typed src s kKeys t -> get_dict src x k <> None ->
      enters k t n -> reach n
  | reach_value x s t k it n :
      reach (Inst x s) -> follow s -> typed src s kValues t -> get_dict src x k = Some (Some it) ->
      enters it t n -> reach n
  | reach_type s a t n :
      reach (Sch s) -> follow s -> typed src s a t -> leads a t n -> reach n.

  (** The attributes, lists and dicts that belong to the extracted part. *)
  Definition attr_scope (x : id) (a : string) : Prop :=
    (a = kSchemaAttr /\ reach (Obj x)) \/
    (exists s t, reach (Inst x s) /\ follow s /\ regular a /\ typed src s a t).
  Definition list_scope (x : id) : Prop :=
    exists s t, reach (Inst x s) /\ follow s /\ typed src s kItems t.
  Definition dict_scope (x : id) : Prop :=
    exists s t, reach (Inst x s) /\ follow s /\ typed src s kKeys t.

  (** [new] holds the extracted part, and nothing else. *)
  Record extracted (new : bag) : Prop := {
    e_attr x a : attr_scope x a -> value new x a = value src x a;
    e_attr_only x a : ~ attr_scope x a -> value new x a = None;
    e_removed x a : get_attr new x a = Some None -> get_attr src x a = Some None;
    e_list x : list_scope x -> get_list new x = get_list src x;
    e_list_only x : ~ list_scope x -> get_list new x = None;
    e_dict x k : dict_scope x -> get_dict new x k = get_dict src x k;
    e_dict_only x k : ~ dict_scope x -> get_dict new x k = None;
    e_schema s a : reach (Sch s) -> follow s -> get_schema new s a = get_schema src s a;
    e_schema_only s a : ~ (reach (Sch s) /\ follow s) -> get_schema new s a = None }.

  (** A value can be read with a type: an id for an entity schema, a primitive
      of the type for a primitive type. *)
  Definition fits (it t : item) : Prop :=
    match t with
    | IId _ => exists x, it = IId x
    | IDType (TPrim p) => exists v, it = IPrim p v
    | _ => True
    end.
  Definition is_type (t : item) : Prop := match t with IPrim _ _ => False | _ => True end.

  (** Data that agrees with its schemas. [real] is the number of ids of an
      allocation that were given out. *)
  Record well_formed (real : alloc -> nat) : Prop := {
    (* the slice *)
    w_root_type : is_type sch;
    w_root it : In it ds -> fits it sch;
    (* schemas: lists have items only, dicts keys and values only *)
    w_schema s : reach (Sch s) -> is_schema_id s;
    w_type s a t : reach (Sch s) -> follow s -> a <> kName -> a <> kMetadata -> typed src s a t -> is_type t;
    w_parts s a : reach (Sch s) -> follow s -> a = kItems \/ a = kKeys \/ a = kValues ->
      get_schema src s a <> Some None;
    w_reserved s : reach (Sch s) -> follow s -> get_schema src s kSchemaAttr = None;
    w_list_schema s t : reach (Sch s) -> follow s -> typed src s kItems t ->
      get_schema src s kKeys = None /\ get_schema src s kValues = None /\
      forall a t', regular a -> ~ typed src s a t';
    w_dict_schema s : reach (Sch s) -> follow s ->
      get_schema src s kKeys <> None \/ get_schema src s kValues <> None ->
      get_schema src s kKeys <> None /\ get_schema src s kValues <> None /\
      forall a t', regular a -> ~ typed src s a t';
    (* items: one schema each, and data of the declared types *)
    w_one x s s' : reach (Inst x s) -> reach (Inst x s') -> s = s';
    w_data x s : reach (Inst x s) -> ~ is_schema_id x;
    w_attr x s a t it : reach (Inst x s) -> follow s -> regular a -> typed src s a t ->
      value src x a = Some it -> fits it t;
    w_list x s t : reach (Inst x s) -> follow s -> typed src s kItems t -> a_kind (i_alloc x) = KList;
    w_item x s t l it : reach (Inst x s) -> follow s -> typed src s kItems t ->
      get_list src x = Some l -> In (Some it) l -> fits it t;
    w_dict x s t : reach (Inst x s) -> follow s -> typed src s kKeys t -> a_kind (i_alloc x) = KDict;
    w_key x s t k : reach (Inst x s) -> follow s -> typed src s kKeys t ->
      get_dict src x k <> None -> fits k t;
    w_value x s t k it : reach (Inst x s) -> follow s -> typed src s kValues t ->
      get_dict src x k = Some (Some it) -> fits it t;
    (* objects: they have a schema, which declares their attributes, and the
       schemas of one allocation agree *)
    w_object x : reach (Obj x) -> exists s, value src x kSchemaAttr = Some (IId s) /\ follow s;
    w_declared x s a v : reach (Obj x) -> value src x kSchemaAttr = Some (IId s) ->
      regular a -> a <> kSchemaAttr -> value src x a = Some v -> exists t, typed src s a t;
    w_uniform x s x' s' a t : reach (Obj x) -> value src x kSchemaAttr = Some (IId s) ->
      reach (Obj x') -> value src x' kSchemaAttr = Some (IId s') ->
      i_alloc s = i_alloc s' -> small (i_alloc s) = false -> a <> kName -> a <> kMetadata -> typed src s a t ->
      typed src s' a t \/ (regular a /\ forall t', ~ typed src s' a t');
    (* allocations *)
    w_offset x s : reach (Inst x s) -> i_off x < real (i_alloc x);
    w_capacity al : real al <= a_cap al;
    w_dense l al a vs : In l src -> In ((al, a), vs) (l_dense l) ->
      List.length vs = real al \/ List.length vs = a_cap al }.
End Reach.

(** What a user reads from a slice, following a path: an attribute of an
    item, an element of a list, a value of a dict. The types come from the
    schemas. *)
Inductive access := Attr (a : string) | At (i : nat) | Key (k : item).

Definition schema_of (b : bag) (x : id) (t : item) : option id :=
  match t with
  | IId s => Some s
  | IDType TObject => match value b x kSchemaAttr with Some (IId s) => Some s | _ => None end
  | _ => None
  end.

Definition typed_read (b : bag) (s : id) (a : string) (v : option item) : option (item * item) :=
  match get_schema b s a, v with
  | Some (Some t), Some v => Some (v, t)
  | _, _ => None
  end.

Definition is_regular (a : string) : bool :=
  negb (existsb (fun k => if string_dec a k then true else false) [kItems; kKeys; kValues; kName; kMetadata]).

Definition read_one (b : bag) (x s : id) (p : access) : option (item * item) :=
  match a_kind (i_alloc s) with
  | KSchema false =>
      match p with
      | Attr a => if is_regular a then typed_read b s a (value b x a) else None
      | At i => typed_read b s kItems
                  match get_list b x with
                  | Some l => match nth_error l i with Some c => c | None => None end
                  | None => None
                  end
      | Key k => typed_read b s kValues match get_dict b x k with Some c => c | None => None end
      end
  | _ => None
  end.

Fixpoint read (b : bag) (path : list access) (it t : item) : option (item * item) :=
  match path with
  | [] => Some (it, t)
  | p :: rest =>
      match it with
      | IId x =>
          match schema_of b x t with
          | Some s => match read_one b x s p with Some (it', t') => read b rest it' t' | None => None end
          | None => None
          end
      | _ => None
      end
  end.
