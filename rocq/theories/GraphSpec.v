(** What schema node names and the schema graph mean, in terms of the paths of a
    schema ([leads], PathSpec.v). *)
From Coq Require Import String.
From Coq Require Import NArith ZArith List Bool Permutation Relations.
From Verif Require Import PathModel PathSpec GraphModel.
Import ListNotations.
Local Open Scope list_scope.
Local Open Scope nat_scope.

(** A path arrives at a schema; its last step is remembered. [o] is where the
    first schema comes from, None for the schema of a whole slice. *)
Inductive arrives (b : schema_bag) (o : origin) (x : schema)
  : path -> origin -> schema -> Prop :=
| arrives_here : arrives b o x [] o x
| arrives_step : forall p o' y a z,
    arrives b o x p o' y -> leads b y [a] z ->
    arrives b o x (p ++ [a]) (Some (y, a)) z.

(** How an action on the data reads on schemas. *)
Inductive operation (lx : lexicon) : action -> text -> Prop :=
| operation_keys : operation lx DictGetKeys (str ".get_key_schema()")
| operation_values : operation lx DictGetValues (str ".get_value_schema()")
| operation_items : operation lx ListExplode (str ".get_item_schema()")
| operation_attr : forall name,
    isidentifier lx name = true -> operation lx (GetAttr name) (str "." ++ name)
| operation_encoded : forall name code,
    isidentifier lx name = false -> encode lx name = Some code ->
    operation lx (GetAttr name)
      (str ".get_attr(" ++ [34%N] ++ code ++ [34%N] ++ str ")").

(** The documented names of schema nodes (schema_helper.py:244-263). *)
Inductive names (lx : lexicon) : origin -> schema -> text -> Prop :=
| names_item_id : forall o id, names lx o (SNode id) id
| names_root : forall t, names lx None (SPrimitive t) (str ".:" ++ t)
| names_leaf : forall id a op t,
    operation lx a op ->
    names lx (Some (SNode id, a)) (SPrimitive t) (id ++ op ++ str ":" ++ t).

(** [n] is the name of the schema node at the path [p]. *)
Definition named (lx : lexicon) (b : schema_bag) (x : schema) (p : path) (n : text)
  : Prop :=
  exists o y, arrives b None x p o y /\ names lx o y n.

(** Item ids are written in base62, primitive schemas have names made of
    letters, digits and underscores. *)
Definition alphanumeric (c : N) : Prop :=
  (48 <= c <= 57 \/ 65 <= c <= 90 \/ 97 <= c <= 122)%N.
Definition plain (x : schema) : Prop :=
  match x with
  | SNode id => Forall alphanumeric id
  | SPrimitive n => Forall (fun c => alphanumeric c \/ c = 95%N) n
  | SObject | SSchema => True
  end.

(** Schemas as they occur: attribute names are different and can be written. *)
Definition graph_ok (lx : lexicon) (b : schema_bag) (x : schema) : Prop :=
  schema_bag_ok b
  /\ (forall p y, leads b x p y -> plain y)
  /\ (forall p a y, leads b x (p ++ [a]) y -> printable lx a).

(** No OBJECT and no SCHEMA anywhere. *)
Definition supported (b : schema_bag) (x : schema) : Prop :=
  forall p y, leads b x p y -> y <> SObject /\ y <> SSchema.

(** Two places of a schema that values cannot tell apart: the same item id, or
    the same place. *)
Definition same_node (o : origin) (y : schema) (o' : origin) (y' : schema) : Prop :=
  y = y' /\ (match y with SNode _ => True | _ => o = o' end).

(** set.pop takes away some element, and fails only on the empty set. *)
Definition pop_ok (pop : list text -> option (text * list text)) : Prop :=
  (forall l, pop l = None <-> l = [])
  /\ (forall l x k, pop l = Some (x, k) -> Permutation l (x :: k)).

(** [y] is one of the images of [x] in a dict of sets. *)
Definition edge (r : relation) (x y : text) : Prop :=
  exists ys, get r x = Some ys /\ In y ys.

(** [m] is below [n]: some path goes through [n] and on to [m]. *)
Definition below (lx : lexicon) (b : schema_bag) (x : schema) (n m : text) : Prop :=
  exists p q, q <> [] /\ named lx b x p n /\ named lx b x (p ++ q) m.

(** The nodes that are asked for by a list of paths, and by another list of paths
    together with everything below them. *)
Definition requested (lx : lexicon) (b : schema_bag) (x : schema)
    (populate with_descendants : list path) (n : text) : Prop :=
  (exists p, In p populate /\ named lx b x p n)
  \/ (exists p q, In p with_descendants /\ named lx b x (p ++ q) n).
