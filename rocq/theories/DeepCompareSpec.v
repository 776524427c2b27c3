(** What the deep comparison of two slices should say: a path through both sides along the
    attributes, list items and dict values, and what makes two sides equivalent. Written with the
    reads of the bags only. *)
From Coq Require Import String List Bool Arith NArith ZArith.
From Verif Require Import DeepCompareModel.
Import ListNotations.
Local Open Scope string_scope.
Local Open Scope nat_scope.
Local Open Scope list_scope.

(** ** One bag as a graph *)

Inductive field :=
| FItem (i : nat)          (* an item of a list *)
| FItemSchema              (* the schema of the items of an empty list *)
| FKey (v : item)          (* a key of a dict *)
| FKeySchema               (* the schema of the keys of an empty dict *)
| FValue (v : item)        (* the value of a key *)
| FValueSchema             (* the schema of the values of an empty dict *)
| FAttr (a : string)       (* an attribute of an entity or object *)
| FSchemaAttr (a : string) (* an attribute of a schema *).

(** The items that are values: neither missing nor an ObjectId *)
Definition primitive (x : item) : Prop := x <> Missing /\ forall k n, x <> Obj k n.
Definition a_type (s : item) : Prop := (exists k n, s = Obj k n) \/ exists d, s = DType d.
Definition followed (s : item) : Prop := exists k n, s = Obj k n /\ k <> KNoFollow.

(** The schema by which the fields of an item are known: an object has it in itself *)
Definition own_schema (b : bag) (n : node) (s : item) : Prop :=
  (n_schema n = DType TObject /\ (exists k m, n_item n = Obj k m) /\
   b_attr b (n_item n) "__schema__" = Ok s /\ s <> Missing) \/
  (~ (n_schema n = DType TObject /\ exists k m, n_item n = Obj k m) /\ s = n_schema n).

Definition list_type (b : bag) (s t : item) : Prop :=
  followed s /\ b_names b s = Ok ["__items__"] /\ b_schema_attr b s "__items__" = Ok t.
Definition dict_type (b : bag) (s kt vt : item) : Prop :=
  followed s /\ (b_names b s = Ok ["__keys__"; "__values__"] \/ b_names b s = Ok ["__values__"; "__keys__"]) /\
  b_schema_attr b s "__keys__" = Ok kt /\ b_schema_attr b s "__values__" = Ok vt.
Definition entity_attrs (b : bag) (s : item) (names : list string) : Prop :=
  followed s /\ b_names b s = Ok names /\
  ~ In "__items__" names /\ ~ In "__keys__" names /\ ~ In "__values__" names.

(** The fields of [x] whose schema is [s] *)
Inductive leads (b : bag) (x s : item) : field -> node -> Prop :=
| leads_item t l i y : list_type b s t -> b_list b x = Ok l -> nth_error l i = Some y ->
    leads b x s (FItem i) (mkNode y t)
| leads_item_schema t : list_type b s t -> b_list b x = Ok [] -> leads b x s FItemSchema (mkNode Missing t)
| leads_key kt vt ks vs i k : dict_type b s kt vt -> b_keys b x = Ok ks -> b_values b x = Ok vs ->
    nth_error ks i = Some k -> leads b x s (FKey k) (mkNode k kt)
| leads_value kt vt ks vs i k v : dict_type b s kt vt -> b_keys b x = Ok ks -> b_values b x = Ok vs ->
    nth_error ks i = Some k -> nth_error vs i = Some v -> leads b x s (FValue k) (mkNode v vt)
| leads_key_schema kt vt vs : dict_type b s kt vt -> b_keys b x = Ok [] -> b_values b x = Ok vs ->
    leads b x s FKeySchema (mkNode Missing kt)
| leads_value_schema kt vt vs : dict_type b s kt vt -> b_keys b x = Ok [] -> b_values b x = Ok vs ->
    leads b x s FValueSchema (mkNode Missing vt)
| leads_attr names a v t : entity_attrs b s names -> In a names ->
    a <> "__schema_name__" -> a <> "__schema_metadata__" ->
    b_attr b x a = Ok v -> b_schema_attr b s a = Ok t -> leads b x s (FAttr a) (mkNode v t)
| leads_schema_attr names a t : s = DType TSchema -> followed x -> b_names b x = Ok names -> In a names ->
    b_schema_attr b x a = Ok t ->
    leads b x s (FSchemaAttr a)
      (mkNode t (DType (if string_dec a "__schema_name__" then TString
                        else if string_dec a "__schema_metadata__" then TObject else TSchema))).
Definition goes (b : bag) (n : node) (f : field) (n' : node) : Prop :=
  exists s, own_schema b n s /\ leads b (n_item n) s f n'.

(** What the reads of a bag guarantee: the keys of a dict differ from each other and none is NaN,
    every key has a value, schemas have no attribute twice, primitives have nothing *)
Record wf_bag (b : bag) : Prop := {
  wf_keys : forall x ks, b_keys b x = Ok ks ->
    (forall i j k k', nth_error ks i = Some k -> nth_error ks j = Some k' -> item_eqb k k' = true -> i = j) /\
    (forall k, In k ks -> is_nan k = false);
  wf_values : forall x ks vs, b_keys b x = Ok ks -> b_values b x = Ok vs -> length ks = length vs;
  wf_names : forall s names, b_names b s = Ok names -> NoDup names;
  wf_prim : forall x, primitive x ->
    (forall a v, b_attr b x a <> Ok v) /\ (forall l, b_list b x <> Ok l) /\ (forall l, b_keys b x <> Ok l) }.

(** ** Two bags *)

(** Values are compared as numbers, NaN is equal to NaN where values are compared *)
Inductive same_item : item -> item -> Prop :=
| same_refl x : is_nan x = false -> same_item x x
| same_int w w' z : same_item (Int w z) (Int w' z)
| same_float w w' z : same_item (Float w (Some z)) (Float w' (Some z)).

(** Lists, dicts and schemas (also those that are not followed) are told from other objects *)
Inductive class := CList | CDict | CSchema | CElse.
Definition class_of (x : item) : class :=
  match x with
  | Obj KList _ => CList
  | Obj KDict _ => CDict
  | Obj KSchema _ | Obj KNoFollow _ => CSchema
  | _ => CElse
  end.
Definition same_class (a b : item) : Prop := class_of a = class_of b.
(** Two items that do not differ in themselves *)
Definition alike (p : params) (l r : node) : Prop :=
  (p_schemas p = true -> same_item (n_schema l) (n_schema r)) /\
  (if is_obj (n_item l) && is_obj (n_item r) && negb (p_ids p)
   then same_class (n_item l) (n_item r) /\
        (n_schema l = DType TItemId -> n_schema r = DType TItemId /\ n_item l = n_item r)
   else same_item (n_item l) (n_item r) \/ (is_nan (n_item l) = true /\ is_nan (n_item r) = true)).

Definition element (f : field) : Prop := match f with FItem _ => True | FValue _ => True | _ => False end.
(** Keys of dicts are not compared, only their values are *)
Definition visible (f : field) : Prop := match f with FKey _ => False | _ => True end.
(** A field that only the left (actual) side has is a difference *)
Definition left_matters (p : params) (f : field) (l : node) : Prop :=
  (p_partial p = true -> element f) /\ (n_item l = Missing -> p_schemas p = true).
(** A field that only the right (expected) side has is a difference *)
Definition right_matters (p : params) (f : field) (r : node) : Prop :=
  n_item r = Missing -> p_schemas p = true.
(** Different values are a difference *)
Definition both_matter (p : params) (f : field) (r : node) : Prop :=
  p_partial p = true -> element f \/ n_item r <> Missing.

Record bisimulation (p : params) (lb rb : bag) (R : node -> node -> Prop) : Prop := {
  bis_alike : forall l r, R l r -> alike p l r;
  bis_both : forall l r f l' r', R l r -> visible f -> goes lb l f l' -> goes rb r f r' ->
    R l' r' \/ (~ alike p l' r' /\ ~ both_matter p f r');
  bis_left : forall l r f l', R l r -> visible f -> goes lb l f l' -> left_matters p f l' ->
    exists r', goes rb r f r';
  bis_right : forall l r f r', R l r -> visible f -> goes rb r f r' -> right_matters p f r' ->
    exists l', goes lb l f l' }.
Definition equivalent (p : params) (lb rb : bag) (l r : node) : Prop :=
  exists R, bisimulation p lb rb R /\ R l r.

(** The items of a slice; an empty slice stands for a missing item of its schema *)
Definition nodes_of (l : list item) (s : item) : list node :=
  match l with [] => [mkNode Missing s] | _ => map (fun x => mkNode x s) l end.

(** The fields [fs] lead from [l] and [r] to [l'] and [r'], always through items that are alike *)
Inductive reaches (p : params) (lb rb : bag) (l r : node) : list field -> node -> node -> Prop :=
| reaches_start : alike p l r -> reaches p lb rb l r [] l r
| reaches_step fs l1 r1 f l2 r2 : reaches p lb rb l r fs l1 r1 -> visible f ->
    goes lb l1 f l2 -> goes rb r1 f r2 -> alike p l2 r2 -> reaches p lb rb l r (fs ++ [f]) l2 r2.

(** The field [f] of [l] and [r] is a difference *)
Inductive differs (p : params) (lb rb : bag) (l r : node) (f : field) : diff -> Prop :=
| differs_left l' : visible f -> goes lb l f l' -> (forall r', ~ goes rb r f r') -> left_matters p f l' ->
    differs p lb rb l r f (DLeft l')
| differs_right r' : visible f -> goes rb r f r' -> (forall l', ~ goes lb l f l') -> right_matters p f r' ->
    differs p lb rb l r f (DRight r')
| differs_both l' r' b : visible f -> goes lb l f l' -> goes rb r f r' -> ~ alike p l' r' -> both_matter p f r' ->
    (b = true <-> p_schemas p = true /\ ~ same_item (n_schema l') (n_schema r')) ->
    differs p lb rb l r f (DMismatch l' r' b).

(** The field that a key of a path stands for *)
Definition field_of (k : key) : option field :=
  match k with
  | KListItem i => Some (FItem i)
  | KListNoItems => Some FItemSchema
  | KDictKey _ v => Some (FKey v)
  | KDictNoKeys => Some FKeySchema
  | KDictValue _ v => Some (FValue v)
  | KDictNoValues => Some FValueSchema
  | KAttr a => Some (FAttr a)
  | KSchemaName a => Some (FSchemaAttr a)
  | KSliceItem _ => None
  end.
Definition is_path (ks : list key) (fs : list field) : Prop := map field_of ks = map Some fs.

(** The items at position [i] of the slices, and the first key of the paths from them *)
Definition pair_at (is_item : bool) (l : list item) (ls : item) (r : list item) (rs : item) (k : key) (a b : node) : Prop :=
  exists i, nth_error (nodes_of l ls) i = Some a /\ nth_error (nodes_of r rs) i = Some b /\
    k = KSliceItem (if is_item then None else match l with [] => None | _ => Some i end).

(** A difference together with the path to it: [a], [b] at the start of the path, [fs] to the items
    [l] and [r], whose field [f] differs *)
Inductive difference_at (p : params) (lb rb : bag) (is_item : bool) (l : list item) (ls : item) (r : list item) (rs : item)
  : list key -> diff -> Prop :=
| at_root k a b m : pair_at is_item l ls r rs k a b -> ~ alike p a b ->
    (m = true <-> p_schemas p = true /\ ~ same_item (n_schema a) (n_schema b)) ->
    difference_at p lb rb is_item l ls r rs [k] (DMismatch a b m)
| at_field k a b ks fs x y kf f d : pair_at is_item l ls r rs k a b -> is_path ks fs -> field_of kf = Some f ->
    reaches p lb rb a b fs x y -> differs p lb rb x y f d ->
    difference_at p lb rb is_item l ls r rs (k :: ks ++ [kf]) d.

(** Fields that a dict cannot hold both: keys that are equal as numbers *)
Definition same_field (f g : field) : Prop :=
  f = g \/ exists v w, f = FValue v /\ g = FValue w /\ same_item v w.

(** From the items [ns] only finitely many items are reachable *)
Definition finite_from (b : bag) (ns : list node) : Prop :=
  exists u, incl ns u /\ (forall n, In n u -> a_type (n_schema n)) /\
    forall n f n', In n u -> goes b n f n' -> In n' u.

(** The reads of all fields of an item succeed *)
Definition readable (b : bag) (n : node) : Prop :=
  exists s ts, resolve b n = Ok s /\ get_transitions b (n_item n) s = Ok ts /\
    forall k, In k (transition_keys ts) -> exists n', by_key b (n_item n) s ts k = Ok n'.
(** From the items [ns] only finitely many items are reachable, all of them can be read, and no
    dict has ObjectIds as keys *)
Definition readable_from (b : bag) (ns : list node) : Prop :=
  exists u, incl ns u /\ (forall n, In n u -> a_type (n_schema n) /\ readable b n) /\
    (forall n f n', In n u -> goes b n f n' -> In n' u) /\
    (forall n v n', In n u -> goes b n (FKey v) n' -> is_obj v = false).
