(** What data slice paths are supposed to do, in terms of their documentation
    (data_slice_path.py:375-403). *)
From Coq Require Import String.
From Coq Require Import NArith ZArith List Bool Sorted.
From Verif Require Import PathModel.
Import ListNotations.
Local Open Scope list_scope.
Local Open Scope nat_scope.

(** What is assumed of the encoding of attribute names: decoding inverts
    encoding, and nothing that contains a quotation mark can be decoded. *)
Definition codec_ok (lx : lexicon) : Prop :=
  (forall s b, encode lx s = Some b -> decode lx b = Some s)
  /\ (forall b s, decode lx b = Some s -> ~ In 34%N b /\ ~ In 39%N b).

(** The documented spellings of an action. *)
Inductive spells (lx : lexicon) : text -> action -> Prop :=
| spell_keys : spells lx (str ".get_keys()") DictGetKeys
| spell_values : spells lx (str ".get_values()") DictGetValues
| spell_explode : spells lx (str "[:]") ListExplode
| spell_attr : forall name,
    isidentifier lx name = true -> spells lx (str "." ++ name) (GetAttr name)
| spell_quoted : forall q b name,
    q = 34%N \/ q = 39%N ->
    decode lx b = Some name ->
    spells lx (str ".get_attr(" ++ [q] ++ b ++ [q] ++ str ")") (GetAttr name).

(** A text denotes a path if it is made of spellings of its actions. *)
Definition denotes (lx : lexicon) (s : text) (p : path) : Prop :=
  exists ts, Forall2 (spells lx) ts p /\ s = List.concat ts.

(** A name that a path can be printed with. *)
Definition printable (lx : lexicon) (a : action) : Prop :=
  match a with
  | GetAttr s => isidentifier lx s = true \/ encode lx s <> None
  | _ => True
  end.

(** A path leads from one schema to another. *)
Inductive leads (b : schema_bag) : schema -> path -> schema -> Prop :=
| leads_nil : forall x, leads b x [] x
| leads_list : forall id i p y,
    lookup b id = NList i -> leads b i p y ->
    leads b (SNode id) (ListExplode :: p) y
| leads_keys : forall id k v p y,
    lookup b id = NDict k v -> leads b k p y ->
    leads b (SNode id) (DictGetKeys :: p) y
| leads_values : forall id k v p y,
    lookup b id = NDict k v -> leads b v p y ->
    leads b (SNode id) (DictGetValues :: p) y
| leads_attr : forall id attrs s x p y,
    lookup b id = NEntity attrs -> In (s, x) attrs -> leads b x p y ->
    leads b (SNode id) (GetAttr s :: p) y.

Definition valid_path (b : schema_bag) (x : schema) (p : path) : Prop :=
  exists y, leads b x p y.

(** In a bag of schemas the attributes of an entity schema have different names
    (they are the keys of a map). *)
Definition schema_bag_ok (b : schema_bag) : Prop :=
  forall id attrs, lookup b id = NEntity attrs -> NoDup (map fst attrs).

(** Shorter paths come first. *)
Definition by_depth (l : list path) : Prop :=
  StronglySorted (fun p q => depth p <= depth q) l.
