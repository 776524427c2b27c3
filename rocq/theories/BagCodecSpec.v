(** What a bag must be like so that serialization keeps all of it. *)
From Coq Require Import String NArith ZArith List Bool Arith Permutation.
From Verif Require Import ObjectIdModel ItemIdSpec SchemaModel ItemModel DictModel SourceModel BagModel BagSpec BagCodecModel.
Import ListNotations.

Section Spec.
Variable asize : ObjectId -> N.

(** What the attributes of a schema are: its name is a text, its metadata an object,
    others are schemas (or were removed) *)
Definition schema_value (attr : list N) (v : ditem) : Prop :=
  (attr = text_of "__schema_name__" -> exists t, v = Some (val KText t)) /\
  (attr = text_of "__schema_metadata__" -> exists o, v = Some (val KObjectId o)) /\
  (attr <> text_of "__schema_name__" -> attr <> text_of "__schema_metadata__" ->
     v = None \/ (exists d, v = Some (val KDType d)) \/ (exists o, v = Some (val KObjectId o) /\ is_schema o = true)).

(** Schemas are as set_attr of schemas makes them: the attributes of a schema that was
    made alone are the keys of its dict; those of schemas that were made together are
    attributes, and the dict at the beginning of the allocation has their names. *)
Record schemas_ok (c : content) : Prop := {
  so_alone_attr : forall attr o, exists_object asize o -> is_schema o = true -> is_small_alloc o = true ->
    attr <> "__schema_name__"%string -> c_attr c attr o = None;
  so_alone_dict : forall o k v, wf o -> is_schema o = true -> is_small_alloc o = true ->
    c_dict c o k = Some v -> exists attr, k = val KText attr /\ schema_value attr v;
  so_many_attr : forall attr o v, exists_object asize o -> is_schema o = true -> is_small_alloc o = false ->
    attr <> "__schema_name__"%string -> c_attr c attr o = Some v -> schema_value (text_of attr) v;
  so_many_dict : forall o k v, wf o -> is_schema o = true -> is_small_alloc o = false ->
    (c_dict c o k = Some v <->
     offset o = 0%N /\ v = Some (val KUnit tt) /\
     exists attr o', attr <> "__schema_name__"%string /\ k = val KText (text_of attr) /\
       exists_object asize o' /\ allocation_of o' = allocation_of o /\ c_attr c attr o' <> None)
}.
(** Where an attribute was removed from an object of an allocation, some object of
    the allocation has a value of it. *)
Definition has_values (c : content) : Prop :=
  forall attr o, exists_object asize o -> is_small_alloc o = false ->
    is_schema o = false \/ attr = "__schema_name__"%string ->
    c_attr c attr o = Some None ->
    exists o' v, exists_object asize o' /\ allocation_of o' = allocation_of o /\ c_attr c attr o' = Some (Some v).
Definition storable (c : content) : Prop := schemas_ok c /\ has_values c.

(** The orders in which the encoder writes things *)
Definition any_orders (ord : orders) : Prop :=
  (forall l, Permutation (o_names ord l) l) /\ (forall l, Permutation (o_ids ord l) l) /\
  (forall l, Permutation (o_items ord l) l) /\ (forall l, Permutation (o_keys ord l) l).

End Spec.
