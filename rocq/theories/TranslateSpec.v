(** What translating keys means. *)
From Coq Require Import List Bool Arith.
From Verif Require Import ItemModel SliceModel SliceOpsModel SliceOpsSpec SubsliceModel SubsliceSpec DictModel GroupModel GroupSpec GroupKeysProofs.
Import ListNotations.

(** The value for a key: that at the place of the key, and none if it is not among the keys *)
Inductive translated (keys values : list ditem) : ditem -> ditem -> Prop :=
| NoKey : translated keys values None None
| Found i k v : nth_error keys i = Some (Some k) -> nth_error values i = Some v -> translated keys values (Some k) v
| NotFound k : ~ In (Some k) keys -> translated keys values (Some k) None.

(** No value is twice in a list *)
Definition distinct (same : value -> value -> Prop) (l : list ditem) : Prop :=
  forall i j v w, i < j -> nth_error l i = Some (Some v) -> nth_error l j = Some (Some w) -> ~ same v w.

(** Dicts can have these keys *)
Definition possible_key (k : value) : Prop := match projT1 k with KFloat32 | KFloat64 | KExprQuote => False | _ => True end.

(** What all theorems suppose: [same] is the equality of keys; the shapes fit the items; keys_from
    has the dimensions outer and a last one, e; casting keeps the number of items *)
Definition setting (same : value -> value -> bool) (is_nan : value -> bool) (cast : list ditem -> option (list ditem))
  (outer : shape) (e : edge) (to_shape : shape) (keys_to : list ditem) (keys_from : key_slice value)
  (values_shape : shape) (values_from : list ditem) : Prop :=
  partial_equivalence value same /\ (forall a b, is_nan a = true -> same a b = false) /\
  (forall v, possible_key v -> same v v = true) /\
  key_ok value (outer ++ [e]) e keys_from /\ fits 1 outer (length e) /\
  fits 1 to_shape (length keys_to) /\ fits 1 values_shape (length values_from) /\
  (forall l l', cast l = Some l' -> length l' = length l).

(** ** All items with a key *)

(** the values at the places of a key, in their order; [value_eqb] is equality of values *)
Definition with_key (keys values : list ditem) (key : ditem) : list ditem :=
  match key with
  | None => []
  | Some k => map snd (filter (fun x => match fst x with Some k' => value_eqb k' k | None => false end) (combine keys values))
  end.

(** As [setting]; keys and values have the same number of items *)
Definition group_setting (same : value -> value -> bool) (is_nan : value -> bool) (cast : list ditem -> option (list ditem))
  (outer : shape) (e : edge) (to_shape : shape) (keys_to : list ditem) (keys_from : key_slice value) (values_from : list ditem) : Prop :=
  partial_equivalence value same /\ (forall a b, is_nan a = true -> same a b = false) /\
  (forall v w, possible_key v -> (same v w = true <-> v = w)) /\
  key_ok value (outer ++ [e]) e keys_from /\ fits 1 outer (length e) /\
  fits 1 to_shape (length keys_to) /\ length values_from = list_sum e /\
  (forall l l', cast l = Some l' -> length l' = length l).
