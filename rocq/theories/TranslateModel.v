(** Looking up keys: kd.slices.translate in koladata/operators/slices.cc.

    A slice is its shape and its items. The dictionaries that are made for the lookup are those
    of DictModel, Unique is that of GroupModel and broadcasting that of SubsliceModel. *)
From Coq Require Import NArith ZArith List Bool Arith.
From Verif Require Import ObjectIdModel SchemaModel ItemModel DictModel SliceModel SliceOpsModel SubsliceModel GroupModel.
Import ListNotations.
Local Open Scope nat_scope.

Inductive translate_error :=
| EValues        (* the values are not broadcastable to the keys *)
| EItem          (* the keys are an item *)
| EKeysTo        (* the keys to translate do not have the dimensions of the keys but the last *)
| ECast          (* the schema of the keys to translate cannot be cast to that of the keys *)
| EDuplicates    (* a key is twice in the last dimension *)
| EKeySchema     (* no dict can have keys of this schema *)
| EKeyType.      (* no dict can have one of the keys *)
Inductive translate_result := TOk (items : list ditem) | TErr (e : translate_error).

Section Translate.
(** the equality of the hash maps of Unique, and which values are NaN *)
Variable same : value -> value -> bool.
Variable is_nan : value -> bool.
(** CastToNarrow(keys_to, schema of keys_from); whether a dict schema can have the schema of
    keys_from for its keys *)
Variable cast : list ditem -> option (list ditem).
Variable key_schema_ok : bool.

(** AllocateDicts: new dicts without a parent *)
Definition new_dicts (n : nat) : list dict := repeat (mkDict 0 [] None) n.
(** dict->Set for one row of the batch; data_bag.cc:2452-2524 DataBagImpl::SetInDict has three
    loops over the rows of a batch that differ in how they read keys and values *)
Definition set_one (ds : list dict) (x : nat * (ditem * ditem)) : list dict :=
  match nth_error ds (fst x) with
  | Some d => SliceModel.upd (fst x) (d_set d (fst (snd x)) (snd (snd x))) ds
  | None => ds
  end.
Definition set_in_dicts (ids : list nat) (keys values : list ditem) (ds : list dict) : list dict :=
  fold_left set_one (combine ids (combine keys values)) ds.
(** DataBagImpl::GetFromDict for one row, without fallbacks *)
Definition get_one (ds : list dict) (id : nat) (key : ditem) : ditem :=
  match key, nth_error ds id with
  | Some k, Some d => match DictModel.d_get d k with Some v => v | None => None end
  | _, _ => None
  end.

(** slices.cc:1031-1076, with object_factories.cc:438-490 CreateDictImpl, data_slice.cc:2049-2093
    SetInDict and 2002-2047 GetFromDict; the checks are in the order of the code. Without sorting Unique has no errors for slices, so
    the last branch is not reached. The results have the bag of the values. *)
Definition translate (to_shape : shape) (keys_to : list ditem) (keys_from : key_slice value)
  (values_shape : shape) (values_from : list ditem) : translate_result :=
  let from_shape := k_shape keys_from in
  if negb (broadcastable values_shape from_shape) then TErr EValues
  else
    let values := broadcast values_from values_shape from_shape in
    match rev from_shape with
    | [] => TErr EItem
    | e :: parents =>
        let outer := rev parents in
        if negb (broadcastable outer to_shape) then TErr EKeysTo
        else match cast keys_to with
             | None => TErr ECast
             | Some keys_to =>
                 match unique value same (fun _ _ => false) is_nan false keys_from with
                 | UOk _ _ u =>
                     if negb (length (filter isSome (k_items keys_from)) =? length u) then TErr EDuplicates
                     else if negb key_schema_ok then TErr EKeySchema
                     else if existsb (fun k => isSome k && unsupported_key k) (k_items keys_from) then TErr EKeyType
                     else
                       let n := length e in
                       let ids := seq 0 n in
                       let ds := set_in_dicts (broadcast ids outer from_shape) (k_items keys_from) values (new_dicts n) in
                       TOk (map (fun x => get_one ds (fst x) (snd x)) (combine (broadcast ids outer to_shape) keys_to))
                 | _ => TErr EItem
                 end
             end
    end.
End Translate.
