(** Looking up all items with a key: kd.slices.translate_group in
    py/koladata/operators/slices.py, on top of group_by_indices (GroupModel) and translate
    (TranslateModel). *)
From Coq Require Import NArith ZArith List Bool Arith.
From Verif Require Import ObjectIdModel SchemaModel ItemModel DictModel SliceModel SliceOpsModel SliceOpsSpec SubsliceModel GroupModel TranslateModel.
Import ListNotations.
Local Open Scope nat_scope.

Inductive group_result_ :=
| TGOk (lists : list (list ditem))   (* for each key a list: the last dimension of the result *)
| TGShapes                           (* keys and values do not have the same shape *)
| TGItem                             (* the keys are an item *)
| TGErr (e : translate_error).

Section TranslateGroup.
Variable same : value -> value -> bool.
Variable is_nan : value -> bool.
Variable cast : list ditem -> option (list ditem).
Variable key_schema_ok : bool.

(** slices.cc:1013-1029 Take, for indices that are not negative and that have the dimensions of
    x but the last (the general case is in SubsliceModel) *)
Definition pick (row : list ditem) (i : option nat) : ditem :=
  match i with
  | Some i => match nth_error row i with Some x => x | None => None end
  | None => None
  end.
Definition take_items (e : edge) (items : list ditem) (outer indices_shape : shape) (indices : list (option nat)) : list ditem :=
  map (fun x => pick (fst x) (snd x)) (combine (broadcast (chunks e items) outer indices_shape) indices).

(** slices.py:306-330 collapse over the last dimension: the present item of a row, if there is
    one and all are the same *)
Definition collapse_row (row : list ditem) : ditem :=
  match filter isSome row with
  | Some v :: rest => if forallb (fun w => match w with Some w => same v w | None => true end) rest then Some v else None
  | _ => None
  end.
(** slices.py:930-979 index over the last dimension: INT64 *)
Definition int64 (i : nat) : value := existT cval KInt64 (Z.of_nat i).
Definition index_row (row : list ditem) : list ditem :=
  map2 (fun i x => match x with Some _ => Some (int64 i) | None => None end) (seq 0 (length row)) row.
(** subslice(grouped, ..., indices, slice(None)): the row that an index selects, none without an
    index (the general case is in SubsliceModel) *)
Definition select_row (rows : list (list ditem)) (i : ditem) : list ditem :=
  match i with
  | Some (existT _ KInt64 z) => match nth_error rows (Z.to_nat z) with Some r => r | None => [] end
  | _ => []
  end.

(** slices.py:1794-1856 *)
Definition translate_group (to_shape : shape) (keys_to : list ditem) (keys_from : key_slice value)
  (values_shape : shape) (values_from : list ditem) : group_result_ :=
  if negb (shape_eqb (k_shape keys_from) values_shape) then TGShapes
  else
    match rev (k_shape keys_from) with
    | [] => TGItem
    | e :: _ =>
        match group_by_indices value same (fun _ _ => false) false [keys_from] with
        | GErr _ => TGItem
        | GOk (outer, groups, items, indices) =>
            let ge := edge_of groups in
            let ie := edge_of items in
            let unique_shape := outer ++ [ge] in
            let unique_keys := map collapse_row (chunks ie (take_items e (k_items keys_from) outer (unique_shape ++ [ie]) indices)) in
            let grouped_values := chunks ie (take_items e values_from outer (unique_shape ++ [ie]) indices) in
            match translate same is_nan cast key_schema_ok to_shape keys_to (mkKey unique_shape (k_dtype keys_from) unique_keys)
                    unique_shape (concat (map index_row (chunks ge unique_keys))) with
            | TErr er => TGErr er
            | TOk found =>
                TGOk (map (fun x => select_row (fst x) (snd x)) (combine (broadcast (chunks ge grouped_values) outer to_shape) found))
            end
        end
    end.
End TranslateGroup.
