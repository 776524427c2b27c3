(** Model of schema promotion: koladata/internal/dtype.h,
    koladata/internal/schema_utils.{h,cc}. *)
From Coq Require Import NArith List Bool.
From Verif Require Import ObjectIdModel.
Import ListNotations.
Open Scope N_scope.

(** dtype.h:62-73 supported_dtype_values *)
Inductive dtype :=
  | Int64 | Int32 | Float32 | Float64 | Bool | Mask | Bytes | String | Expr
  | ItemIdT | ObjectT | SchemaT | NoneT.

(** dtype.h:79-113 GetDTypeId (9 is the removed ANY) *)
Definition type_id (d : dtype) : N :=
  match d with
  | Int64 => 0 | Int32 => 1 | Float32 => 2 | Float64 => 3 | Bool => 4 | Mask => 5
  | Bytes => 6 | String => 7 | Expr => 8 | ItemIdT => 10 | ObjectT => 11 | SchemaT => 12
  | NoneT => 13
  end.
Definition all_dtypes : list dtype :=
  [Int64; Int32; Float32; Float64; Bool; Mask; Bytes; String; Expr; ItemIdT; ObjectT; SchemaT; NoneT].
Definition of_id (i : N) : option dtype := find (fun d => type_id d =? i) all_dtypes.

(** dtype.h:138 kNextDTypeId; the loops for (i = 0; i < kNextDTypeId; ++i) *)
Definition kNextDTypeId : nat := 14.
Definition ids : list N := map N.of_nat (seq 0 kNextDTypeId).

(** std::array<bool, kNextDTypeId> and an array of them *)
Definition row := list bool.
Definition at_row (r : row) (j : N) : bool := nth (N.to_nat j) r false.
Definition at_mat (m : list row) (i j : N) : bool := at_row (nth (N.to_nat i) m []) j.
Definition set_row (m : list row) (i : N) (r : row) : list row :=
  map (fun k => if k =? i then r else nth (N.to_nat k) m []) ids.

(** schema_utils.h:49-74 GetDTypeLattice: directly adjacent greater dtypes *)
Definition adjacent (d : dtype) : list dtype :=
  match d with
  | NoneT => [ItemIdT; SchemaT; Int32; Mask; Bool; Bytes; String; Expr]
  | ItemIdT => []
  | SchemaT => []
  | Int32 => [Int64]
  | Int64 => [Float32]
  | Float32 => [Float64]
  | Float64 => [ObjectT]
  | Mask => [ObjectT]
  | Bool => [ObjectT]
  | Bytes => [ObjectT]
  | String => [ObjectT]
  | Expr => [ObjectT]
  | ObjectT => []
  end.
Definition fill_row (l : list dtype) : row := map (fun j => existsb (fun d => type_id d =? j) l) ids.
Definition lattice : list row :=
  map (fun i => fill_row (match of_id i with Some d => adjacent d | None => [] end)) ids.

(** schema_utils.h:76-97 GetReachableDTypes *)
Definition with_diagonal (m : list row) : list row :=
  map (fun i => map (fun j => (i =? j) || at_mat m i j) ids) ids.
Definition fw_step (m : list row) (ki : N * N) : list row :=
  let '(k, i) := ki in
  if at_mat m i k then set_row m i (map (fun j => at_mat m i j || at_mat m k j) ids) else m.
Definition reachable : list row := Eval vm_compute in
  fold_left fw_step (list_prod ids ids) (with_diagonal lattice).

(** schema_utils.h:127-150 get_common_dtype. LOG(FATAL) during constant
    evaluation, a failure to compile, is [Malformed]. *)
Inductive common := Unknown | Common (i : N) | Malformed.
Definition get_common_dtype (a b : N) : common :=
  let cub := map (fun i => at_mat reachable a i && at_mat reachable b i) ids in
  if negb (existsb (fun x => x) cub) then Unknown
  else match find (fun i => at_row cub i &&
                            forallb (fun j => eqb (at_row cub j) (at_mat reachable i j)) ids) ids with
       | Some i => Common i
       | None => Malformed
       end.

(** schema_utils.h:151-174 kMatrixImpl, CommonDType *)
Definition matrix : list (list common) := Eval vm_compute in
  map (fun i => map (fun j => get_common_dtype i j) ids) ids.
Definition common_dtype (a b : N) : common :=
  nth (N.to_nat b) (nth (N.to_nat a) matrix []) Malformed.

(** schema_utils.h:101-119 CommonDTypeAggregator: uint16_t seen_dtypes_ *)
Definition mask_add (seen : N) (d : dtype) : N := N.lor seen (N.shiftl 1 (type_id d) mod 2 ^ 16).

(** absl::countr_zero(uint16_t) *)
Definition ctz (m : N) : N :=
  match find (fun i => N.testbit m i) (map N.of_nat (seq 0 16)) with Some i => i | None => 16 end.

(** A schema: a DType or the ObjectId of a schema. A DataItem that is passed as
    one: a schema, another ObjectId, a missing value, or a value of any other
    type. *)
Inductive schema := SD (d : dtype) | SO (o : ObjectId).
Inductive item := IMissing | IDType (d : dtype) | IObj (o : ObjectId) | IOther.

Inductive error :=
  | ENotSchema
  | ENoCommon (common_ conflicting : option schema).

Definition unsafe_from_id (i : N) : option schema := option_map SD (of_id i).

(** schema_utils.cc:47-73 CommonDTypeAggregator::Get: the id, nothing, or an
    error. The loop runs once for each bit of uint16_t at most. *)
Inductive got := GNone | GId (i : N) | GErr (e : error).
Fixpoint agg_loop (fuel : nat) (mask res : N) : got :=
  match fuel with
  | O => GId res
  | S fuel' =>
      let mask := N.land mask (mask - 1) in
      if mask =? 0 then GId res
      else
        let i := ctz mask in
        match common_dtype res i with
        | Common c => agg_loop fuel' mask c
        | _ => GErr (ENoCommon (unsafe_from_id res) (unsafe_from_id i))
        end
  end.
Definition agg_get (seen : N) : got :=
  if seen =? 0 then GNone else agg_loop 16 seen (ctz seen).

(** schema_utils.h:178-205 CommonSchemaAggregator *)
Record aggregator := mkAgg {
  seen_dtypes : N;
  res_object_id : option ObjectId;
  status : option error        (* None: OK *)
}.
Definition agg_init : aggregator := mkAgg 0 None None.

(** schema_utils.cc:75-106 Add *)
Definition agg_add_object (s : aggregator) (o : ObjectId) : aggregator :=
  if negb (is_schema o) then mkAgg (seen_dtypes s) (res_object_id s) (Some ENotSchema)
  else match res_object_id s with
       | None => mkAgg (seen_dtypes s) (Some o) (status s)
       | Some r =>
           if negb (oid_eqb r o)
           then mkAgg (seen_dtypes s) (res_object_id s) (Some (ENoCommon (Some (SO r)) (Some (SO o))))
           else s
       end.
Definition agg_add (s : aggregator) (x : item) : aggregator :=
  match x with
  | IDType d => mkAgg (mask_add (seen_dtypes s) d) (res_object_id s) (status s)
  | IObj o => agg_add_object s o
  | IMissing => s
  | IOther => mkAgg (seen_dtypes s) (res_object_id s) (Some ENotSchema)
  end.

(** schema_utils.cc:108-129 Get. [Ok None] is an empty DataItem. *)
Inductive outcome := Ok (s : option schema) | Err (e : error).
Definition agg_result (s : aggregator) : outcome :=
  let res_dtype := agg_get (seen_dtypes s) in
  let st := match res_dtype with GErr e => Some e | _ => status s end in
  match st with
  | Some e => Err e
  | None =>
      match res_dtype, res_object_id s with
      | GId i, None => Ok (unsafe_from_id i)
      | GNone, Some o => Ok (Some (SO o))
      | GId i, Some o =>
          if i =? type_id NoneT then Ok (Some (SO o))
          else Err (ENoCommon (unsafe_from_id i) (Some (SO o)))
      | _, None => Ok None
      | GErr e, Some _ => Err e
      end
  end.

(** schema_utils.h:205-240, schema_utils.cc:131-153 CommonSchema of one, two, or
    a slice of items. A slice adds its DTypes first and then its ObjectIds, and
    fails on the first other type; here the items are added in the given order. *)
Definition common_schema (l : list item) : outcome := agg_result (fold_left agg_add l agg_init).

Definition item_of (s : schema) : item := match s with SD d => IDType d | SO o => IObj o end.

(** schema_utils.cc:155-171 IsImplicitlyCastableTo, of schemas *)
Definition is_implicitly_castable (from to : schema) : bool :=
  match from, to with
  | SD a, SD b =>
      match common_dtype (type_id a) (type_id b) with Common i => i =? type_id b | _ => false end
  | SO a, SO b => oid_eqb a b
  | SD a, SO _ => type_id a =? type_id NoneT
  | SO _, SD _ => false
  end.

(** schema_utils.cc:254-299 GetDataSchema of primitives, DTypes and missing
    values: what kinds of value a slice contains, as DTypes *)
Definition data_schema (kinds : list dtype) : option schema :=
  match agg_result (fold_left agg_add (map IDType kinds) (agg_add agg_init (IDType NoneT))) with
  | Ok s => s
  | Err _ => None
  end.
