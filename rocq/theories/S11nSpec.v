(** What a serialized slice means: koladata/s11n/codec.proto. *)
From Coq Require Import NArith ZArith List Bool Arith.
From Verif Require Import ObjectIdModel SchemaModel ItemModel S11nModel.
Import ListNotations.
Local Open Scope nat_scope.

(** ** The slice that is written *)

(** What a slice holds at a position: nothing was ever set there (None), the
    value was removed or is missing (Some None), or a value *)
Notation slot := (option (option value)) (only parsing).
Definition value_in (a : {k : kind & list (option (cval k))}) (i : nat) : option value :=
  match a with
  | existT _ k vs => match nth_error vs i with Some (Some v) => Some (val k v) | _ => None end
  end.
(** The value of the array that has one; otherwise the types buffer, if there is
    one, tells the positions that were never set *)
Definition holds (s : dslice) (i : nat) (x : slot) : Prop :=
  (exists a v, In a (ds_values s) /\ value_in a i = Some v /\ x = Some (Some v)) \/
  ((forall a, In a (ds_values s) -> value_in a i = None) /\
   (nth_error (ds_types s) i = Some TUnset /\ x = None \/
    nth_error (ds_types s) i <> Some TUnset /\ x = Some None)).

(** Values of the C++ types: only ids have values in the model that are no
    128-bit ids *)
Definition valid_value (v : value) : Prop :=
  match v with existT _ KObjectId o => wf o | _ => True end.
(** The invariants of a DataSliceImpl: arrays of its size of distinct types, at most
    one of them with a value at a position; a types buffer is of its size *)
Record wf_slice (s : dslice) : Prop := {
  ws_types : ds_types s = [] \/ length (ds_types s) = ds_size s;
  ws_sizes : forall k vs, In (existT _ k vs) (ds_values s) -> length vs = ds_size s;
  ws_kinds : NoDup (map (@projT1 _ _) (ds_values s));
  ws_disjoint : forall a a' i v v', In a (ds_values s) -> In a' (ds_values s) ->
    value_in a i = Some v -> value_in a' i = Some v' -> projT1 a = projT1 a';
  ws_valid : forall a i v, In a (ds_values s) -> value_in a i = Some v -> valid_value v
}.

(** ** The format *)

(** The number of the field of a type *)
Definition field_number (k : kind) : N :=
  match k with
  | KObjectId => 1 | KInt32 => 2 | KInt64 => 3 | KFloat32 => 4 | KFloat64 => 5 | KBool => 6
  | KUnit => 7 | KText => 8 | KBytes => 9 | KDType => 10 | KExprQuote => 11
  end%N.
(** "Values are stored in the corresponding repeated fields without gaps": the
    values of a type among the slots of a slice *)
Definition of_kind (k : kind) (xs : list slot) : list value :=
  flat_map (fun x => match x with
                     | Some (Some v) => if kind_eq_dec (projT1 v) k then [v] else []
                     | _ => []
                     end) xs.
(** Ids are stored as differences (modulo 2^64) to the previous id *)
Fixpoint ids_from (hi lo : N) (ds : list (N * N)) : list value :=
  match ds with
  | [] => []
  | (dh, dl) :: r =>
      let hi' := ((hi + dh) mod 2 ^ 64)%N in
      let lo' := ((lo + dl) mod 2 ^ 64)%N in
      val KObjectId (unsafe_create hi' lo') :: ids_from hi' lo' r
  end.
(** [vs]: the values of the type [k] that the messages and the expressions given as
    input values hold *)
Definition stores (k : kind) (cs : list compact) (exprs : list N) (vs : list value) : Prop :=
  match k with
  | KObjectId =>
      (forall c, In c cs -> length (c_hi c) = length (c_lo c)) /\
      vs = ids_from 0 0 (combine (concat (map c_hi cs)) (concat (map c_lo cs)))
  | KInt32 => vs = map (val KInt32) (concat (map c_i32 cs))
  | KInt64 => vs = map (val KInt64) (concat (map c_i64 cs))
  | KFloat32 => vs = map (val KFloat32) (concat (map c_f32 cs))
  | KFloat64 => vs = map (val KFloat64) (concat (map c_f64 cs))
  | KBool => vs = map (val KBool) (concat (map c_bool cs))
  | KUnit => True
  | KText => vs = map (val KText) (concat (map c_text cs))
  | KBytes => vs = map (val KBytes) (concat (map c_bytes cs))
  | KDType =>
      exists ds, vs = map (val KDType) ds /\
        Forall2 (fun z d => (z mod 256)%Z = Z.of_N (type_id d)) (concat (map c_dtype cs)) ds
  | KExprQuote => vs = map (val KExprQuote) exprs
  end.
(** A byte of the types buffer, and the slot it announces *)
Definition announces (t : N) (x : slot) : Prop :=
  t = 255%N /\ x = None \/ t = 254%N /\ x = Some None \/
  exists v, t = field_number (projT1 v) /\ x = Some (Some v).
(** The message and its input values stand for the slots [xs] *)
Definition denotes (p : compact) (ins : list input) (xs : list slot) : Prop :=
  exists exprs parts,
    ins = map InExpr exprs ++ map InPart parts /\
    extra_part_count p = Z.of_nat (length parts) /\
    Forall2 announces (types_buffer p) xs /\
    (forall k, In (field_number k) (types_buffer p) -> stores k (p :: parts) exprs (of_kind k xs)) /\
    (forall k, ~ In (field_number k) (types_buffer p) -> stores k [p] exprs []).
(** The allocations of the ids among the slots, in their order *)
Definition allocations (xs : list slot) : list ObjectId :=
  flat_map (fun v => match v with existT _ KObjectId o => [allocation_of o] | _ => [] end)
    (of_kind KObjectId xs).
