(** Serialization of items and slices: koladata/s11n/encoder.cc, decoder.cc,
    codec.proto. The messages are records of their fields; the wire format of
    protocol buffers and the numbering of the input values
    (arolla::serialization_base) are not modelled: the input values of a message
    are given directly, in their order. *)
From Coq Require Import NArith ZArith List Bool Arith.
From Verif Require Import ObjectIdModel SchemaModel ItemModel.
Import ListNotations.
Local Open Scope nat_scope.

(** types.h:42-59, 83-94 ScalarTypeId *)
Definition scalar_type_id (k : kind) : N :=
  match k with
  | KObjectId => 1 | KInt32 => 2 | KInt64 => 3 | KFloat32 => 4 | KFloat64 => 5 | KBool => 6
  | KUnit => 7 | KText => 8 | KBytes => 9 | KDType => 10 | KExprQuote => 11
  end%N.
(** types.h:37-39 supported_types_list *)
Definition all_kinds : list kind :=
  [KObjectId; KInt32; KInt64; KFloat32; KFloat64; KBool; KUnit; KText; KBytes; KExprQuote; KDType].
Definition kind_of_id (n : N) : option kind :=
  find (fun k => scalar_type_id k =? n)%N all_kinds.

(** types_buffer.h:37-38 *)
Definition kUnset : N := 255.
Definition kRemoved : N := 254.
(** types_buffer.h:37-45: kUnset, kRemoved or the index of a type *)
Inductive tidx := TUnset | TRemoved | TIdx (n : nat).

(** A DataSliceImpl (data_slice.h:60-260): the types buffer (id_to_typeidx), empty
    or of the size of the slice, and an array for each type *)
Record dslice := mkDslice {
  ds_size : nat;
  ds_types : list tidx;
  ds_values : list {k : kind & list (option (cval k))}
}.

(** ** codec.proto *)

(** 79-110 DataSliceCompactProto. Integers, floats (their bits), and so on are
    the values of the fields. *)
Record compact := mkCompact {
  types_buffer : list N;
  extra_part_count : Z;
  c_hi : list N; c_lo : list N;
  c_i32 : list Z; c_i64 : list Z;
  c_f32 : list N; c_f64 : list N;
  c_bool : list bool;
  c_text : list (list N); c_bytes : list (list N);
  c_dtype : list Z
}.
Definition empty_compact : compact := mkCompact [] 0 [] [] [] [] [] [] [] [] [] [].
(** 40-55 DataItemProto *)
Inductive item_proto :=
  | PMissing | PObjectId (hi lo : N) | PI32 (z : Z) | PI64 (z : Z) | PF32 (x : N) | PF64 (x : N)
  | PBoolean (b : bool) | PUnit | PText (s : list N) | PBytes (s : list N) | PDtype (z : Z)
  | PExprQuote | PNotSet.
(** The input values: an ExprQuote, bytes that are a serialized
    DataSliceCompactProto (represented by the message), or something else. *)
Inductive input := InExpr (e : N) | InPart (p : compact) | InOther.

(** An error status, or a read outside of an array *)
Inductive result (A : Type) := Ok (a : A) | Err | Crash.
Arguments Ok {A}. Arguments Err {A}. Arguments Crash {A}.
Definition rbind {A B} (x : result A) (f : A -> result B) : result B :=
  match x with Ok a => f a | Err => Err | Crash => Crash end.

(** uint64_t arithmetic *)
Definition sub64 (a b : N) : N := ((a + 2 ^ 64 - b) mod 2 ^ 64)%N.
Definition add64 (a b : N) : N := ((a + b) mod 2 ^ 64)%N.

(** dtype.h:160-170 DType::FromId; the argument is converted to int8_t
    (dtype.h:73) *)
Definition to_int8 (z : Z) : Z := ((z + 128) mod 256 - 128)%Z.
Definition dtype_from_id (z : Z) : option dtype :=
  let i := to_int8 z in
  if (i =? 9)%Z then None
  else if ((i <? 0) || (14 <=? i))%Z then None
  else SchemaModel.of_id (Z.to_N i).

(** ** Items *)

(** encoder.cc:418-456 FillItemProto: the message and the added input values *)
Definition encode_item (x : option value) : item_proto * list input :=
  match x with
  | None => (PMissing, [])
  | Some (existT _ k v) =>
      (match k return cval k -> item_proto * list input with
       | KObjectId => fun v => (PObjectId (internal_high64 v) (internal_low64 v), [])
       | KInt32 => fun v => (PI32 v, [])
       | KInt64 => fun v => (PI64 v, [])
       | KFloat32 => fun v => (PF32 v, [])
       | KFloat64 => fun v => (PF64 v, [])
       | KBool => fun v => (PBoolean v, [])
       | KUnit => fun _ => (PUnit, [])
       | KText => fun v => (PText v, [])
       | KBytes => fun v => (PBytes v, [])
       | KDType => fun v => (PDtype (Z.of_N (type_id v)), [])
       | KExprQuote => fun v => (PExprQuote, [InExpr v])
       end) v
  end.
(** decoder.cc:138-183 DecodeDataItemProto: the item and the input values that
    are left *)
Definition decode_item_proto (p : item_proto) (ins : list input)
  : result (option value * list input) :=
  match p with
  | PBoolean b => Ok (Some (val KBool b), ins)
  | PBytes s => Ok (Some (val KBytes s), ins)
  | PDtype z => match dtype_from_id z with Some d => Ok (Some (val KDType d), ins) | None => Err end
  | PExprQuote =>
      match ins with
      | [] => Err
      | InExpr e :: r => Ok (Some (val KExprQuote e), r)
      | _ :: _ => Err
      end
  | PF32 x => Ok (Some (val KFloat32 x), ins)
  | PF64 x => Ok (Some (val KFloat64 x), ins)
  | PI32 z => Ok (Some (val KInt32 z), ins)
  | PI64 z => Ok (Some (val KInt64 z), ins)
  | PMissing => Ok (None, ins)
  | PObjectId hi lo => Ok (Some (val KObjectId (unsafe_create hi lo)), ins)
  | PText s => Ok (Some (val KText s), ins)
  | PUnit => Ok (Some (val KUnit tt), ins)
  | PNotSet => Err
  end.
(** decoder.cc:185-194 DecodeDataItemValue *)
Definition decode_item (p : item_proto) (ins : list input) : result (option value) :=
  rbind (decode_item_proto p ins) (fun '(x, r) => match r with [] => Ok x | _ :: _ => Err end).

(** ** Slices: encoding *)

(** The values of the field of a type, decoder.cc:211-267
    GetValuesFromDataSliceCompactProto: none for units and expressions *)
Definition raw (k : kind) : Type :=
  match k with
  | KObjectId => (N * N)%type
  | KInt32 | KInt64 | KDType => Z
  | KFloat32 | KFloat64 => N
  | KBool => bool
  | KText | KBytes => list N
  | KUnit | KExprQuote => Empty_set
  end.

(** What the loop over the values changes: the types buffer of the message, the
    message itself, the extra message, whether current_proto is the extra one, the
    input values, the extra parts, size_estimation, last_object_id *)
Record enc := mkEnc {
  e_types : list N;
  e_main : compact;
  e_extra : compact;
  e_in_extra : bool;
  e_inputs : list input;
  e_parts : list compact;
  e_size : N;
  e_last : ObjectId
}.

(** encoder.cc:470-543 AddSliceElementToProto: the message, the added inputs, the
    added size, last_object_id *)
Definition add_element (k : kind) (v : cval k) (c : compact) (last : ObjectId)
  : compact * list input * N * ObjectId :=
  let '(mkCompact tb n hi lo i32 i64 f32 f64 bl tx by_ dt) := c in
  match k return cval k -> compact * list input * N * ObjectId with
  | KObjectId => fun v =>
      (mkCompact tb n (hi ++ [sub64 (internal_high64 v) (internal_high64 last)])
         (lo ++ [sub64 (internal_low64 v) (internal_low64 last)]) i32 i64 f32 f64 bl tx by_ dt,
       [], 16%N, v)
  | KInt32 => fun v => (mkCompact tb n hi lo (i32 ++ [v]) i64 f32 f64 bl tx by_ dt, [], 4%N, last)
  | KInt64 => fun v => (mkCompact tb n hi lo i32 (i64 ++ [v]) f32 f64 bl tx by_ dt, [], 8%N, last)
  | KFloat32 => fun v => (mkCompact tb n hi lo i32 i64 (f32 ++ [v]) f64 bl tx by_ dt, [], 4%N, last)
  | KFloat64 => fun v => (mkCompact tb n hi lo i32 i64 f32 (f64 ++ [v]) bl tx by_ dt, [], 8%N, last)
  | KBool => fun v => (mkCompact tb n hi lo i32 i64 f32 f64 (bl ++ [v]) tx by_ dt, [], 1%N, last)
  | KUnit => fun _ => (c, [], 0%N, last)
  | KText => fun v =>
      (mkCompact tb n hi lo i32 i64 f32 f64 bl (tx ++ [v]) by_ dt, [],
       (N.of_nat (length v) + 1)%N, last)
  | KBytes => fun v =>
      (mkCompact tb n hi lo i32 i64 f32 f64 bl tx (by_ ++ [v]) dt, [],
       (N.of_nat (length v) + 1)%N, last)
  | KDType => fun v =>
      (mkCompact tb n hi lo i32 i64 f32 f64 bl tx by_ (dt ++ [Z.of_N (type_id v)]), [], 1%N, last)
  | KExprQuote => fun v => (c, [InExpr v], 0%N, last)
  end v.

Fixpoint set_nth {A} (i : nat) (x : A) (l : list A) : list A :=
  match i, l with
  | _, [] => []
  | O, _ :: r => x :: r
  | S i, y :: r => y :: set_nth i x r
  end.

(** 575-587 finalize_current_block *)
Definition finalize_block (e : enc) : enc :=
  if e_in_extra e
  then mkEnc (e_types e) (e_main e) empty_compact true (e_inputs e) (e_parts e ++ [e_extra e]) 0 (e_last e)
  else mkEnc (e_types e) (e_main e) (e_extra e) true (e_inputs e) (e_parts e) 0 (e_last e).
(** 593-603: one present value; [limit]: kSoftSizeLimitPerBlock (line 573), 2^23 in
    the code *)
Definition add_value (limit : N) (k : kind) (i : nat) (v : cval k) (e : enc) : enc :=
  let types := set_nth i (scalar_type_id k) (e_types e) in
  let '(c, ins, n, last) := add_element k v (if e_in_extra e then e_extra e else e_main e) (e_last e) in
  let e :=
    mkEnc types (if e_in_extra e then e_main e else c) (if e_in_extra e then c else e_extra e)
      (e_in_extra e) (e_inputs e ++ ins) (e_parts e) (e_size e + n) last in
  if (limit <? e_size e)%N then finalize_block e else e.
(** ForEachPresent from the index [i] on *)
Fixpoint add_array (limit : N) (k : kind) (i : nat) (vs : list (option (cval k))) (e : enc) : enc :=
  match vs with
  | [] => e
  | None :: r => add_array limit k (S i) r e
  | Some v :: r => add_array limit k (S i) r (add_value limit k i v e)
  end.
(** 556-566: the types buffer before the loop *)
Definition initial_types (s : dslice) : list N :=
  match ds_types s with
  | [] => repeat kRemoved (ds_size s)
  | ts => map (fun t => match t with TUnset => kUnset | TRemoved | TIdx _ => kRemoved end) ts
  end.
(** 545-616 EncodeDataSliceImpl: the message and its input values *)
Definition encode_slice (limit : N) (s : dslice) : compact * list input :=
  let e := fold_left (fun e '(existT _ k vs) => add_array limit k 0 vs e) (ds_values s)
             (mkEnc (initial_types s) empty_compact empty_compact false [] [] 0 (unsafe_create 0 0)) in
  let e := if e_in_extra e && (0 <? e_size e)%N then finalize_block e else e in
  let c := e_main e in
  (mkCompact (e_types e) (Z.of_nat (length (e_parts e)))
     (c_hi c) (c_lo c) (c_i32 c) (c_i64 c) (c_f32 c) (c_f64 c) (c_bool c) (c_text c) (c_bytes c) (c_dtype c),
   e_inputs e ++ map InPart (e_parts e)).

(** ** Slices: decoding *)

Definition values_of (k : kind) (c : compact) : list (raw k) :=
  match k with
  | KObjectId => combine (c_hi c) (c_lo c)
  | KInt32 => c_i32 c
  | KInt64 => c_i64 c
  | KFloat32 => c_f32 c
  | KFloat64 => c_f64 c
  | KBool => c_bool c
  | KUnit => []
  | KText => c_text c
  | KBytes => c_bytes c
  | KDType => c_dtype c
  | KExprQuote => []
  end.
(** decoder.cc:296-314 get_values_size *)
Definition values_size (k : kind) (c : compact) : result nat :=
  match k with
  | KObjectId => if length (c_hi c) =? length (c_lo c) then Ok (length (c_hi c)) else Err
  | KUnit | KExprQuote => Ok 0
  | _ => Ok (length (values_of k c))
  end.
(** 375-394: the value that is inserted, and last_object_id *)
Definition of_raw (k : kind) (r : raw k) (last : ObjectId) : result (cval k * ObjectId) :=
  match k return raw k -> result (cval k * ObjectId) with
  | KObjectId => fun '(hi, lo) =>
      let o := unsafe_create (add64 hi (internal_high64 last)) (add64 lo (internal_low64 last)) in
      Ok (o, o)
  | KInt32 | KInt64 | KFloat32 | KFloat64 | KBool | KText | KBytes => fun x => Ok (x, last)
  | KDType => fun z => match dtype_from_id z with Some d => Ok (d, last) | None => Err end
  | KUnit | KExprQuote => fun x => match x with end
  end r.

(** A SliceBuilder (slice_builder.h): at each position unset (None), removed or a
    value; and the ids that were inserted into its AllocationIdSet *)
Record builder := mkBuilder { b_items : list (option (option value)); b_ids : list ObjectId }.
(** slice_builder.h:392-421 InsertIfNotSet *)
Definition insert (i : nat) (x : option value) (b : builder) : builder :=
  match nth_error (b_items b) i with
  | Some None => mkBuilder (set_nth i (Some x) (b_items b)) (b_ids b)
  | _ => b
  end.

(** What process_type changes: the builder, last_object_id, input_values,
    next_start_id, last_id, part_offset, part_size, values, and the extra parts from
    part_it on *)
Record pt := mkPt {
  p_builder : builder;
  p_last : ObjectId;
  p_inputs : list input;
  p_next : nat;
  p_last_id : nat;
  p_offset : nat;
  p_size : nat;
  p_values : compact;
  p_parts : list compact
}.
(** 292-294 is_valid_present_type_idx *)
Definition valid_idx (t : N) : bool := ((0 <? t) && (t <? 12))%N.

(** 330-341 next_part, as long as [go_on] and there are parts; in the loop 372-374
    it is an error if there are none *)
Fixpoint next_parts (k : kind) (go_on : nat -> nat -> bool) (parts : list compact)
    (offset size : nat) (values : compact) : result (nat * nat * compact * list compact) :=
  if go_on offset size then
    match parts with
    | [] => Err
    | c :: r => rbind (values_size k c) (fun n => next_parts k go_on r (offset + size) n c)
    end
  else Ok (offset, size, values, parts).
(** 398-400: the parts that are left *)
Fixpoint remaining_parts (k : kind) (parts : list compact) (offset size : nat) : result (nat * nat) :=
  match parts with
  | [] => Ok (offset, size)
  | c :: r => rbind (values_size k c) (fun n => remaining_parts k r (offset + size) n)
  end.

(** 358-396: a position of the type [k] *)
Definition take_value (k : kind) (cur : nat) (st : pt) : result pt :=
  match k with
  | KUnit =>
      Ok (mkPt (insert cur (Some (val KUnit tt)) (p_builder st)) (p_last st) (p_inputs st) (p_next st)
            (p_last_id st) (p_offset st) (p_size st) (p_values st) (p_parts st))
  | KExprQuote =>
      match p_inputs st with
      | [] => Err
      | InExpr e :: r =>
          Ok (mkPt (insert cur (Some (val KExprQuote e)) (p_builder st)) (p_last st) r (p_next st)
                (p_last_id st) (p_offset st) (p_size st) (p_values st) (p_parts st))
      | _ :: _ => Err
      end
  | _ =>
      rbind (next_parts k (fun offset size => offset + size <=? p_last_id st) (p_parts st)
               (p_offset st) (p_size st) (p_values st)) (fun '(offset, size, values, parts) =>
      match nth_error (values_of k values) (p_last_id st - offset) with
      | None => Crash
      | Some r =>
          rbind (of_raw k r (p_last st)) (fun '(v, last) =>
          let b := insert cur (Some (val k v)) (p_builder st) in
          let b := match k return cval k -> builder with
                   | KObjectId => fun o => mkBuilder (b_items b) (b_ids b ++ [allocation_of o])
                   | _ => fun _ => b
                   end v in
          Ok (mkPt b last (p_inputs st) (p_next st) (S (p_last_id st)) offset size values parts))
      end)
  end.
(** 342-397: the loop from the position [cur] on; [types]: the rest of the types
    buffer *)
Fixpoint process_loop (k : kind) (types : list N) (cur : nat) (st : pt) : result pt :=
  match types with
  | [] => Ok st
  | t :: r =>
      if (t =? kUnset)%N then process_loop k r (S cur) st
      else if (t =? kRemoved)%N then
        process_loop k r (S cur)
          (mkPt (insert cur None (p_builder st)) (p_last st) (p_inputs st) (p_next st)
             (p_last_id st) (p_offset st) (p_size st) (p_values st) (p_parts st))
      else if negb (valid_idx t) then Err
      else if negb (t =? scalar_type_id k)%N then
        process_loop k r (S cur)
          (mkPt (p_builder st) (p_last st) (p_inputs st) (Nat.min (p_next st) cur)
             (p_last_id st) (p_offset st) (p_size st) (p_values st) (p_parts st))
      else rbind (take_value k cur st) (process_loop k r (S cur))
  end.
(** 319-408 process_type: the builder, last_object_id, the input values and
    next_start_id *)
Definition process_type (p : compact) (parts : list compact) (k : kind) (start : nat)
    (b : builder) (last : ObjectId) (ins : list input)
  : result (builder * ObjectId * list input * nat) :=
  rbind (values_size k p) (fun n =>
  rbind (process_loop k (skipn start (types_buffer p)) start
           (mkPt b last ins (length (types_buffer p)) 0 0 n p parts)) (fun st =>
  rbind (remaining_parts k (p_parts st) (p_offset st) (p_size st)) (fun '(offset, size) =>
  if negb (p_last_id st =? offset + size)
     || (match k with KExprQuote => match p_inputs st with [] => false | _ :: _ => true end | _ => false end)
  then Err
  else Ok (p_builder st, p_last st, p_inputs st, p_next st)))).

(** 410-446: the loop from [i] on; [seen]: processed_types. [fuel] only makes the
    recursion structural: i grows *)
Fixpoint decode_loop (p : compact) (parts : list compact) (fuel i : nat) (seen : list kind)
    (b : builder) (last : ObjectId) (ins : list input)
  : result (list kind * builder * list input) :=
  match fuel with
  | O => Crash
  | S fuel =>
      match nth_error (types_buffer p) i with
      | None => Ok (seen, b, ins)
      | Some t =>
          if (t =? kUnset)%N then decode_loop p parts fuel (S i) seen b last ins
          else if (t =? kRemoved)%N then decode_loop p parts fuel (S i) seen (insert i None b) last ins
          else if negb (valid_idx t) then Err
          else
            match kind_of_id t with
            | None => decode_loop p parts fuel (S i) seen b last ins
            | Some k =>
                if existsb (fun k' => scalar_type_id k' =? t)%N seen
                then decode_loop p parts fuel (S i) seen b last ins
                else rbind (process_type p parts k i b last ins) (fun '(b, last, ins, next) =>
                       decode_loop p parts fuel next (k :: seen) b last ins)
            end
      end
  end.
(** 447-475: types that did not occur have no values; the last error is returned,
    whichever it is *)
Definition unused_values (p : compact) (ins : list input) (seen : list kind) : bool :=
  existsb (fun k =>
    if existsb (fun k' => scalar_type_id k' =? scalar_type_id k)%N seen then false
    else match values_size k p with
         | Ok n =>
             match k with
             | KExprQuote => match ins with [] => false | _ :: _ => true end
             | _ => negb (n =? 0)
             end
         | _ => true
         end) all_kinds.
(** 269-287: the extra parts are the last input values. A negative count is a huge
    size_t. ParseFromString of bytes that are not a message is not modelled. *)
Definition split_inputs (p : compact) (ins : list input) : result (list input * list compact) :=
  if ((extra_part_count p <? 0) || (Z.of_nat (length ins) <? extra_part_count p))%Z then Err
  else
    let n := length ins - Z.to_nat (extra_part_count p) in
    (fix go (l : list input) : result (list input * list compact) :=
       match l with
       | [] => Ok (firstn n ins, [])
       | InPart c :: r => rbind (go r) (fun '(ins, parts) => Ok (ins, c :: parts))
       | _ :: _ => Err
       end) (skipn n ins).
(** 269-481 DecodeDataSliceCompactProto *)
Definition decode_slice (p : compact) (ins : list input) : result builder :=
  rbind (split_inputs p ins) (fun '(ins, parts) =>
  rbind (decode_loop p parts (S (length (types_buffer p))) 0 []
           (mkBuilder (repeat None (length (types_buffer p))) []) (unsafe_create 0 0) ins)
    (fun '(seen, b, ins) =>
  if unused_values p ins seen then Err
  else match ins with [] => Ok b | _ :: _ => Err end)).

(** 196-209 DecodeDataItemVectorProto: the older format *)
Fixpoint decode_vector_from (i : nat) (ps : list item_proto) (ins : list input) (b : builder)
  : result (builder * list input) :=
  match ps with
  | [] => Ok (b, ins)
  | p :: r =>
      rbind (decode_item_proto p ins) (fun '(x, ins) =>
      let b' := insert i x b in
      let b' := match nth_error (b_items b) i, x with
                | Some None, Some (existT _ KObjectId o) =>
                    mkBuilder (b_items b') (b_ids b' ++ [allocation_of o])
                | _, _ => b'
                end in
      decode_vector_from (S i) r ins b')
  end.
Definition decode_vector (ps : list item_proto) (ins : list input) : result builder :=
  rbind (decode_vector_from 0 ps ins (mkBuilder (repeat None (length ps)) [])) (fun '(b, r) =>
  match r with [] => Ok b | _ :: _ => Err end).
