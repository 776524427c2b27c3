(** Values: koladata/internal/data_item.h, types.h. *)
From Coq Require Import NArith ZArith List Bool.
From Verif Require Import ObjectIdModel SchemaModel.
Import ListNotations.

(** types.h supported types of the values of a DataItem (data_item.h:60-75) *)
Inductive kind :=
  | KObjectId | KInt32 | KInt64 | KFloat32 | KFloat64 | KBool | KUnit | KText | KBytes
  | KExprQuote | KDType.
Definition kind_eq_dec (a b : kind) : {a = b} + {a <> b}.
Proof. decide equality. Defined.

(** The C++ type of each kind. Floats are their bit patterns, text and bytes are
    lists of bytes, an expression is its fingerprint. *)
Definition cval (k : kind) : Type :=
  match k with
  | KObjectId => ObjectId
  | KInt32 | KInt64 => Z
  | KFloat32 | KFloat64 => N
  | KBool => bool
  | KUnit => unit
  | KText | KBytes => list N
  | KExprQuote => N
  | KDType => dtype
  end.

(** A present DataItem, a DataItem (None: MissingValue) *)
Definition value : Type := {k : kind & cval k}.
Notation ditem := (option value) (only parsing).
Definition val (k : kind) (v : cval k) : value := existT cval k v.
(** DataItem(std::optional<T>) *)
Definition item_of_opt (k : kind) (v : option (cval k)) : ditem := option_map (val k) v.
