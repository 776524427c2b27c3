(** Vocabulary for C08, C09: the promotion order of schemas, written out. *)
From Coq Require Import NArith List.
From Verif Require Import ObjectIdModel SchemaModel.
Import ListNotations.
Open Scope nat_scope.

(** INT32 < INT64 < FLOAT32 < FLOAT64 *)
Definition numeric (d : dtype) : option nat :=
  match d with Int32 => Some 0 | Int64 => Some 1 | Float32 => Some 2 | Float64 => Some 3 | _ => None end.

(** [promotes a b]: values of schema [a] may be used where [b] is expected.
    NONE goes everywhere; numbers go to wider numbers; primitives go to OBJECT;
    ITEMID and SCHEMA go nowhere. *)
Definition promotes (a b : dtype) : Prop :=
  a = b \/ a = NoneT \/
  (b = ObjectT /\ a <> ItemIdT /\ a <> SchemaT) \/
  (exists x y, numeric a = Some x /\ numeric b = Some y /\ x < y).

(** With the schemas of entities, lists, dicts: only NONE goes to them. *)
Definition schema_le (a b : schema) : Prop :=
  match a, b with
  | SD x, SD y => promotes x y
  | SD x, SO _ => x = NoneT
  | SO x, SO y => x = y
  | SO _, SD _ => False
  end.

Definition upper_bound (l : list schema) (u : schema) : Prop := forall s, In s l -> schema_le s u.
Definition least_upper_bound (l : list schema) (u : schema) : Prop :=
  upper_bound l u /\ forall u', upper_bound l u' -> schema_le u u'.

(** The schemas among the items; an item that is neither missing nor a schema. *)
Definition schemas (l : list item) : list schema :=
  flat_map (fun x => match x with IDType d => [SD d] | IObj o => [SO o] | _ => [] end) l.
Definition not_a_schema (x : item) : Prop :=
  match x with IOther => True | IObj o => is_schema o = false | _ => False end.
Definition fails (r : outcome) : Prop := exists e, r = Err e.

(** Object ids are 128-bit numbers; a schema is a dtype or the id of a schema. *)
Definition item_wf (x : item) : Prop := match x with IObj o => wf o | _ => True end.

Definition schema_wf (s : schema) : Prop := match s with SD _ => True | SO o => wf o /\ is_schema o = true end.

(** Two results are the same up to the text of an error. *)
Definition same_outcome (a b : outcome) : Prop :=
  match a, b with Ok x, Ok y => x = y | Err _, Err _ => True | _, _ => False end.
