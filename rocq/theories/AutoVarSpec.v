(** What the statements about automatic variables are phrased with. *)
From Coq Require Import String List Bool Arith.
From Verif Require Import SignatureModel SignatureSpec FunctorModel FunctorSpec AutoVarModel.
Import ListNotations.
Local Open Scope string_scope.
Local Open Scope nat_scope.
Local Open Scope list_scope.

Section Spec.
Variables (V op : Type).
Local Notation expr := (expr V op).
Local Notation functor := (functor V op).
Variable kind : op -> op_kind.
Variables is_slice is_unspecified : V -> bool.
Variable text_of : V -> string.
Variable rank : V -> nat.
Variable num : nat -> V.
Variable implode : V -> V.
Variable op_explode : op.
Variable stored : V -> item V op.
Variables (bag : Type) (eval_op : op -> list (option V) -> option V) (with_bag : bag -> V -> V).

(** d is e or a part of it *)
Inductive part (d : expr) : expr -> Prop :=
| PartHere : part d d
| PartBelow o args a : In a args -> part d a -> part d (Call o args).
(** d is a part of an expression of the functor *)
Definition part_of (d : expr) (f : functor) : Prop := exists x e, lookup x f = Some (Quote e) /\ part d e.

(** A functor that can be created: no cycles, no undefined variables and nothing strange in
    what "returns" depends on *)
Definition valid (f : functor) : Prop :=
  has_attr "returns" f /\ acyclic f /\ plain f /\ defined f
  /\ exists v ps, lookup "__signature__" f = Some (SignatureObject v ps) /\ valid_parameters ps /\ ~ In "__bag" (map p_name ps).

(** All variables that are mentioned are there, also those that are not used *)
Definition closed (f : functor) : Prop :=
  forall y, part_of (Input "V" y) f -> y <> "__signature__" /\ lookup y f <> None.

(** The annotations of source locations have literals as arguments *)
Definition located (f : functor) : Prop :=
  forall o x l, kind o = KLocation -> part_of (Call o (x :: l)) f -> forall y, In y l -> exists v, y = Lit v.

(** The annotations of names have a literal as their second argument; no name is
    "__signature__" or begins with "_aux" *)
Definition named_well (f : functor) : Prop :=
  forall o args, kind o = KName -> part_of (Call o args) f ->
  exists x v, args = [x; Lit v] /\ text_of v <> "__signature__" /\ String.prefix "_aux" (text_of v) = false.

(** kd.slice, kd.item and annotations return their first argument *)
Definition transparent : Prop :=
  (forall o x u, kind o = KSlice -> is_unspecified u = true -> eval_op o [x; Some u] = x)
  /\ (forall o x l, kind o = KLocation \/ kind o = KName -> eval_op o (x :: l) = x).

(** The value of an attribute of a functor that lives in bag b *)
Definition value_of (b : bag) (i : item V op) : option V :=
  match i with
  | Quote _ => None
  | Primitive v => Some v
  | Object v | Missing v | SignatureObject v _ => Some (with_bag b v)
  end.
(** A literal can be stored as an attribute and read again: items themselves, unless they are
    quoted expressions, and slices as lists *)
Definition storable (b : bag) (v : V) : Prop :=
  if rank v =? 0 then value_of b (stored v) = Some v
  else exists w, value_of b (stored (implode v)) = Some w /\ eval_op op_explode [Some w; Some (num (rank v))] = Some v.
Definition storable_literals (b : bag) (f : functor) : Prop :=
  forall v, is_slice v = true -> part_of (Lit v) f -> storable b v.


(** The text of an annotation of a name is not a DataSlice, and not wanted as a variable itself *)
Definition plain_names (extra : expr -> bool) (f : functor) : Prop :=
  forall o x v, kind o = KName -> part_of (Call o [x; Lit v]) f -> is_slice v = false /\ extra (Lit v) = false.
(** No annotation of a name and no literal but simple items in it *)
Definition tidy (is_simple : V -> bool) (e : expr) : Prop :=
  forall d, part d e ->
  match d with
  | Call o _ => kind o <> KName
  | Lit v => is_slice v = true -> is_simple v = true
  | _ => True
  end.
End Spec.
Arguments part {V op} d e.
Arguments part_of {V op} d f.
Arguments valid {V op} f.
Arguments closed {V op} f.
Arguments located {V op} kind f.
Arguments named_well {V op} kind text_of f.
Arguments transparent {V op} kind is_unspecified eval_op.
Arguments value_of {V op bag} with_bag b i.
Arguments storable {V op} rank num implode op_explode stored {bag} eval_op with_bag b v.
Arguments storable_literals {V op} is_slice rank num implode op_explode stored {bag} eval_op with_bag b f.
Arguments plain_names {V op} kind is_slice extra f.
Arguments tidy {V op} kind is_slice is_simple e.
