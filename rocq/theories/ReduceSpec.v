(** What reducing a stream has to give: the fold of a functor over the items. *)
From Coq Require Import List Bool Arith.
From Verif Require Import ReduceModel.
Import ListNotations.

Section Spec.
Variables (value type E : Type).
Variable type_of : value -> type.
Variable type_eqb : type -> type -> bool.
Variable functor : value -> value -> value + E.
Variable initial : value.

(** One value and one item: an error of the functor, or a value of another type, ends it *)
Definition combined (a item : value) : value + error E :=
  match functor a item with
  | inr e => inr (Given e)
  | inl v => if type_eqb (type_of v) (type_of initial) then inl v else inr WrongType
  end.
(** From the left, over a list *)
Fixpoint folded (a : value) (items : list value) : value + error E :=
  match items with
  | [] => inl a
  | x :: items => match combined a x with inl a => folded a items | inr e => inr e end
  end.
(** What comes out for these items, if the input is still open ([None]) or closed with a status: a value,
    an error, or it is not known yet *)
Definition due (items : list value) (closed : option (option E)) : option (value + error E) :=
  match folded initial items, closed with
  | inr e, _ => Some (inr e)
  | inl v, Some None => Some (inl v)
  | inl v, Some (Some e) => Some (inr (Given e))
  | inl v, None => None
  end.

(** What was written to the input up to now, and how it was closed *)
Definition put_in (x : list value * option (option E)) (o : op value E) : list value * option (option E) :=
  match o, snd x with
  | Write_input v, None => (fst x ++ [v], None)
  | Close_input st, None => (fst x, Some st)
  | _, _ => x
  end.
Definition input (ops : list (op value E)) : list value * option (option E) := fold_left put_in ops ([], None).
End Spec.
Arguments combined {value type E} type_of type_eqb functor initial a item.
Arguments folded {value type E} type_of type_eqb functor initial a items.
Arguments due {value type E} type_of type_eqb functor initial items closed.
Arguments put_in {value E} x o.
Arguments input {value E} ops.
