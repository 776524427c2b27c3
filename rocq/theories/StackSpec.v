(** What stacking or concatenating a stream has to give: that of all its slices at once. *)
From Coq Require Import List Bool Arith ZArith.
From Verif Require Import StackModel.
Import ListNotations.

Section Spec.
Variables (value E : Type).
Variable rank_of : value -> nat.
Variable concat_or_stack : bool -> Z -> list value -> value + E.
Variables (stack : bool) (ndim : Z).
Variable initial : value.

(** What comes out for these items, if the input is still open ([None]) or closed with a status: a value,
    an error, or it is not known yet *)
Definition due (items : list value) (closed : option (option E)) : option (value + error E) :=
  if forallb (fun x => rank_of x =? rank_of initial) items then
    match closed with
    | None => None
    | Some (Some e) => Some (inr (Given e))
    | Some None =>
        match concat_or_stack stack ndim (initial :: items) with
        | inl v => Some (inl v)
        | inr e => Some (inr (Given e))
        end
    end
  else Some (inr WrongRank).

(** What was written to the input up to now, and how it was closed *)
Definition put_in (x : list value * option (option E)) (o : op value E) : list value * option (option E) :=
  match o, snd x with
  | Write_input v, None => (fst x ++ [v], None)
  | Close_input st, None => (fst x, Some st)
  | _, _ => x
  end.
Definition input (ops : list (op value E)) : list value * option (option E) := fold_left put_in ops ([], None).
End Spec.
Arguments due {value E} rank_of concat_or_stack stack ndim initial items closed.
Arguments put_in {value E} x o.
Arguments input {value E} ops.
