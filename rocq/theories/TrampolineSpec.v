(** The recursive program that a trampoline replaces: every callback, when it has done its own part,
    calls the callbacks that it would have enqueued, one after the other. *)
From Coq Require Import List Bool Arith.
Import ListNotations.

Section Spec.
Variables (S E C : Type).
Variable invoke : C -> S -> S * option E * list C.

(** The calls of a program in their order, each with the callbacks that it enqueues *)
Definition calls := list (C * list C).

(** [recursive c s s' st l]: with all that it calls, c changes s to s' and returns st, and the calls
    are l. The first error is returned at once. *)
Inductive recursive : C -> S -> S -> option E -> calls -> Prop :=
| Own_error c s s' e cs : invoke c s = (s', Some e, cs) -> recursive c s s' (Some e) [(c, cs)]
| Own_part c s s1 s2 st cs l : invoke c s = (s1, None, cs) -> in_order cs s1 s2 st l -> recursive c s s2 st ((c, cs) :: l)
with in_order : list C -> S -> S -> option E -> calls -> Prop :=
| No_more s : in_order [] s s None []
| First_error c cs s s' e l : recursive c s s' (Some e) l -> in_order (c :: cs) s s' (Some e) l
| First_ok c cs s s1 s2 st l l2 : recursive c s s1 None l -> in_order cs s1 s2 st l2 -> in_order (c :: cs) s s2 st (l ++ l2).

(** The program that also keeps a journal of its calls in its state *)
Definition noted (c : C) (js : calls * S) : (calls * S) * option E * list C :=
  let '(s, st, cs) := invoke c (snd js) in ((fst js ++ [(c, cs)], s), st, cs).
End Spec.
Arguments recursive {S E C} invoke _ _ _ _ _.
Arguments in_order {S E C} invoke _ _ _ _ _.
Arguments noted {S E C} invoke c js.

Scheme recursive_mut := Induction for recursive Sort Prop
  with in_order_mut := Induction for in_order Sort Prop.
Combined Scheme recursive_both from recursive_mut, in_order_mut.

(** The program of the comment in trampoline_executor.h:42-72. The state is a memory of numbers; its
    callbacks compute the factorial of x into cell r, or put x times cell y into cell r. *)
Inductive factorial_callback := Compute (x r : nat) | Multiply (x y r : nat).
Fixpoint put (r v : nat) (mem : list nat) : list nat :=
  match mem, r with
  | [], _ => []
  | _ :: mem, 0 => v :: mem
  | w :: mem, Datatypes.S r => w :: put r v mem
  end.
Definition factorial (c : factorial_callback) (mem : list nat) : list nat * option unit * list factorial_callback :=
  match c with
  | Compute 0 r => (put r 1 mem, None, [])
  | Compute (Datatypes.S x) r => (mem ++ [0], None, [Compute x (length mem); Multiply (Datatypes.S x) (length mem) r])
  | Multiply x y r => (put r (x * nth y mem 0) mem, None, [])
  end.
