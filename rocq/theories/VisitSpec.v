(** What a visit has to give: the value of each functor is the callback of the values of its subfunctors. *)
From Coq Require Import List Bool Arith.
Import ListNotations.

Section Spec.
Variables (id name R E : Type).
Variable variables : id -> list (name * option id).
Variable callback : id -> list (name * R) -> R + E.

(** g is a subfunctor of f *)
Definition sub (f g : id) : Prop := exists x, In (x, Some g) (variables f).
Inductive reach (f : id) : id -> Prop :=
| reach_refl : reach f f
| reach_step g h : reach f g -> sub g h -> reach f h.
(** A functor that is its own subfunctor, at any depth *)
Definition recursive (f : id) : Prop := exists g, sub f g /\ reach g f.

Inductive value_of : id -> R -> Prop :=
| value_intro f subs r : subs_of (variables f) subs -> callback f subs = inl r -> value_of f r
with subs_of : list (name * option id) -> list (name * R) -> Prop :=
| subs_nil : subs_of [] []
| subs_other x l subs : subs_of l subs -> subs_of ((x, None) :: l) subs
| subs_sub x g r l subs : value_of g r -> subs_of l subs -> subs_of ((x, Some g) :: l) ((x, r) :: subs).
End Spec.
Arguments sub {id name} variables f g.
Arguments reach {id name} variables f g.
Arguments recursive {id name} variables f.
Arguments value_of {id name R E} variables callback f r.
Arguments subs_of {id name R E} variables callback l subs.
