(** When mapping in any order has nothing left to do. *)
From Coq Require Import List Bool PeanoNat.
From Verif Require Import ChainModel MapModel MapSpec UnorderedModel.
Import ListNotations.
Local Open Scope nat_scope.

(** Nothing can go on without an event outside. The State of the routine is
    destroyed as soon as nobody refers to it. *)
Definition uquiet {value result error} (functor : nat -> value -> outcome result error)
    (orphaned : error) (s : ustate value result error) : Prop :=
  forall o, internal o \/ o = Destroy -> snd (ustep functor orphaned s o) = Impossible.

(** The results with the offsets they come from. *)
Definition tagged {result} (vs : list result) : list (nat * result) :=
  combine (seq 0 (length vs)) vs.
