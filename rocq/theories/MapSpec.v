(** What mapping a functor over a stream means, from what happened. *)
From Coq Require Import List Bool PeanoNat.
From Verif Require Import ChainModel MapModel.
Import ListNotations.
Local Open Scope nat_scope.

Section Spec.
  Variables value result error : Type.
  Notation status := (status error).
  Variable functor : nat -> value -> outcome result error.

  (** The values of the items before the first one that fails, and how this ends:
      with the error of that item, or as the input does. *)
  Fixpoint mapped (k : nat) (l : list value) (c : option status) : list result * option status :=
    match l with
    | [] => ([], c)
    | x :: l =>
        match functor k x with
        | Value v => let (vs, c) := mapped (S k) l c in (v :: vs, c)
        | Error e => ([], Some (Err e))
        end
    end.

  (** The input, from what others did to it. *)
  Definition input_change (i : list value * option status) (o : op value error) :=
    match o, snd i with
    | EnvWrite x, None => (fst i ++ [x], None)
    | EnvClose st, None => (fst i, Some st)
    | _, _ => i
    end.
  Definition input_after (i : list value * option status) (ops : list (op value error)) :=
    fold_left input_change ops i.

  (** The executor has dropped something it was given. *)
  Definition drops (o : op value error) : Prop :=
    match o with DropTask _ | DropReader => True | _ => False end.

  Definition prefix (l m : list result) : Prop := exists rest, m = l ++ rest.

  (** Nothing can go on without an event outside. *)
  Variable orphaned : error.
  Definition internal (o : op value error) : Prop :=
    match o with StepReader | StepTask _ | FinishClose | FinishCancel => True | _ => False end.
  Definition quiet (s : state value result error) : Prop :=
    forall o, internal o -> snd (step functor orphaned s o) = Impossible.
End Spec.

Arguments mapped {value result error}.
Arguments input_change {value error}.
Arguments input_after {value error}.
Arguments drops {value error}.
Arguments prefix {result}.
Arguments internal {value error}.
Arguments quiet {value result error}.
