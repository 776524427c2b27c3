(** A while loop, as a function: what it writes and how it ends, if the body is called at most n times. *)
From Coq Require Import String.
From Coq Require Import List Bool Arith.
From Verif Require Import ForModel ForSpec.
Import ListNotations.
Local Open Scope list_scope.

Section Spec.
Variables (value type E : Type).
Variable type_of : value -> type.
Variable type_eqb : type -> type -> bool.
Variable m : mode.
Variable condition_functor : variables value -> condition E.
Variable body_functor : variables value -> returned value E.
Variables (last : string) (initial : value).

(** [Going]: the condition still holds after n times. [outcome] and [finished] are those of loops over
    streams: the variables after an update and what is yielded, and what is written at the end. *)
Fixpoint repeated (n : nat) (l : variables value) : list value * ending E :=
  match condition_functor l with
  | Bad e => ([], Ends (Err (Given e)))
  | No => finished m last l
  | Yes =>
      match n with
      | 0 => ([], Going)
      | S n =>
          match outcome type_of type_eqb m last initial (body_functor l) l with
          | inr e => ([], Ends (Err e))
          | inl (l, out) => then_ out (repeated n l)
          end
      end
  end.
Definition while_loop (initial_state : variables value) (n : nat) : list value * ending E :=
  match m with
  | Returns => repeated n (initial_state ++ [(last, initial)])
  | Yields => then_ [initial] (repeated n initial_state)
  end.
End Spec.
Arguments repeated {value type E} type_of type_eqb m condition_functor body_functor last initial n l.
Arguments while_loop {value type E} type_of type_eqb m condition_functor body_functor last initial initial_state n.
