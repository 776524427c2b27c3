(** What an observer of an asynchronous evaluation sees. *)
From Coq Require Import ZArith List Bool PeanoNat.
From Verif Require Import FutureModel AsyncModel.
Import ListNotations.
Local Open Scope nat_scope.

Section Spec.
  Context {value status : Type}.
  Variables orphaned missing_input : status.
  Variable eval : list value -> result value status.

  Definition observation := (op value status * output)%type.
  (** The observations of an evaluation, and its state afterwards. *)
  Definition after (inputs : list (option value)) (ops : list (op value status)) : countdown value status :=
    fst (run orphaned missing_input eval (async_eval inputs) ops).
  Definition observe (inputs : list (option value)) (ops : list (op value status)) : list observation :=
    combine ops (snd (run orphaned missing_input eval (async_eval inputs) ops)).

  (** The first error that arrived. *)
  Fixpoint first_error (t : list observation) : option status :=
    match t with
    | [] => None
    | (Arrive _ (Error st), Done) :: _ => Some st
    | _ :: t => first_error t
    end.

  (** The inputs, with the values that arrived filled in. *)
  Fixpoint filled (inputs : list (option value)) (t : list observation) : list (option value) :=
    match t with
    | [] => inputs
    | (Arrive i (Value v), Done) :: t => filled (update inputs i (Some v)) t
    | _ :: t => filled inputs t
    end.

  (** Whether a consumer or a task was dropped. *)
  Definition dropped (t : list observation) : Prop :=
    exists i, In (DropConsumer i, Done) t \/ In (DropTask i, Done) t.

  (** Whether a step took effect. *)
  Definition done (x : observation) : bool := match snd x with Done => true | _ => false end.

  (** Nothing is left to happen. *)
  Definition settled (s : countdown value status) : Prop := forall o, snd (step orphaned missing_input eval s o) = Impossible.
End Spec.
