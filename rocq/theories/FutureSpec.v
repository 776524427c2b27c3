(** What observers of a future see. *)
From Coq Require Import List Bool PeanoNat.
From Verif Require Import FutureModel.
Import ListNotations.
Local Open Scope nat_scope.

Section Spec.
  Variables value status : Type.
  Variable orphaned : status.
  Notation op := (op value status).
  Notation result := (result value status).
  Notation output := (output value status).

  Definition observation := (op * output)%type.

  (** The value that the future was given first. *)
  Fixpoint given (t : list observation) : option result :=
    match t with
    | [] => None
    | (SetValue _ r, Calls) :: _ => Some r
    | (DestroyWriter _, Calls) :: _ => Some (Error orphaned)
    | _ :: t => given t
    end.

  (** How often consumer [c] was added, and with what it was called. *)
  Fixpoint added (c : nat) (t : list observation) : nat :=
    match t with
    | [] => 0
    | (_, Impossible) :: t => added c t
    | (AddConsumer d, _) :: t => (if c =? d then 1 else 0) + added c t
    | (SubscribeOnce _ d, _) :: t => (if c =? d then 1 else 0) + added c t
    | _ :: t => added c t
    end.
  Fixpoint called (c : nat) (t : list observation) : list result :=
    match t with
    | [] => []
    | (Step _, Called d r) :: t => if c =? d then r :: called c t else called c t
    | _ :: t => called c t
    end.

  (** Which writer object can set the value ([None]: none any more), if it was
      [w] before. *)
  Fixpoint holder_from (w : option nat) (t : list observation) : option nat :=
    match t with
    | [] => w
    | (o, out) :: t =>
        holder_from
          match w with
          | None => None
          | Some i =>
              match o, out with
              | SetValue _ _, Calls => None
              | DestroyWriter _, Calls => None
              | MoveWriter j, Made k => if j =? i then Some k else Some i
              | AssignWriter j, Done => if j =? i then None else Some i
              | _, _ => Some i
              end
          end t
    end.
  (** The first writer has number 0. *)
  Definition holder (t : list observation) : option nat := holder_from (Some 0) t.

  (** Whether reader [i] exists, and whether it got an item. *)
  Definition has_reader (i : nat) (t : list observation) : Prop :=
    In (MakeReader, Made i) t.
  Definition got_item (i : nat) (t : list observation) : bool :=
    existsb (fun x => match x with
                      | (TryRead j, Read (Item _)) => j =? i
                      | _ => false
                      end) t.
End Spec.

Arguments given {value status}.
Arguments added {value status}.
Arguments called {value status}.
Arguments holder_from {value status}.
Arguments holder {value status}.
Arguments has_reader {value status}.
Arguments got_item {value status}.

(** The observations of a run of a new future. *)
Definition observe {value status} (matches : value -> bool) (orphaned ok : status)
    (ops : list (op value status)) : list (observation value status) :=
  combine ops (snd (run matches orphaned ok make_future ops)).
