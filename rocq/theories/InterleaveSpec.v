(** What an interleaving of streams delivers, from what happened to its inputs. *)
From Coq Require Import List Bool PeanoNat.
From Verif Require Import ChainModel ChainSpec InterleaveModel.
Import ListNotations.
Local Open Scope nat_scope.

Section Spec.
  Variables value error : Type.

  (** The streams, items and errors that were added while the interleave was in
      use, each in the order of adding, with what the streams hold now. *)
  Record world := World {
    w_streams : list (content value error);
    w_items : list value;
    w_errors : list error;
    w_in_use : bool }.

  Definition ihappens (w : world) (o : iop value error) : world :=
    match o with
    | IAdd vs st =>
        if w_in_use w
        then World (w_streams w ++ [(vs, st)]) (w_items w) (w_errors w) (w_in_use w) else w
    | IAddItem v =>
        if w_in_use w
        then World (w_streams w) (w_items w ++ [v]) (w_errors w) (w_in_use w) else w
    | IAddError e =>
        if w_in_use w
        then World (w_streams w) (w_items w) (w_errors w ++ [e]) (w_in_use w) else w
    | IEnvWrite i v =>
        World (change (w_streams w) i (fun s => write_to s v)) (w_items w) (w_errors w) (w_in_use w)
    | IEnvClose i st =>
        World (change (w_streams w) i (fun s => close_with s st)) (w_items w) (w_errors w)
          (w_in_use w)
    | IDrop => World (w_streams w) (w_items w) (w_errors w) false
    | IStep _ | IClose | IExpire | IEnd => w
    end.
  Definition ihappened (ops : list (iop value error)) : world :=
    fold_left ihappens ops (World [] [] [] true).

  (** The items of the output that come from one source. *)
  Definition same_source (a b : option nat) : bool :=
    match a, b with
    | Some i, Some j => Nat.eqb i j
    | None, None => true
    | _, _ => false
    end.
  Definition taken_from (a : option nat) (l : list (option nat * value)) : list value :=
    map snd (filter (fun iv => same_source a (fst iv)) l).

  Definition prefix (l m : list value) : Prop := exists rest, m = l ++ rest.

  (** Nothing can go on without an event outside. *)
  Definition quiet (s : inter value error) : Prop :=
    snd (istep s IClose) = Impossible /\ forall i, snd (istep s (IStep i)) = Impossible.
End Spec.

Arguments World {value error}.
Arguments w_streams {value error}.
Arguments w_items {value error}.
Arguments w_errors {value error}.
Arguments w_in_use {value error}.
Arguments ihappens {value error}.
Arguments ihappened {value error}.
Arguments taken_from {value}.
Arguments prefix {value}.
Arguments quiet {value error}.
