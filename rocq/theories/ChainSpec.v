(** What a chain of streams delivers, from what happened to its inputs. *)
From Coq Require Import List Bool PeanoNat.
From Verif Require Import ChainModel.
Import ListNotations.
Local Open Scope nat_scope.

Section Spec.
  Variables value error : Type.

  (** The content of a stream: what was written and how it was closed. *)
  Definition content := (list value * option (status error))%type.

  (** What has happened so far to one stream. *)
  Definition write_to (s : content) (v : value) : content :=
    match snd s with None => (fst s ++ [v], None) | Some _ => s end.
  Definition close_with (s : content) (st : status error) : content :=
    match snd s with None => (fst s, Some st) | Some _ => s end.

  Fixpoint change (l : list content) (i : nat) (f : content -> content) : list content :=
    match l, i with
    | [], _ => []
    | s :: l, 0 => f s :: l
    | s :: l, S i => s :: change l i f
    end.

  (** The streams that were added to the chain, in this order, with their
      content: streams added after the chain was given up do not count. *)
  Definition happens (w : list content * bool) (o : op value error) : list content * bool :=
    let (l, owned) := w in
    match o with
    | Add vs st => if owned then (l ++ [(vs, st)], owned) else w
    | EnvWrite i v => (change l i (fun s => write_to s v), owned)
    | EnvClose i st => (change l i (fun s => close_with s st), owned)
    | Drop => (l, false)
    | Step _ | Destroy => w
    end.
  Definition happened (ops : list (op value error)) : list content * bool :=
    fold_left happens ops ([], true).
  Definition streams (ops : list (op value error)) : list content := fst (happened ops).
  Definition given_up (ops : list (op value error)) : Prop := snd (happened ops) = false.

  (** One stream after the other, up to the first that is not closed
      successfully, and the error if this one failed. *)
  Fixpoint chained (l : list content) : list value * option error :=
    match l with
    | [] => ([], None)
    | (vs, Some OK) :: l => (vs ++ fst (chained l), snd (chained l))
    | (vs, Some (Err e)) :: _ => (vs, Some e)
    | (vs, None) :: _ => (vs, None)
    end.

  Definition all_succeeded (l : list content) : Prop := Forall (fun s => snd s = Some OK) l.
End Spec.

Arguments content : clear implicits.
Arguments streams {value error}.
Arguments given_up {value error}.
Arguments happened {value error}.
Arguments happens {value error}.
Arguments change {value error}.
Arguments write_to {value error}.
Arguments close_with {value error}.
Arguments chained {value error}.
Arguments all_succeeded {value error}.
