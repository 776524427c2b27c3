(** Vocabulary for C12: a dict as one finite map. *)
From Coq Require Import NArith List Bool.
From Verif Require Import ObjectIdModel ItemModel DictModel.
Import ListNotations.

(** What is known about each key: nothing, or a value, possibly a missing one. A
    key set to a missing value, or cleared, stays known. *)
Definition fmap := value -> option ditem.
Definition f_empty : fmap := fun _ => None.
Definition f_set (f : fmap) (k : value) (v : ditem) : fmap := fun j => if value_eqb k j then Some v else f j.

(** Only some types can be keys; writes with other or missing keys do nothing. *)
Definition good_key (k : ditem) : option value :=
  match k with
  | Some (existT _ KFloat32 _) | Some (existT _ KFloat64 _) | Some (existT _ KExprQuote _) | None => None
  | Some k => Some k
  end.

(** The meaning of each operation; a new layer changes nothing. *)
Definition f_step (f : fmap) (o : dict_op) : fmap :=
  match o with
  | DSetKey k v => match good_key k with Some k => f_set f k v | None => f end
  | DGetOrAssign k v =>
      match good_key k with
      | Some k => match f k with Some _ => f | None => f_set f k v end
      | None => f
      end
  | DClear => fun k => match f k with Some _ => Some None | None => None end
  | DDerive _ => f
  end.
Definition f_run (ops : list dict_op) (f : fmap) : fmap := fold_left f_step ops f.

(** The first map that knows the key *)
Fixpoint f_first (l : list fmap) : fmap := fun k =>
  match l with
  | [] => None
  | f :: r => match f k with Some v => Some v | None => f_first r k end
  end.

(** A list of keys and values is exactly a finite map. *)
Definition lists_map (l : list (value * ditem)) (f : fmap) : Prop :=
  NoDup (map fst l) /\ forall k v, In (k, v) l <-> f k = Some v.

(** The addresses of the layers made in a history *)
Fixpoint new_addrs (ops : list dict_op) : list N :=
  match ops with
  | [] => []
  | DDerive a :: r => a :: new_addrs r
  | _ :: r => new_addrs r
  end.
Definition new_dict (a : N) : dict := mkDict a [] None.
