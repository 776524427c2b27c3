(** What the storage of one attribute of the objects of one allocation means: a
    map from offsets to entries. An entry is None (unset: this storage says
    nothing), Some None (removed) or Some (Some v). *)
From Coq Require Import NArith ZArith List Bool Arith.
From Verif Require Import ObjectIdModel SchemaModel ItemModel SourceModel.
From Verif Require ListRunSpec.
Import ListNotations.
Local Open Scope nat_scope.

Definition entry : Type := option ditem.
Definition view : Type := N -> entry.

(** Writing: only this offset changes *)
Definition write (f : view) (off : N) (x : ditem) : view :=
  fun j => if (j =? off)%N then Some x else f j.

(** Two entries under a policy *)
Definition combine_entries {A} (p : policy) (this other : option A) : option A :=
  match other, this with
  | None, _ => this
  | Some x, None => Some x
  | Some x, Some y => match p with Overwrite => Some x | _ => Some y end
  end.

(** Values are the same if they are equal, floats being compared as numbers and
    NaN being a number like any other. Between NaN of different types the code is
    not consistent: [differ] does not tell them apart, [strict_differ] does. *)
Definition strict_differ (a b : ditem) : bool :=
  match a, b with
  | None, None => false
  | Some (existT _ k x), Some b => match as_kind k b with Some y => cval_differ k x y | None => true end
  | _, _ => true
  end.
(** Two present entries that are not the same *)
Definition clash {A} (diff : A -> A -> bool) (this other : option A) : bool :=
  match this, other with Some x, Some y => diff x y | _, _ => false end.

(** The entry after a merge. If both entries must be the same, it is one of them (they
    may still be different zeros or NaNs). *)
Definition outcome {A} (p : policy) (this other after : option A) : Prop :=
  after = combine_entries p this other \/ (p = RaiseOnConflict /\ after = combine_entries Overwrite this other).

(** ** Writes of many: the objects, and a slice with the values. If an object is
    there more than once, the last value counts. *)
Definition present (objs : list (option ObjectId)) : list ObjectId :=
  flat_map (fun o => match o with Some o => [o] | None => [] end) objs.
Fixpoint last_write {A} (ws : list (ObjectId * A)) (o : ObjectId) : option A :=
  match ws with
  | [] => None
  | (o', v) :: r => match last_write r o with
                    | Some x => Some x
                    | None => if same_oid o' o then Some v else None
                    end
  end.
Definition writes (objs : list (option ObjectId)) (vs : slice) : list (ObjectId * ditem) :=
  map (fun '(i, o) => (o, slice_at vs i)) (present_at objs).
(** each position of a slice has one type; each type is there once *)
Definition slice_ok (vs : slice) : Prop :=
  ListRunSpec.slice_wf vs /\ NoDup (map (@projT1 _ _) (sl_values vs)).
(** what an array given for all objects of an allocation says about one of them *)
Definition field_entry (s : dslice) (off : N) : option ditem :=
  match ds_values s with [] => Some None | _ => ro_at s off end.
(** what an array says about its element [off] *)
Definition array_entry (s : dslice) (off : N) : option ditem :=
  if (off <? ds_size s)%N then field_entry s off else None.
(** an array with the types of its elements *)
Definition kinds (bufs : list {k : kind & array k}) : list kind := map (@projT1 _ _) bufs.
Definition wf_dslice (s : dslice) : Prop :=
  match ds_tidx s with
  | None => exists a, ds_values s = [a]
  | Some t => forall off n, t off = TIdx n <-> buf_at (ds_values s) n off <> None
  end /\
  NoDup (kinds (ds_values s)) /\
  forall off n, (ds_size s <= off)%N -> buf_at (ds_values s) n off = None.
