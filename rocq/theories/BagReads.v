(** What can be read from the bags of a state, through the lookups of BagModel.v. *)
From Coq Require Import String NArith ZArith List Bool Arith.
From Verif Require Import ObjectIdModel ObjectIdProofs ItemModel DictModel DictSpec SourceModel SourceSpec BagModel MergeModel BagSpec.
Import ListNotations.
Local Open Scope nat_scope.

(** what the lookups give with these impls *)
Definition read_through (h : heap) (impls : list nat) : content :=
  mkContent (fun attr o => get_attr h impls attr o) (fun o => get_list h impls o) (fun o k => get_from_dict h impls o k).
(** the bag [b] with its fallbacks *)
Definition seen (st : state) (b : nat) : content := read_through (layers st) (impls_of st b).
(** the bag [b] without its fallbacks *)
Definition own_seen (st : state) (b : nat) : content :=
  match nth_error (bags st) b with Some x => read_through (layers st) [impl x] | None => empty_content end.
Definition has_bag (st : state) (b : nat) : Prop := b < length (bags st).
Definition is_mutable (st : state) (b : nat) : bool :=
  match nth_error (bags st) b with Some x => bag_mutable x | None => false end.
Definition fallbacks_of (st : state) (b : nat) : list nat :=
  match nth_error (bags st) b with Some x => fallbacks x | None => [] end.

(** The state after these operations *)
Definition after (iter : dmap -> dmap) (ops : list bag_op) : state := run iter ops init.

(** Operations that write to the bag [b] *)
Definition writes_to (b : nat) (op : bag_op) : bool :=
  match op with
  | BSetAttr c _ _ _ | BSetAttrs c _ _ _ _ _ | BCreate c _ _ | BSetFull c _ _ _ | BEditList c _ _ _ | BEditDict c _ _ | BMerge c _ _ _ _ => c =? b
  | _ => false
  end.
(** Runs of the specification: the operations, whether they succeed, the bags *)
Inductive reaches (asize : ObjectId -> N) : list bag_op -> list bool -> list abag -> Prop :=
  | reaches_nil : reaches asize [] [] []
  | reaches_next ops oks s op ok s' : reaches asize ops oks s -> step_spec asize s op s' ok ->
      reaches asize (ops ++ [op]) (oks ++ [ok]) s'.

(** ** The effect of writes on what is read from the bag [b], one location at a time.
    [cur]: the entry before the operation *)
Definition attr_after (b : nat) (attr : string) (o : ObjectId) (cur : option ditem) (op : bag_op) : option ditem :=
  match op with
  | BSetAttr c o' attr' v =>
      if c =? b then (if string_dec attr' attr then (if oid_eq_dec o' o then Some v else cur) else cur) else cur
  | BSetAttrs c objs _ _ attr' vs =>
      if c =? b then (if string_dec attr' attr then first_of (last_write (writes objs vs) o) cur else cur) else cur
  | BCreate c alloc fields =>
      if c =? b
      then match a_find string_dec fields attr with
           | Some f => if oid_eq_dec (allocation_of o) alloc then field_entry f (offset o) else cur
           | None => cur
           end
      else cur
  | BSetFull c alloc attr' s =>
      if c =? b
      then match ds_values s with
           | [] => cur
           | _ => if string_dec attr' attr
                  then first_of (if oid_eq_dec (allocation_of o) alloc then array_entry s (offset o) else None) cur
                  else cur
           end
      else cur
  | _ => cur
  end.
Definition list_after (b : nat) (o : ObjectId) (cur : option (list ditem)) (op : bag_op) : option (list ditem) :=
  match op with
  | BEditList c o' _ f =>
      if (c =? b) && is_list (allocation_of o') then (if oid_eq_dec o' o then Some (f (list_items cur)) else cur) else cur
  | _ => cur
  end.
Definition dict_after (b : nat) (o : ObjectId) (cur : fmap) (op : bag_op) : fmap :=
  match op with
  | BEditDict c o' op =>
      if (c =? b) && (is_dict (allocation_of o') || is_schema (allocation_of o'))
      then (if oid_eq_dec o' o then f_step cur op else cur) else cur
  | _ => cur
  end.
(** operations after which the entries of [b] are not given by these functions: merges
    into it; and one after which it cannot be written to *)
Definition merges_or_closes (b : nat) (op : bag_op) : bool :=
  match op with BMerge c _ _ _ _ | BMakeImmutable c => c =? b | _ => false end.

(** ** Bags not changed by an operation *)
Definition others_unchanged (asize : ObjectId -> N) (st st' : state) (b : nat) : Prop :=
  forall c, has_bag st c -> c <> b -> has_bag st' c /\ same_content asize (seen st c) (seen st' c) /\ is_mutable st' c = is_mutable st c.
Definition all_unchanged (asize : ObjectId -> N) (st st' : state) : Prop :=
  forall c, has_bag st c -> has_bag st' c /\ same_content asize (seen st c) (seen st' c) /\ is_mutable st' c = is_mutable st c.

(** ** Fallbacks *)
Fixpoint depth_first_from (st : state) (depth b : nat) : list nat :=
  match depth with
  | O => []
  | S depth => b :: flat_map (depth_first_from st depth) (fallbacks_of st b)
  end.
Definition depth_first (st : state) (b : nat) : list nat := depth_first_from st (S b) b.
(** the first answer *)
Definition first_answer {A} (l : list (option A)) : option A := fold_right first_of None l.

(** The results of the operations: whether they succeeded *)
Fixpoint results (iter : dmap -> dmap) (ops : list bag_op) (st : state) : list bool :=
  match ops with
  | [] => []
  | op :: ops => snd (step iter st op) :: results iter ops (fst (step iter st op))
  end.

(** A batch of objects comes with the ids of their allocations. *)
Definition batch_ok (asize : ObjectId -> N) (objs : list (option ObjectId)) (ids : list ObjectId) (has_small : bool) : Prop :=
  Forall (exists_object asize) (present objs) /\
  Forall (fun id => (wf id /\ offset id = 0%N) /\ is_small_alloc id = false) ids /\
  Forall (fun o => if is_small_alloc o then has_small = true else In (allocation_of o) ids) (present objs).
