(** What a slice is, and what a builder should put into it. *)
From Coq Require Import NArith ZArith List Bool Arith.
From Verif Require Import ObjectIdModel SchemaModel ItemModel SliceModel.
Import ListNotations.
Local Open Scope nat_scope.

(** ** What a caller of the builder says about a position: nothing (None), that it is
    missing (Some None), or a value. *)
Fixpoint first_write (ws : list (nat * option value)) (i : nat) : option (option value) :=
  match ws with
  | [] => None
  | (j, x) :: r => if j =? i then Some x else first_write r i
  end.
Definition says (op : bop) (i : nat) : option (option value) :=
  match op with
  | OMask m => if bit m i then None else Some None
  | OInsert j x | OInsertNew j x | OInsertAlloc j x | OInsertNewAlloc j x =>
      if j =? i then Some x else None
  | OTyped _ ws => first_write ws i
  | OBatch _ m p vs => if bit m i then Some (if bit p i then nth i vs None else None) else None
  | OAllocs _ => None
  end.
(** The first thing that is said counts. *)
Fixpoint content (ops : list bop) (i : nat) : option (option value) :=
  match ops with
  | [] => None
  | op :: r => match says op i with Some x => Some x | None => content r i end
  end.
(** The item at a position: missing if nothing was said *)
Definition item_of (c : option (option value)) : option value :=
  match c with Some x => x | None => None end.

(** The contract of the builder *)
Definition bitmap_ok (n : nat) (bm : list bool) : Prop := bm = [] \/ length bm = n.
Definition kind_ok (k : kind) (x : option value) : Prop :=
  match x with Some v => kind_of v = k | None => True end.
Definition op_ok (n : nat) (before : list bop) (op : bop) : Prop :=
  match op with
  | OMask m => bitmap_ok n m
  | OInsert i _ | OInsertAlloc i _ => i < n
  | OInsertNew i _ | OInsertNewAlloc i _ => i < n /\ content before i = None
  | OTyped k ws => Forall (fun w => fst w < n /\ kind_ok k (snd w)) ws
  | OBatch k m p vs =>
      length vs = n /\ bitmap_ok n m /\ bitmap_ok n p /\
      (forall i, i < n -> bit m i = true -> bit p i = true ->
         exists v, nth i vs None = Some v /\ kind_of v = k)
  | OAllocs _ => True
  end.
Fixpoint ops_ok (n : nat) (before ops : list bop) : Prop :=
  match ops with
  | [] => True
  | op :: r => op_ok n before op /\ ops_ok n (before ++ [op]) r
  end.

(** ** Slices *)

(** The item at a position: the value of the array that has one *)
Definition item_at (s : slice) (i : nat) : option value :=
  match find (fun a => d_present a i) (s_values s) with
  | Some a => nth i (d_values a) None
  | None => None
  end.
Definition items (s : slice) : list (option value) := map (item_at s) (seq 0 (s_size s)).

(** An array of n elements of its type *)
Record arr_wf (n : nat) (a : darr) : Prop := {
  aw_size : d_size a = n;
  aw_bitmap : bitmap_ok n (d_bitmap a);
  aw_values : forall i, i < n -> d_present a i = true ->
    exists v, nth i (d_values a) None = Some v /\ kind_of v = d_kind a;
  aw_some : exists i, i < n /\ d_present a i = true
}.
(** data_slice.h:346-357: arrays of different types, each with some value; an element
    is present in at most one of them; the buffer of types, if there is one, tells
    which. *)
Record slice_wf (s : slice) : Prop := {
  sw_arrays : Forall (arr_wf (s_size s)) (s_values s);
  sw_kinds : NoDup (map d_kind (s_values s));
  sw_disjoint : forall i t1 t2 a1 a2, i < s_size s ->
    nth_error (s_values s) t1 = Some a1 -> nth_error (s_values s) t2 = Some a2 ->
    d_present a1 i = true -> d_present a2 i = true -> t1 = t2;
  sw_dtype : s_dtype s = match s_values s with [a] => Some (d_kind a) | _ => None end;
  sw_tidx_size : s_tidx s = [] \/ length (s_tidx s) = s_size s;
  sw_tidx : s_tidx s <> [] -> forall i t, i < s_size s ->
    nth i (s_tidx s) TUnset = TIdx t <->
    exists a, nth_error (s_values s) t = Some a /\ d_present a i = true;
  sw_types : s_tidx s <> [] -> s_values s <> [] -> s_types s = map d_kind (s_values s);
  sw_mixed : 1 < length (s_values s) -> s_tidx s <> []
}.

(** The allocation of an object is among the allocations of a slice. Small allocations
    are not told apart. *)
Definition covers (al : allocs) (a : ObjectId) : Prop :=
  if is_small_alloc a then al_small al = true else In a (al_big al).
Definition allocs_wf (s : slice) : Prop :=
  forall i o, i < s_size s -> item_at s i = Some (val KObjectId o) ->
    covers (s_allocs s) (allocation_of o).
(** AllocationIdSet: the list of big allocations holds no small one (property C05) *)
Definition allocs_ok (s : allocs) : Prop := forall a, In a (al_big s) -> is_small_alloc a = false.
Definition present_item (x : option value) : bool := match x with Some _ => true | None => false end.
(** What an operation adds to the allocations of a builder: the operations that insert
    an object with its allocation do so if they decide a position. *)
Definition same_alloc (a b : ObjectId) : Prop :=
  if is_small_alloc a then is_small_alloc b = true else b = a.
Definition gives (before : list bop) (op : bop) (a : ObjectId) : Prop :=
  match op with
  | OAllocs s => covers s a
  | OInsertAlloc i x | OInsertNewAlloc i x =>
      content before i = None /\ exists o, x = Some (val KObjectId o) /\ same_alloc a (allocation_of o)
  | _ => False
  end.
