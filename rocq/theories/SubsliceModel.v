(** Slicing of slices, x.S[...]: koladata/subslice_utils.cc, koladata/shape_utils.cc and
    the operators subslice, take and expand_to_present of koladata/operators/slices.cc.
    A DataSlice is its DataSliceImpl and its shape (a DataItem: one item and no edges). *)
From Coq Require Import NArith ZArith List Bool Arith.
From Verif Require Import ObjectIdModel SchemaModel ItemModel SliceModel SliceOpsModel.
Import ListNotations.
Local Open Scope nat_scope.

(** ** Alignment *)

(** DenseArrayExpandOp on the elements of an array *)
Definition expand_vals {A} (l : list A) (e : edge) : list A := flat_map (fun '(x, n) => repeat x n) (combine l e).
(** JaggedDenseArrayShape::GetBroadcastEdge: the edges below [from], composed *)
Definition compose (e f : edge) : edge := map list_sum (chunks e f).
Definition broadcast_edge (from to_ : shape) (n : nat) : edge :=
  fold_left compose (skipn (length from) to_) (repeat 1 n).
(** BroadcastToShape for the items of a slice *)
Definition broadcast {A} (l : list A) (from to_ : shape) : list A :=
  expand_vals l (broadcast_edge from to_ (length l)).
(** shape_utils.cc:41-48 *)
Definition highest (s : shape) (l : list shape) : shape :=
  fold_left (fun c s => if length c <? length s then s else c) l s.
(** 35-63 GetCommonShape of s and l *)
Definition common_shape (s : shape) (l : list shape) : outcome shape :=
  let c := highest s l in
  if forallb (fun s => broadcastable s c) (s :: l) then Done c else Fails EBroadcast.

(** ** Indices *)

(** A DataSlice that is used as index: its shape, its items and whether its schema is
    one that casting.cc:590-616 CastToNarrow casts to INT64, if the items are integers
    (INT32, INT64, NONE, OBJECT) *)
Record index := mkIndex { x_shape : shape; x_items : list (option value); x_castable : bool }.
Definition as_int (v : value) : option Z :=
  match v with
  | existT _ KInt32 z => Some z
  | existT _ KInt64 z => Some z
  | _ => None
  end.
Fixpoint as_ints (l : list (option value)) : option (list (option Z)) :=
  match l with
  | [] => Some []
  | None :: r => option_map (cons None) (as_ints r)
  | Some v :: r => obind (as_int v) (fun z => option_map (cons (Some z)) (as_ints r))
  end.
(** arolla_utils.h:119-131 ToArollaDenseArray<int64_t> *)
Definition to_ints (castable : bool) (l : list (option value)) : outcome (list (option Z)) :=
  if castable then match as_ints l with Some z => Done z | None => Fails ECast end else Fails ECast.

(** ** subslice_utils.cc *)

(** 48-58 AtImpl, with indices that are integers *)
Section Ops.
Variable visit : list (kind * storage) -> list (kind * storage).
Definition at_ints (ds : slice) (sh : shape) (idx : list (option Z)) : outcome (slice * shape) :=
  bind_out (at_ visit ds idx) (fun s => Done (s, sh)).

(** DenseArrayEdge::split_size, edge_values().values; None: outside of the array *)
Definition split_point (e : edge) (p : nat) : option nat := nth_error (split_points e) p.
Definition split_size (e : edge) (p : nat) : option Z :=
  obind (split_point e p) (fun a => obind (split_point e (S p)) (fun b => Some (Z.of_nat b - Z.of_nat a)%Z)).
Fixpoint omap {A B} (f : A -> option B) (l : list A) : option (list B) :=
  match l with
  | [] => Some []
  | x :: r => obind (f x) (fun y => option_map (cons y) (omap f r))
  end.
(** 76-85 *)
Definition child_index (e : edge) (parent : option nat) (child : option Z) : option (option nat) :=
  match parent, child with
  | Some p, Some c =>
      obind (split_size e p) (fun size =>
      let c := if (c <? 0)%Z then (c + size)%Z else c in
      if (c <? 0)%Z || (size <=? c)%Z then Some None else
      obind (split_point e p) (fun o => Some (Some (o + Z.to_nat c))))
  | _, _ => Some None
  end.
(** The chosen positions of a dimension: an INT64 DataSlice *)
Definition chosen : Type := shape * list (option nat).
(** 62-89 SubsliceChildIndicesForSingle *)
Definition single (c : chosen) (x : index) (e : edge) : outcome chosen :=
  bind_out (common_shape (fst c) [x_shape x]) (fun sh =>
  let ps := broadcast (snd c) (fst c) sh in
  bind_out (to_ints (x_castable x) (broadcast (x_items x) (x_shape x) sh)) (fun cs =>
  bind_out (of_opt (omap (fun '(p, c) => child_index e p c) (combine ps cs))) (fun l =>
  Done (sh, l)))).

(** std::clamp *)
Definition clamp (z lo hi : Z) : Z := if (z <? lo)%Z then lo else if (hi <? z)%Z then hi else z.
(** 136-154: a bound of a range, which may be absent (the default) or missing *)
Definition bound (a : option (list (option Z))) (id : nat) (default : Z) : option (option Z) :=
  match a with
  | None => Some (Some default)
  | Some l => nth_error l id
  end.
Definition in_size (z size : Z) : Z := clamp (if (z <? 0)%Z then z + size else z)%Z 0 size.
(** 131-157: what is pushed for one position *)
Definition range_at (e : edge) (start stop : option (list (option Z))) (id : nat) (parent : option nat)
    : option (list nat) :=
  match parent with
  | None => Some []
  | Some p =>
      obind (split_size e p) (fun size =>
      obind (bound start id 0%Z) (fun a =>
      match a with
      | None => Some []
      | Some a =>
          let a := in_size a size in
          obind (bound stop id size) (fun b =>
          match b with
          | None => Some []
          | Some b =>
              let b := in_size b size in
              obind (split_point e p) (fun o =>
              Some (map (fun i => o + i) (seq (Z.to_nat a) (Z.to_nat (b - a)))))
          end)
      end))
  end.
(** 127-160: the split points and the chosen positions *)
Definition range_step (e : edge) (start stop : option (list (option Z))) (ip : nat * option nat)
    (st : list nat * list nat) : option (list nat * list nat) :=
  obind (range_at e start stop (fst ip) (snd ip)) (fun l =>
  Some (fst st ++ [length (snd st)], snd st ++ l)).
(** DenseArrayEdge::UnsafeFromSplitPoints *)
Fixpoint edge_of (sp : list nat) : edge :=
  match sp with
  | a :: (b :: _) as r => (b - a) :: edge_of r
  | _ => []
  end.
Definition opt_shape (x : option index) : list shape := match x with Some x => [x_shape x] | None => [] end.
Definition opt_ints (x : option index) (sh : shape) : outcome (option (list (option Z))) :=
  match x with
  | None => Done None
  | Some x => bind_out (to_ints (x_castable x) (broadcast (x_items x) (x_shape x) sh)) (fun l => Done (Some l))
  end.
(** 91-169 SubsliceChildIndicesForRange *)
Definition range (c : chosen) (start stop : option index) (e : edge) : outcome chosen :=
  bind_out (common_shape (fst c) (opt_shape start ++ opt_shape stop)) (fun sh =>
  let ps := broadcast (snd c) (fst c) sh in
  bind_out (opt_ints start sh) (fun start =>
  bind_out (opt_ints stop sh) (fun stop =>
  bind_out (of_opt (ofold (range_step e start stop) (combine (seq 0 (length ps)) ps) ([], []))) (fun '(sp, l) =>
  bind_out (from_edges (sh ++ [edge_of (sp ++ [length l])])) (fun sh' =>
  Done (sh', map Some l)))))).

(** subslice_utils.h:31-37 *)
Inductive arg := Single (x : index) | Range (start stop : option index).
Definition step (a : edge * arg) (c : chosen) : outcome chosen :=
  match snd a with
  | Single x => single c x (fst a)
  | Range start stop => range c start stop (fst a)
  end.
Fixpoint steps (l : list (edge * arg)) (c : chosen) : outcome chosen :=
  match l with
  | [] => Done c
  | a :: r => bind_out (step a c) (steps r)
  end.
(** 189-213 *)
Definition subslice_slow (ds : slice) (sh : shape) (args : list arg) : outcome (slice * shape) :=
  let r := length sh - length args in
  match nth_error sh r with
  | None => Undefined
  | Some e =>
      bind_out (steps (combine (skipn r sh) args) (firstn r sh, map Some (seq 0 (parent_size e)))) (fun '(sh', l) =>
      at_ints ds sh' (map (option_map Z.of_nat) l))
  end.
(** 173-214 Subslice *)
Definition subslice (ds : slice) (sh : shape) (args : list arg) : outcome (slice * shape) :=
  match args with
  | [] => Done (ds, sh)
  | _ =>
      match sh, args with
      | [_], [Single x] => bind_out (to_ints (x_castable x) (x_items x)) (at_ints ds (x_shape x))
      | _, _ => if length sh <? length args then Fails EMany else subslice_slow ds sh args
      end
  end.

(** ** operators/slices.cc *)

(** The arguments of kd.subslice; IsSliceQTypeValid (521-565) refuses two ellipses
    before the operator is bound. *)
Inductive parg := Arg (a : arg) | Ellipsis.
Fixpoint args_of (l : list parg) : list arg :=
  match l with
  | [] => []
  | Arg a :: r => a :: args_of r
  | Ellipsis :: r => args_of r
  end.
Fixpoint last_ellipsis (i : nat) (l : list parg) (pos : option nat) : option nat :=
  match l with
  | [] => pos
  | Arg _ :: r => last_ellipsis (S i) r pos
  | Ellipsis :: r => last_ellipsis (S i) r (Some i)
  end.
Definition full : arg := Range None None.
(** 578-614 ExtractSlicingArgs *)
Definition extract_args (l : list parg) (rank : nat) : outcome (list arg) :=
  let args := args_of l in
  if rank <? length args then Fails EMany else
  match last_ellipsis 0 l None with
  | Some (S p) => Done (firstn (S p) args ++ repeat full (rank - length args) ++ skipn (S p) args)
  | _ => Done args
  end.
(** 634-640 kd.subslice *)
Definition kd_subslice (ds : slice) (sh : shape) (l : list parg) : outcome (slice * shape) :=
  bind_out (extract_args l (length sh)) (subslice ds sh).
(** 1014-1029 kd.take *)
Definition take (ds : slice) (sh : shape) (x : index) : outcome (slice * shape) :=
  if length sh =? 0 then Fails ERank else
  let up := firstn (length sh - 1) sh in
  if negb (broadcastable up (x_shape x)) && negb (broadcastable (x_shape x) up) then Fails EBroadcast
  else subslice ds sh [Single x].
(** data_slice.h:700-713 BroadcastToShape, data_slice.cc BroadcastToShapeSlow *)
Definition broadcast_slice (ds : slice) (sh to_ : shape) : outcome slice :=
  if negb (broadcastable sh to_) then Fails EBroadcast else
  if length sh =? length to_ then Done ds else expand visit ds (broadcast_edge sh to_ (s_size ds)).
(** 1160-1206 kd.expand_to for a target with missing items. [ndim] is an integer: the cast
    at 1163 is not modelled. *)
Definition expand_to_present (ds : slice) (sh : shape) (target : slice) (tsh : shape) (ndim : Z) : outcome (slice * shape) :=
  if (ndim =? 0)%Z then
    bind_out (broadcast_slice ds sh tsh) (fun b =>
    bind_out (presence_and visit b (has target)) (fun s => Done (s, tsh)))
  else if (ndim <? 0)%Z || (Z.of_nat (length sh) <? ndim)%Z then Fails ENdim else
  if (Z.of_nat (length tsh) <? Z.of_nat (length sh) - ndim)%Z then Fails EBroadcast else
  bind_out (presence_and visit (create (const_arr (val KInt64 0%Z) (s_size target))) (has target)) (fun zeros =>
  match subslice ds sh (Range (Some (mkIndex tsh (as_items zeros) true)) None :: repeat full (Z.to_nat ndim - 1)) with
  | Fails _ => Fails EBroadcast
  | r => r
  end).
End Ops.
