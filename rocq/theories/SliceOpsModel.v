(** Operators on slices: koladata/internal/op_utils/{has,presence_and,presence_or,
    coalesce_with_filtered,at,expand,collapse,select,inverse_select,reverse}. The
    operators of arolla on dense arrays are modelled by what they are documented to
    return. *)
From Coq Require Import NArith ZArith List Bool Arith.
From Verif Require Import ObjectIdModel SchemaModel ItemModel SliceModel.
Import ListNotations.
Local Open Scope nat_scope.

Inductive failure :=
  | ESizes      (* the sizes differ *)
  | EMask       (* the filter is not a mask *)
  | EOverlap    (* both arguments have a value at the same position *)
  | ERank       (* the filter has no dimension, or more than the slice *)
  | EBroadcast  (* the filter is not broadcastable to the slice *)
  | EShape      (* the shapes do not fit *)
  | ECast       (* an argument does not hold integers *)
  | EMany       (* more arguments than dimensions *)
  | ENdim.      (* a number of dimensions that is not possible *)
(** Undefined: an index outside of an array, unwritten memory, a failed CHECK *)
Inductive outcome (A : Type) := Done (x : A) | Fails (e : failure) | Undefined.
Arguments Done {A}. Arguments Fails {A}. Arguments Undefined {A}.
Definition of_opt {A} (x : option A) : outcome A := match x with Some x => Done x | None => Undefined end.
Definition bind_out {A B} (x : outcome A) (f : A -> outcome B) : outcome B :=
  match x with Done a => f a | Fails e => Fails e | Undefined => Undefined end.

(** ** Dense arrays of arolla *)
Definition isSome {A} (x : option A) : bool := match x with Some _ => true | None => false end.
(** an array with given elements; nothing is written for missing elements *)
Definition of_list (k : kind) (l : list (option value)) : darr := mkArr k l (map isSome l).
Definition empty_arr (k : kind) (n : nat) : darr := mkArr k (repeat None n) (repeat false n).
Definition const_arr (v : value) (n : nat) : darr := mkArr (kind_of v) (repeat (Some v) n) [].
Definition the_unit : value := val KUnit tt.
(** DenseArrayHasOp, DenseArrayPresenceNotOp *)
Definition arr_has (a : darr) : darr := mkArr KUnit (repeat (Some the_unit) (d_size a)) (d_bitmap a).
Definition arr_not (a : darr) : darr :=
  mkArr KUnit (repeat (Some the_unit) (d_size a)) (map (fun i => negb (d_present a i)) (seq 0 (d_size a))).
(** DenseArrayPresenceAndOp: the values are shared *)
Definition arr_and (a m : darr) : darr :=
  mkArr (d_kind a) (d_values a) (map (fun i => d_present a i && d_present m i) (seq 0 (d_size a))).
(** DenseArrayPresenceOrOp *)
Definition arr_or (a b : darr) : darr :=
  mkArr (d_kind a) (map (fun i => if d_present a i then nth i (d_values a) None else nth i (d_values b) None) (seq 0 (d_size a)))
    (map (fun i => d_present a i || d_present b i) (seq 0 (d_size a))).
(** DenseArrayPresentIndicesOp *)
Definition present_indices (m : darr) : list nat := filter (d_present m) (seq 0 (d_size m)).
(** DenseArrayAtOp; the indices are valid where it is used *)
Definition arr_at (a : darr) (idx : list nat) : darr := of_list (d_kind a) (map (d_get a) idx).
(** DenseArrayFromIndicesAndValues *)
Definition from_indices (idx : list nat) (a : darr) (n : nat) : darr :=
  of_list (d_kind a)
    (fold_left (fun l '(p, i) => upd p (d_get a i) l) (combine idx (seq 0 (d_size a))) (repeat None n)).

(** An edge from parents to children: the number of children of each parent.
    DenseArrayEdge is either split points or a mapping; the shapes of slices have split
    points, which are the sums of the sizes. *)
Definition edge : Type := list nat.
Definition parent_size (e : edge) : nat := length e.
Definition child_size (e : edge) : nat := list_sum e.
Fixpoint split_from (o : nat) (e : edge) : list nat :=
  match e with
  | [] => [o]
  | n :: r => o :: split_from (o + n) r
  end.
Definition split_points (e : edge) : list nat := split_from 0 e.
(** the children of each parent *)
Fixpoint chunks {A} (e : edge) (l : list A) : list (list A) :=
  match e with
  | [] => []
  | n :: r => firstn n l :: chunks r (skipn n l)
  end.
(** DenseArrayExpandOp *)
Definition arr_expand (a : darr) (e : edge) : darr :=
  of_list (d_kind a) (flat_map (fun i => repeat (d_get a i) (nth i e 0)) (seq 0 (d_size a))).
Definition elements (a : darr) : list (option value) := map (d_get a) (seq 0 (d_size a)).
(** DenseGroupOps<SimpleCountAggregator> *)
Definition count_groups (e : edge) (m : darr) : list nat :=
  map (fun g => length (filter isSome g)) (chunks e (elements m)).

(** ** DataSliceImpl::Create *)

(** data_slice.h:319-326 AddAllocIds *)
Definition add_alloc (s : allocs) (x : option value) : allocs :=
  match x with
  | Some (existT _ KObjectId o) => al_insert (allocation_of o) s
  | _ => s
  end.
Definition alloc_ids (a : darr) (s : allocs) : allocs := fold_left add_alloc (elements a) s.
(** 509-541 CreateImpl for one array *)
Definition create_impl (al : allocs) (a : darr) : slice :=
  if all_missing a then mkSlice (d_size a) None al [] [] []
  else mkSlice (d_size a) (Some (d_kind a)) al [a] [] [].
(** 543-554 *)
Definition create (a : darr) : slice :=
  if d_size a =? 0 then empty_slice else create_impl (alloc_ids a no_allocs) a.
(** 556-574 *)
Definition create_with (al : allocs) (a : darr) : slice :=
  if d_size a =? 0 then empty_slice
  else create_impl (match d_kind a with KObjectId => al | _ => no_allocs end) a.
(** data_slice.cc:156-170 *)
Definition create_const (n : nat) (x : option value) : slice :=
  match x with
  | None => empty_and_unknown n
  | Some v => match v with
              | existT _ KObjectId o => create_with (al_insert (allocation_of o) no_allocs) (const_arr v n)
              | _ => create (const_arr v n)
              end
  end.

Section Ops.
(** the order in which the entries of the map of a builder are visited *)
Variable visit : list (kind * storage) -> list (kind * storage).
Definition finish (b : bldr) : option slice := build (visit (b_map b)) b.
(** InsertIfNotSet<T>(array.bitmap, {}, array.values) *)
Definition insert_array (a : darr) (b : bldr) : option bldr :=
  insert_batch (d_kind a) (d_bitmap a) [] (d_values a) b.
(** data_slice.cc:134-143 *)
Definition create_items (l : list (option value)) : option slice :=
  if forallb (fun x => negb (isSome x)) l then Some (empty_and_unknown (length l)) else
  obind (ofold (fun '(i, x) b => if isSome x then insert_alloc i x b else Some b)
           (combine (seq 0 (length l)) l) (new_builder (length l) no_allocs)) finish.

(** has.cc:29-48, has.h:31-35 *)
Definition presence_array (ds : slice) : darr :=
  if is_empty_unknown ds then empty_arr KUnit (s_size ds) else
  match s_values ds with
  | [] => empty_arr KUnit (s_size ds)
  | a :: r => fold_left (fun res a => arr_or (arr_has a) res) r (arr_has a)
  end.
Definition has (ds : slice) : slice := create (presence_array ds).

(** presence_and.h:40-74 *)
Definition presence_and (ds mask : slice) : outcome slice :=
  if negb (s_size ds =? s_size mask) then Fails ESizes else
  if is_empty_unknown mask then of_opt (finish (new_builder (s_size ds) no_allocs)) else
  match s_dtype mask, s_values mask with
  | Some KUnit, m :: _ =>
      of_opt (obind (ofold (fun a b =>
                 let r := arr_and a m in
                 if all_missing r then Some b else
                 obind (insert_array r b) (fun b =>
                 Some (match d_kind a with KObjectId => set_alloc_ids b (s_allocs ds) | _ => b end)))
                (s_values ds) (new_builder (s_size ds) no_allocs)) finish)
  | _, _ => Fails EMask
  end.
(** 76-92 *)
Definition presence_and_item (ds : slice) (flag : option value) : outcome slice :=
  match flag with
  | None => Done (empty_and_unknown (s_size ds))
  | Some (existT _ KUnit _) => Done ds
  | Some _ => Fails EMask
  end.

(** presence_or.h:165-190 *)
Definition single_type_or (disjoint : bool) (l r : slice) : outcome slice :=
  match s_values l, s_values r with
  | [a], [b] =>
      let m := arr_or a b in
      if disjoint && negb (present_count a + present_count b =? present_count m) then Fails EOverlap else
      let al := match d_kind a with KObjectId => al_union (s_allocs l) (s_allocs r) | _ => no_allocs end in
      of_opt (obind (insert_array m (new_builder (s_size l) al)) finish)
  | _, _ => Undefined
  end.
Definition same_dtype (l r : slice) : bool :=
  match s_dtype l, s_dtype r with
  | Some a, Some b => if kind_eq_dec a b then true else false
  | None, None => true
  | _, _ => false
  end.
Definition of_kind (k : kind) (s : slice) : option darr :=
  find (fun a => if kind_eq_dec (d_kind a) k then true else false) (s_values s).
(** 57-136 *)
Definition presence_or (disjoint : bool) (l r : slice) : outcome slice :=
  if negb (s_size l =? s_size r) then Fails ESizes else
  if slice_count r =? 0 then Done l else
  if is_empty_unknown l then Done r else
  if negb (is_mixed l) && negb (is_mixed r) && same_dtype l r then single_type_or disjoint l r else
  let missing := if is_mixed l
                 then match s_values (has l) with [m] => Some (arr_not m) | _ => None end
                 else match s_values l with [a] => Some (arr_not a) | _ => None end in
  match missing with
  | None => Undefined
  | Some missing =>
      bind_out (presence_and r (create missing)) (fun r' =>
      if disjoint && negb (slice_count r =? slice_count r') then Fails EOverlap else
      if slice_count r' =? 0 then Done l else
      of_opt (obind (ofold (fun a b =>
                        match of_kind (d_kind a) r' with
                        | Some a' => insert_array (arr_or a a') b
                        | None => insert_array a b
                        end) (s_values l) (new_builder (s_size l) (al_union (s_allocs l) (s_allocs r'))))
              (fun b => obind (ofold (fun a b =>
                        match of_kind (d_kind a) l with
                        | Some _ => Some b
                        | None => insert_array a b
                        end) (s_values r') b) finish)))
  end.
(** 138-149 *)
Definition presence_or_item (disjoint : bool) (l : slice) (x : option value) : outcome slice :=
  if disjoint && negb (is_empty_unknown l) && isSome x then Fails EOverlap else
  if (s_size l =? slice_count l) || negb (isSome x) then Done l else
  presence_or disjoint l (create_const (s_size l) x).

(** coalesce_with_filtered.h:27-35 *)
Definition coalesce_with_filtered (filter l r : slice) : outcome slice :=
  bind_out (presence_and r (has filter)) (presence_or false l).

(** at.cc:36-84 *)
Definition at_fn (a : darr) (id : option Z) : option value :=
  match id with
  | None => None
  | Some id =>
      let size := Z.of_nat (d_size a) in
      let id := if (id <? 0)%Z then (id + size)%Z else id in
      if (id <? 0)%Z || (size <=? id)%Z || negb (d_present a (Z.to_nat id)) then None
      else nth (Z.to_nat id) (d_values a) None
  end.
Definition at_ (ds : slice) (idx : list (option Z)) : outcome slice :=
  if is_empty_unknown ds then Done (empty_and_unknown (length idx)) else
  match s_values ds with
  | [a] => Done (create_with (s_allocs ds) (of_list (d_kind a) (map (at_fn a) idx)))
  | vs => of_opt (obind (ofold (fun a => insert_array (of_list (d_kind a) (map (at_fn a) idx))) vs
                           (new_builder (length idx) (s_allocs ds))) finish)
  end.

(** expand.h:41-56 *)
Definition expand (ds : slice) (e : edge) : outcome slice :=
  of_opt (obind (ofold (fun a => insert_array (arr_expand a e)) (s_values ds)
             (new_builder (child_size e) (al_union no_allocs (s_allocs ds)))) finish).
(** 58-76 *)
Definition expand_item (x : option value) (e : edge) : slice :=
  match x with
  | None => empty_and_unknown (child_size e)
  | Some v => match v with
              | existT _ KObjectId o =>
                  create_with (al_insert (allocation_of o) no_allocs) (const_arr v (child_size e))
              | _ => create (const_arr v (child_size e))
              end
  end.

(** collapse.h:42-69. [eqb]: equality of two values of the same type (of DataItems if
    the slice is mixed) *)
Variable eqb : value -> value -> bool.
Definition collapse_group (g : list (option value)) : option value :=
  match flat_map (fun x => match x with Some v => [v] | None => [] end) g with
  | [] => None
  | v :: r => if forallb (eqb v) r then Some v else None
  end.
Definition collapse (ds : slice) (e : edge) : outcome slice :=
  if is_empty_unknown ds then Done (empty_and_unknown (parent_size e)) else
  match s_values ds with
  | [a] => Done (create (of_list (d_kind a) (map collapse_group (chunks e (elements a)))))
  | _ => of_opt (create_items (map collapse_group (chunks e (as_items ds))))
  end.

(** ** Shapes: arolla::JaggedDenseArrayShape is the list of its edges *)
Definition shape : Type := list edge.
Fixpoint shape_from (n : nat) (sh : shape) : bool :=
  match sh with
  | [] => true
  | e :: r => (parent_size e =? n) && shape_from (child_size e) r
  end.
(** JaggedDenseArrayShape::FromEdges *)
Definition from_edges (sh : shape) : outcome shape :=
  if shape_from 1 sh then Done sh else Fails EShape.
Definition edge_eqb (a b : edge) : bool := if list_eq_dec Nat.eq_dec a b then true else false.
Fixpoint shape_eqb (a b : shape) : bool :=
  match a, b with
  | [], [] => true
  | x :: a, y :: b => edge_eqb x y && shape_eqb a b
  | _, _ => false
  end.
(** IsBroadcastableTo: the edges are the first edges of the other shape *)
Definition broadcastable (a b : shape) : bool :=
  (length a <=? length b) && shape_eqb a (firstn (length a) b).

(** select.cc:64-76 SelectPresentEdge *)
Definition select_edge (e : edge) (m : darr) : edge := map (fun i => nth i e 0) (present_indices m).
(** 137-149: the dimensions below the one of the filter *)
Fixpoint select_below (es : shape) (m : darr) : shape * darr :=
  match es with
  | [] => ([], m)
  | e :: r => let '(es', m') := select_below r (arr_expand m e) in (select_edge e m :: es', m')
  end.
(** 120-127 *)
Definition mask_array (filter : slice) : outcome darr :=
  if slice_count filter =? 0 then Done (empty_arr KUnit (s_size filter)) else
  match s_dtype filter, s_values filter with
  | Some KUnit, m :: _ => Done m
  | _, _ => Fails EMask
  end.
(** 91-170 *)
Definition select (ds : slice) (sh : shape) (filter : slice) (fsh : shape) : outcome (slice * shape) :=
  if length fsh <? 1 then Fails ERank else
  if length sh <? length fsh then Fails ERank else
  if negb (broadcastable fsh sh) then Fails EBroadcast else
  bind_out (mask_array filter) (fun m =>
  let r := length fsh - 1 in
  match skipn r sh with
  | [] => Undefined
  | e :: below =>
      let '(es, m') := select_below below m in
      bind_out (from_edges (firstn r sh ++ count_groups e m :: es)) (fun sh' =>
      let idx := present_indices m' in
      bind_out (of_opt (obind (ofold (fun a => insert_array (arr_at a idx)) (s_values ds)
                          (new_builder (present_count m') (s_allocs ds))) finish)) (fun s =>
      Done (s, sh')))
  end).

(** inverse_select.h:48-102 *)
Definition inverse_select (ds : slice) (sh : shape) (filter : slice) (fsh : shape) : outcome slice :=
  bind_out (mask_array filter) (fun m =>
  match rev fsh with
  | [] => Undefined
  | last :: before =>
      bind_out (from_edges (rev before ++ [count_groups last m])) (fun sh' =>
      if negb (shape_eqb sh' sh) then Fails EShape else
      of_opt (obind (ofold (fun a => insert_array (from_indices (present_indices m) a (d_size m)))
                 (s_values ds) (new_builder (d_size m) (s_allocs ds))) finish))
  end).

(** reverse.cc:30-53. [advance]: the loop over the split points; they are not to end. *)
Fixpoint advance (sp : list nat) (offset : nat) : option (list nat) :=
  match sp with
  | s0 :: (s1 :: _) as rest => if s1 <=? offset then advance rest offset else Some sp
  | _ => None
  end.
Definition reverse_step (a : darr) (offset : nat) (st : list nat * list (option value))
    : option (list nat * list (option value)) :=
  obind (advance (fst st) offset) (fun sp =>
  match sp with
  | s0 :: s1 :: _ => Some (sp, upd (s0 + (s1 - offset - 1)) (nth offset (d_values a) None) (snd st))
  | _ => None
  end).
Definition reverse_array (e : edge) (a : darr) : option darr :=
  obind (ofold (reverse_step a) (filter (d_present a) (seq 0 (d_size a)))
           (split_points e, repeat None (d_size a)))
    (fun st => Some (of_list (d_kind a) (snd st))).
Definition reverse (ds : slice) (sh : shape) : outcome slice :=
  if is_empty_unknown ds then Done ds else
  match rev sh with
  | [] => Done ds
  | e :: _ =>
      of_opt (obind (ofold (fun a b => obind (reverse_array e a) (fun a => insert_array a b)) (s_values ds)
                 (new_builder (s_size ds) no_allocs)) finish)
  end.
End Ops.
