(** What slicing should return: the items as nested lists, x.S[a, b] as x[a][b]. *)
From Coq Require Import NArith ZArith List Bool Arith.
From Verif Require Import ObjectIdModel SchemaModel ItemModel SliceModel SliceSpec SliceOpsModel SliceOpsSpec SubsliceModel.
Import ListNotations.
Local Open Scope nat_scope.

(** ** Alignment of shapes *)
Definition edge_dec : forall a b : edge, {a = b} + {a <> b} := list_eq_dec Nat.eq_dec.
Definition is_prefix (s c : shape) : bool := if list_eq_dec edge_dec (firstn (length s) c) s then true else false.
(** the shape that all of them are prefixes of *)
Definition aligned (l : list shape) : option shape := find (fun c => forallb (fun s => is_prefix s c) l) l.
(** each element for all that is below it *)
Definition below_it {A} (l : list A) (e : edge) : list A := concat (map2 (fun x n => repeat x n) l e).
Definition stretched {A} (l : list A) (from to_ : shape) : list A := fold_left below_it (skipn (length from) to_) l.

(** ** Lists: a missing list has no items *)
Definition nth_child (l : list tree) (z : Z) : option tree :=
  let n := Z.of_nat (length l) in
  if (0 <=? z)%Z && (z <? n)%Z then nth_error l (Z.to_nat z)
  else if (- n <=? z)%Z && (z <? 0)%Z then nth_error l (Z.to_nat (z + n))
  else None.
Definition children (t : tree) : list tree := match t with Node l => l | Leaf _ => [] end.
(** t[i] *)
Definition child_of (t : option tree) (i : option Z) : option tree :=
  match t, i with
  | Some t, Some z => nth_child (children t) z
  | _, _ => None
  end.
(** a bound of a range: negative ones count from the end, others end there *)
Definition position (n : nat) (z : Z) : nat := Z.to_nat (if (z <? 0)%Z then z + Z.of_nat n else Z.min z (Z.of_nat n))%Z.
(** t[a:b]: a bound that is not given is the end of the list; with a bound that is
    missing there are no items *)
Definition range_of (t : option tree) (a b : option (option Z)) : list tree :=
  match t with
  | None => []
  | Some t =>
      let l := children t in
      let n := length l in
      match match a with None => Some 0 | Some z => option_map (position n) z end,
            match b with None => Some n | Some z => option_map (position n) z end with
      | Some a, Some b => firstn (b - a) (skipn a l)
      | _, _ => []
      end
  end.

(** ** A slice of nested lists *)
Definition lists : Type := shape * list (option tree).
(** the items of a bound for each position *)
Definition bounds (x : option index) (sh : shape) (n : nat) : outcome (list (option (option Z))) :=
  match x with
  | None => Done (repeat None n)
  | Some x => bind_out (to_ints (x_castable x) (stretched (x_items x) (x_shape x) sh)) (fun l => Done (map Some l))
  end.
Fixpoint map3 {A B C D} (f : A -> B -> C -> D) (l : list A) (m : list B) (n : list C) : list D :=
  match l, m, n with
  | x :: l, y :: m, z :: n => f x y z :: map3 f l m n
  | _, _, _ => []
  end.
Definition taken (ls : lists) (a : arg) : outcome lists :=
  match a with
  | Single x =>
      match aligned [fst ls; x_shape x] with
      | None => Fails EBroadcast
      | Some sh =>
          bind_out (to_ints (x_castable x) (stretched (x_items x) (x_shape x) sh)) (fun z =>
          Done (sh, map2 child_of (stretched (snd ls) (fst ls) sh) z))
      end
  | Range start stop =>
      match aligned (fst ls :: opt_shape start ++ opt_shape stop) with
      | None => Fails EBroadcast
      | Some sh =>
          let ts := stretched (snd ls) (fst ls) sh in
          bind_out (bounds start sh (length ts)) (fun a =>
          bind_out (bounds stop sh (length ts)) (fun b =>
          let rs := map3 range_of ts a b in
          Done (sh ++ [map (@length tree) rs], map Some (concat rs))))
      end
  end.
Fixpoint all_taken (ls : lists) (args : list arg) : outcome lists :=
  match args with
  | [] => Done ls
  | a :: r => bind_out (taken ls a) (fun ls => all_taken ls r)
  end.
Definition item_in (t : option tree) : option value := match t with Some (Leaf x) => x | _ => None end.
(** x[a][b]...: the last dimensions of x are the lists, one for each argument *)
Definition sliced (l : list (option value)) (sh : shape) (args : list arg) : outcome (shape * list (option value)) :=
  if length sh <? length args then Fails EMany else
  let r := length sh - length args in
  bind_out (all_taken (firstn r sh, map Some (forest (skipn r sh) l)) args) (fun ls =>
  Done (fst ls, map item_in (snd ls))).

(** an index has an item for each position of its shape *)
Definition index_ok (x : index) : Prop := fits 1 (x_shape x) (length (x_items x)).
Definition arg_ok (a : arg) : Prop :=
  match a with
  | Single x => index_ok x
  | Range a b => (forall x, a = Some x -> index_ok x) /\ (forall x, b = Some x -> index_ok x)
  end.
(** the outcome of an operator on slices is that on the items *)
Definition same_outcome (r : outcome (slice * shape)) (x : outcome (shape * list (option value))) : Prop :=
  match x with
  | Done (sh, l) => exists s, r = Done (s, sh) /\ good_slice s /\ s_size s = length l /\ items s = l /\ fits 1 sh (length l)
  | Fails e => r = Fails e
  | Undefined => False
  end.

(** ** Operators *)

(** the arguments of kd.subslice with the ellipsis (at the beginning, if there is none)
    replaced by ranges without bounds *)
Fixpoint split_ellipsis (l : list parg) : list arg * option (list parg) :=
  match l with
  | [] => ([], None)
  | Ellipsis :: r => ([], Some r)
  | Arg a :: r => (a :: fst (split_ellipsis r), snd (split_ellipsis r))
  end.
Definition filled (rank : nat) (l : list parg) : list arg :=
  match split_ellipsis l with
  | (before, Some after) => before ++ repeat full (rank - length (before ++ args_of after)) ++ args_of after
  | (args, None) => repeat full (rank - length args) ++ args
  end.
Definition ellipses (l : list parg) : nat := length (filter (fun a => match a with Ellipsis => true | _ => false end) l).
Definition parg_ok (a : parg) : Prop := match a with Arg a => arg_ok a | Ellipsis => True end.
(** lists where the target is present, empty ones where it is missing *)
Definition list_or_empty (t : tree) (x : option value) : tree := match x with Some _ => t | None => Node [] end.
