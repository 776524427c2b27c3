(** What the operators on slices should return, in terms of the items of the slices. *)
From Coq Require Import NArith ZArith List Bool Arith.
From Verif Require Import ObjectIdModel SchemaModel ItemModel SliceModel SliceSpec SliceOpsModel.
Import ListNotations.
Local Open Scope nat_scope.

(** A slice that is well-formed and knows the allocations of its objects *)
Definition good_slice (s : slice) : Prop := slice_wf s /\ allocs_wf s /\ allocs_ok (s_allocs s).

Fixpoint map2 {A B C} (f : A -> B -> C) (l : list A) (m : list B) : list C :=
  match l, m with
  | x :: l, y :: m => f x y :: map2 f l m
  | _, _ => []
  end.
(** ** Operators that act on each position *)
Definition has_item (x : option value) : option value := match x with Some _ => Some the_unit | None => None end.
Definition masked (x m : option value) : option value := match m with Some _ => x | None => None end.
Definition either (x y : option value) : option value := match x with Some _ => x | None => y end.
Definition is_mask (l : list (option value)) : Prop := Forall (fun m => m = None \/ m = Some the_unit) l.
(** both have a value somewhere *)
Definition overlap (l m : list (option value)) : Prop :=
  exists i, nth i l None <> None /\ nth i m None <> None.

(** ** Indices: negative ones count from the end *)
Definition item_at_index (l : list (option value)) (id : option Z) : option value :=
  match id with
  | None => None
  | Some z =>
      let n := Z.of_nat (length l) in
      if (0 <=? z)%Z && (z <? n)%Z then nth (Z.to_nat z) l None
      else if (- n <=? z)%Z && (z <? 0)%Z then nth (Z.to_nat (z + n)) l None
      else None
  end.

(** ** Groups *)
Definition expanded (l : list (option value)) (e : edge) : list (option value) :=
  concat (map2 (fun x n => repeat x n) l e).

(** ** Nested data: the items of a slice with its shape *)
Inductive tree := Leaf (x : option value) | Node (children : list tree).
Definition group (e : edge) (f : list tree) : list tree := map Node (chunks e f).
Definition forest (sh : shape) (l : list (option value)) : list tree := fold_right group (map Leaf l) sh.
(** the edges of a shape fit, and the last dimension has n items *)
Fixpoint fits (roots : nat) (sh : shape) (n : nat) : Prop :=
  match sh with
  | [] => n = roots
  | e :: r => length e = roots /\ fits (list_sum e) r n
  end.
(** the elements at which the mask is present *)
Fixpoint kept {A} (ms : list (option value)) (l : list A) : list A :=
  match ms, l with
  | m :: ms, x :: l => match m with Some _ => x :: kept ms l | None => kept ms l end
  | _, _ => []
  end.
(** items one after the other where the mask is present *)
Fixpoint spread (ms l : list (option value)) : list (option value) :=
  match ms with
  | [] => []
  | None :: ms => None :: spread ms l
  | Some _ :: ms => match l with x :: l => x :: spread ms l | [] => None :: spread ms [] end
  end.
(** the values of a group are the same as the first one, v *)
Definition collapses (eqb : value -> value -> bool) (g : list (option value)) (v : value) : Prop :=
  exists g1 g2, g = g1 ++ Some v :: g2 /\ (forall x, In x g1 -> x = None) /\
    forall w, In (Some w) g2 -> eqb v w = true.
