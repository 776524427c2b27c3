(** * What the operations on views are supposed to do.

    Positions in a nested tuple are lists of indices.  Nothing here mentions
    how the operations are computed. *)

From Coq Require Import List Arith Bool ZArith Permutation.
From Verif Require Import ViewModel.
Import ListNotations.
Local Open Scope nat_scope.

(** The object at a position. *)
Fixpoint at_ (p : list nat) (o : obj) : option obj :=
  match p with
  | [] => Some o
  | i :: p' =>
      match o with
      | PTuple xs =>
          match nth_error xs i with
          | Some x => at_ p' x
          | None => None
          end
      | _ => None
      end
  end.

(** The first [d] levels of the object are tuples. *)
Fixpoint shaped (d : nat) (o : obj) : Prop :=
  match d with
  | O => True
  | S d' => exists xs, o = PTuple xs /\ Forall (shaped d') xs
  end.

(** What [View] assumes of its fields (view.py:191-193). *)
Definition good (v : view) : Prop := shaped (v_depth v) (v_obj v).

(** The items [d] levels down, depth first. *)
Fixpoint leaves (d : nat) (o : obj) : list obj :=
  match d with
  | O => [o]
  | S d' => match o with
            | PTuple xs => flat_map (leaves d') xs
            | _ => []
            end
  end.

(** Their positions, in the same order. *)
Fixpoint positions (d : nat) (o : obj) : list (list nat) :=
  match d with
  | O => [[]]
  | S d' =>
      match o with
      | PTuple xs =>
          flat_map (fun ix => map (cons (fst ix)) (positions d' (snd ix)))
                   (combine (seq 0 (length xs)) xs)
      | _ => []
      end
  end.

(** The views have the same shape as far down as both reach. *)
Definition aligned (vs : list view) : Prop :=
  forall v w p xs,
    In v vs -> In w vs ->
    length p < v_depth v -> length p < v_depth w ->
    at_ p (v_obj v) = Some (PTuple xs) ->
    exists ys, at_ p (v_obj w) = Some (PTuple ys) /\ length ys = length xs.

(** The items that the views have at a position, a view of smaller depth
    standing for all positions below its items. *)
Definition row (vs : list view) (p : list nat) (xs : list obj) : Prop :=
  Forall2 (fun v x => at_ (firstn (v_depth v) p) (v_obj v) = Some x) vs xs.

(** The depth of the result of combining views. *)
Definition depth_of (vs : list view) : nat := list_max (map v_depth vs).

(** What applying the function to the items gives: a missing item makes the
    result missing, unless missing items are included. *)
Definition applied (f : list obj -> outcome obj) (include_missing : bool)
    (xs : list obj) (y : obj) : Prop :=
  if include_missing then f xs = Ok y
  else (In PNone xs /\ y = PNone) \/ (~ In PNone xs /\ f xs = Ok y).

(** A Python function that depends on its arguments only. *)
Definition pure (f : list obj -> outcome obj) : list obj -> M obj :=
  fun xs h => (h, f xs).

(** Values allowed in a filter. *)
Definition mask (o : obj) : Prop := o = PPresent \/ o = PNone.

(** The items whose filter is present. *)
Fixpoint kept (xs fs : list obj) : list obj :=
  match xs, fs with
  | x :: xs', PPresent :: fs' => x :: kept xs' fs'
  | _ :: xs', _ :: fs' => kept xs' fs'
  | _, _ => []
  end.

(** The items whose filter is present, with the others missing. *)
Fixpoint masked (xs fs : list obj) : list obj :=
  match xs, fs with
  | x :: xs', PPresent :: fs' => x :: masked xs' fs'
  | _ :: xs', _ :: fs' => PNone :: masked xs' fs'
  | _, _ => []
  end.

(** The filters of the [n] items below position [p]; a filter of smaller depth
    stands for all positions below its items. *)
Definition filters_at (fltr : view) (p : list nat) (n : nat) (fs : list obj)
  : Prop :=
  length fs = n /\
  forall i b, nth_error fs i = Some b ->
    at_ (firstn (v_depth fltr) (p ++ [i])) (v_obj fltr) = Some b.

(** The same positions occur down to depth [d]. *)
Definition same_shape (d : nat) (o o' : obj) : Prop :=
  forall p, length p <= d ->
    ((exists x, at_ p o = Some x) <-> (exists x, at_ p o' = Some x)).

(** A dimension given by the user: negative numbers count from the end, and
    numbers out of range are clipped. *)
Definition clipped (z : Z) (depth : nat) : nat :=
  Z.to_nat (Z.min (if (z <? 0)%Z then z + Z.of_nat depth else z)
                  (Z.of_nat depth)).

(** The elements of an iterable; [None] has none, and some objects cannot be
    iterated at all. *)
Definition elements (iterate : Z -> option (list obj)) (h : heap) (x : obj)
  : option (list obj) :=
  match x with
  | PNone => Some []
  | PTuple xs => Some xs
  | PRef l => nth_error h l
  | PAtom z => iterate z
  | PPresent => None
  end.

(** Nothing that was on the heap has changed; lists may have been added. *)
Definition heap_grew (h h' : heap) : Prop := exists new, h' = h ++ new.

(** ** Grouping *)

Section Groups.
Variable same_key : list obj -> list obj -> bool.

(** Keys in order of first occurrence, without repetitions. *)
Fixpoint distinct (seen : list (list obj)) (ks : list (list obj))
  : list (list obj) :=
  match ks with
  | [] => []
  | k :: ks' =>
      if existsb (fun s => same_key s k) seen then distinct seen ks'
      else k :: distinct (seen ++ [k]) ks'
  end.

(** The items with a given key, in order. *)
Definition with_key (k : list obj) (kxs : list (list obj * obj)) : list obj :=
  map snd (filter (fun kx => same_key k (fst kx)) kxs).

(** The groups of items with their keys; a key with a missing part drops the
    item. *)
Definition present_rows (kxs : list (list obj * obj))
  : list (list obj * obj) :=
  filter (fun kx => negb (existsb is_none (fst kx))) kxs.

Definition grouped (kxs : list (list obj * obj))
  : list (list obj * list obj) :=
  map (fun k => (k, with_key k (present_rows kxs)))
      (distinct [] (map fst (present_rows kxs))).
End Groups.

(** The keys of the items [xs] below position [p]: the items of the key views
    at the same places, or the item itself if there are no key views. *)
Definition keyed (keys : list view) (p : list nat) (xs : list obj)
    (kxs : list (list obj * obj)) : Prop :=
  length kxs = length xs /\
  forall i x, nth_error xs i = Some x ->
    exists k, nth_error kxs i = Some (k, x) /\
      match keys with
      | [] => k = [x]
      | _ => Forall2 (fun kv y => at_ (p ++ [i]) (v_obj kv) = Some y) keys k
      end.

(** The common value of the items that are not missing. *)
Definition common (py_eq : obj -> obj -> bool) (xs : list obj) : obj :=
  match filter (fun x => negb (is_none x)) xs with
  | [] => PNone
  | y :: ys => if forallb (py_eq y) ys then y else PNone
  end.

(** [xs] put back at the places whose filter is present. *)
Definition filled (xs fs ys : list obj) : Prop :=
  Forall mask fs /\ length ys = length fs /\ kept ys fs = xs /\
  masked ys fs = ys.

(** [w] is [v] repeated down to depth [D]. *)
Definition aligned_to (D : nat) (v w : view) : Prop :=
  v_depth v <= D /\ v_depth w = D /\ good w /\
  (forall p, length p = D -> (exists y, at_ p (v_obj w) = Some y) ->
     at_ p (v_obj w) = at_ (firstn (v_depth v) p) (v_obj v)).

(** The end of the range of dimensions to flatten. *)
Definition last_dim (from : nat) (to_dim : option Z) (d : nat) : nat :=
  match to_dim with
  | None => d
  | Some t => Nat.max from (clipped t d)
  end.
