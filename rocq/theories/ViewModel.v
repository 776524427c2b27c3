(** * kv views: jagged nested structures and the operations on them.

    Models py/koladata/ext/view/view.py and py/koladata/ext/view/clib.cc.

    A Python object is [None], the mask constant [present], a tuple, a
    reference to a mutable list, or any other object.  Python lists live in a
    heap because [View.flatten] works by appending to fresh lists.  A Python
    computation takes the heap, and returns the new heap together with a value
    or the exception raised. *)

From Coq Require Import List Arith Bool ZArith.
Import ListNotations.
Local Open Scope nat_scope.

(** Python objects, as far as the views look at them.  view.py:38-46,
    mask_constants.py:22-31.  [PRef l] is the mutable list at heap address
    [l]; [PAtom z] is any other object. *)
Inductive obj : Type :=
| PNone
| PPresent
| PTuple (items : list obj)
| PRef (address : nat)
| PAtom (z : Z).

(** Exceptions raised.  [Unreachable] is no Python exception: the model raises
    it where the code has no branch at all. *)
Inductive exn : Type :=
| NotATuple          (* clib.cc:41-46 *)
| TupleLengths       (* clib.cc:51-57 *)
| DepthCount         (* clib.cc:157-163 *)
| NoArguments        (* clib.cc:164-166 *)
| NotIterable        (* tuple(x) of an object that is no iterable *)
| NegativeDims       (* view.py:283-287, 432-436 *)
| TooManyDims        (* view.py:369-372, 916-921, 554-558 *)
| DepthTooLarge      (* view.py:446-449, 564-567 *)
| NotMask            (* view.py:94, 107, 121, 144 *)
| ZipStrict          (* zip(..., strict=True) *)
| CountMismatch      (* view.py:131-134 *)
| ScalarView         (* view.py:536-539, 573-576, 596-599 *)
| FilterScalar       (* view.py:577-579 *)
| DepthsDiffer       (* view.py:541-543, 592-595 *)
| MissingNeedsNdim0  (* view.py:887-888 *)
| Unhashable
| NotAList           (* x.append on something that has none *)
| Raised (z : Z)     (* raised by a function of the user *)
| Unreachable.

Inductive outcome (A : Type) : Type :=
| Ok (a : A)
| Raise (e : exn).
Arguments Ok {A} a.
Arguments Raise {A} e.

Definition heap : Type := list (list obj).

Definition M (A : Type) : Type := heap -> heap * outcome A.

Definition ret {A} (a : A) : M A := fun h => (h, Ok a).
Definition raise {A} (e : exn) : M A := fun h => (h, Raise e).
Definition bind {A B} (m : M A) (k : A -> M B) : M B :=
  fun h => match m h with
           | (h', Ok a) => k a h'
           | (h', Raise e) => (h', Raise e)
           end.

(** Calls in order, stopping at the first exception. *)
Fixpoint mapM {A B} (f : A -> M B) (l : list A) : M (list B) :=
  match l with
  | [] => ret []
  | a :: l' => bind (f a) (fun b => bind (mapM f l') (fun bs => ret (b :: bs)))
  end.

Definition is_none (o : obj) : bool :=
  match o with PNone => true | _ => false end.

Definition is_present (o : obj) : bool :=
  match o with PPresent => true | _ => false end.

(** ** map_structures *)

(** clib.cc:36-59.  The loop that finds the common length of the arguments
    that are not scalars at this depth. *)
Fixpoint scan_lengths (cur : nat) (args : list (nat * obj))
    (max_len : option nat) : outcome (option nat) :=
  match args with
  | [] => Ok max_len
  | (d, a) :: rest =>
      if d <=? cur then scan_lengths cur rest max_len
      else
        match a with
        | PTuple xs =>
            match max_len with
            | None => scan_lengths cur rest (Some (length xs))
            | Some m =>
                if length xs =? m then scan_lengths cur rest max_len
                else Raise TupleLengths
            end
        | _ => Raise NotATuple
        end
  end.

(** clib.cc:72-77 and 84-88.  The arguments of the call for position [i]:
    scalars are passed on, tuples give their [i]-th item. *)
Fixpoint pick (cur i : nat) (args : list (nat * obj))
  : option (list (nat * obj)) :=
  match args with
  | [] => Some []
  | (d, a) :: rest =>
      let item :=
        if d <=? cur then Some a
        else match a with PTuple xs => nth_error xs i | _ => None end in
      match item, pick cur i rest with
      | Some o, Some rest' => Some ((d, o) :: rest')
      | _, _ => None
      end
  end.

(** clib.cc:60-70.  All arguments are scalars. *)
Definition call (f : list obj -> M obj) (include_missing : bool)
    (args : list obj) : M obj :=
  if negb include_missing && existsb is_none args then ret PNone else f args.

(** clib.cc:32-97.  [left] only drives the recursion: it starts at the largest
    depth and is never exhausted. *)
Fixpoint map_impl (f : list obj -> M obj) (include_missing : bool)
    (left cur : nat) (args : list (nat * obj)) : M obj :=
  match scan_lengths cur args None with
  | Raise e => raise e
  | Ok None => call f include_missing (map snd args)
  | Ok (Some len) =>
      match left with
      | O => raise Unreachable
      | S left' =>
          bind
            (mapM
               (fun i =>
                  match pick cur i args with
                  | Some args' =>
                      map_impl f include_missing left' (S cur) args'
                  | None => raise Unreachable
                  end)
               (seq 0 len))
            (fun results => ret (PTuple results))
      end
  end.

(** clib.cc:99-195.  The checks of argument types are left out, since depths
    are numbers here and arguments objects; keyword names do not change which
    values are passed. *)
Definition map_structures (f : list obj -> M obj) (depths : list nat)
    (include_missing : bool) (args : list obj) : M obj :=
  if negb (length depths =? length args) then raise DepthCount
  else match depths with
       | [] => raise NoArguments
       | _ => map_impl f include_missing (list_max depths) 0
                (combine depths args)
       end.

(** ** Views *)

(** view.py:159-202. *)
Record view : Type := View { v_obj : obj; v_depth : nat }.

(** view.py:674-720. *)
Definition make_view (o : obj) : view := View o 0.

(** view.py:808-814. *)
Definition map1 (f : obj -> M obj) (include_missing : bool) (v : view)
  : M view :=
  bind (map_structures
          (fun args => match args with [x] => f x | _ => raise Unreachable end)
          [v_depth v] include_missing [v_obj v])
       (fun o => ret (View o (v_depth v))).

(** view.py:817-834.  A plain value is passed as a view of depth 0, which is
    what lines 827-829 make of it. *)
Definition map2 (f : obj -> obj -> M obj) (include_missing : bool)
    (v w : view) : M view :=
  bind (map_structures
          (fun args =>
             match args with [x; y] => f x y | _ => raise Unreachable end)
          [v_depth v; v_depth w] include_missing [v_obj v; v_obj w])
       (fun o => ret (View o (Nat.max (v_depth v) (v_depth w)))).

(** view.py:361-373. *)
Definition implode (ndim : Z) (v : view) : outcome view :=
  if (ndim <? 0)%Z then Ok (View (v_obj v) 0)
  else if (ndim <=? Z.of_nat (v_depth v))%Z
       then Ok (View (v_obj v) (v_depth v - Z.to_nat ndim))
       else Raise TooManyDims.

Definition lift {A} (r : outcome A) : M A := fun h => (h, r).

Section Iterables.

(** What iterating an object that is neither a tuple nor a list gives: the
    items, or [None] if it cannot be iterated.  (A string gives its
    characters, a dict its keys.) *)
Variable iterate : Z -> option (list obj).

(** The builtin tuple(x). *)
Definition to_tuple (x : obj) : M obj :=
  fun h =>
    match x with
    | PTuple xs => (h, Ok (PTuple xs))
    | PRef l =>
        match nth_error h l with
        | Some xs => (h, Ok (PTuple xs))
        | None => (h, Raise Unreachable)
        end
    | PAtom z =>
        match iterate z with
        | Some xs => (h, Ok (PTuple xs))
        | None => (h, Raise NotIterable)
        end
    | PNone | PPresent => (h, Raise NotIterable)
    end.

(** view.py:291. *)
Definition explode_fn (x : obj) : M obj :=
  if is_none x then ret (PTuple []) else to_tuple x.

(** view.py:293-296. *)
Fixpoint explode_times (n : nat) (v : view) : M view :=
  match n with
  | O => ret v
  | S n' =>
      bind (map1 explode_fn true v)
           (fun r => explode_times n' (View (v_obj r) (S (v_depth r))))
  end.

(** view.py:281-296. *)
Definition explode (ndim : Z) (v : view) : M view :=
  if (ndim <? 0)%Z then raise NegativeDims
  else explode_times (Z.to_nat ndim) v.

(** view.py:418: the expression [[]]. *)
Definition new_list : M obj := fun h => (h ++ [[]], Ok (PRef (length h))).

Fixpoint update_nth {A} (n : nat) (f : A -> A) (l : list A) : list A :=
  match l, n with
  | [], _ => []
  | a :: l', O => f a :: l'
  | a :: l', S n' => a :: update_nth n' f l'
  end.

(** view.py:419: x.append(y). *)
Definition append (x y : obj) : M obj :=
  fun h =>
    match x with
    | PRef l =>
        if l <? length h
        then (update_nth l (fun xs => xs ++ [y]) h, Ok PNone)
        else (h, Raise Unreachable)
    | _ => (h, Raise NotAList)
    end.

(** view.py:405-407. *)
Definition flatten_from (from_dim : Z) (depth : nat) : Z :=
  let d := Z.of_nat depth in
  let f := if (from_dim <? 0)%Z then (from_dim + d)%Z else from_dim in
  Z.max 0 (Z.min f d).

(** view.py:408-413. *)
Definition flatten_to (from_dim : Z) (to_dim : option Z) (depth : nat) : Z :=
  let d := Z.of_nat depth in
  match to_dim with
  | None => d
  | Some t =>
      let t := if (t <? 0)%Z then (t + d)%Z else t in
      Z.max from_dim (Z.min t d)
  end.

(** view.py:403-427. *)
Definition flatten (from_dim : Z) (to_dim : option Z) (v : view) : M view :=
  let d := Z.of_nat (v_depth v) in
  let f := flatten_from from_dim (v_depth v) in
  let t := flatten_to f to_dim (v_depth v) in
  if (f + 1 =? t)%Z then ret v
  else
    bind (lift (implode (d - f) v)) (fun inner =>
    bind (lift (implode (d - t) v)) (fun outer =>
    bind (map1 (fun _ => new_list) true inner) (fun res =>
    bind (map2 append true res outer) (fun _ =>
    bind (explode 1 res) (fun tuples =>
    ret (View (v_obj tuples) (Z.to_nat (d - (t - f) + 1)))))))).

(** view.py:429-453.  [same] tells whether [other] is the same Python object
    as [self]. *)
Definition expand_to (same : bool) (other : view) (ndim : Z) (v : view)
  : M view :=
  if negb (ndim =? 0)%Z && (ndim <? 0)%Z then raise NegativeDims
  else
    if (ndim =? 0)%Z && same then ret v
    else
      bind (lift (if (ndim =? 0)%Z then Ok v else implode ndim v)) (fun res =>
      if v_depth res <=? v_depth other then
        bind (map2 (fun x _ => ret x) true res other) (fun r =>
        if (ndim =? 0)%Z then ret r
        else ret (View (v_obj r) (v_depth r + Z.to_nat ndim)))
      else raise DepthTooLarge).

(** Python's max with a key: the first of the largest.  view.py:804. *)
Fixpoint first_max (best : nat) (best_at i : nat) (ds : list nat) : nat :=
  match ds with
  | [] => best_at
  | d :: ds' =>
      if best <? d then first_max d i (S i) ds'
      else first_max best best_at (S i) ds'
  end.

(** view.py:786-805.  The test of identity at line 439 holds at the position
    where the maximum was found; where the same view occurs twice, expanding
    it to itself gives an equal view. *)
Definition align (vs : list view) : M (list view) :=
  match vs with
  | [] => ret []
  | [v] => ret [v]
  | v :: rest =>
      let r := first_max (v_depth v) 0 1 (map v_depth rest) in
      match nth_error vs r with
      | None => raise Unreachable
      | Some ref_view =>
          mapM (fun '(i, w) => expand_to (i =? r) ref_view 0 w)
               (combine (seq 0 (length vs)) vs)
      end
  end.

(** view.py:839-928.  Keyword arguments follow the positional ones.
    [include_missing = None] is the default. *)
Definition map_ (f : list obj -> M obj) (ndim : Z)
    (include_missing : option bool) (vs : list view) : M view :=
  let inc := match include_missing with
             | None => negb (ndim =? 0)%Z
             | Some b => b
             end in
  if negb (ndim =? 0)%Z then
    if negb inc then raise MissingNeedsNdim0
    else if (ndim <? 0)%Z then raise NegativeDims
    else
      bind (align vs) (fun ws =>
      match ws with
      | [] => raise NoArguments
      | _ =>
          let res_depth := list_max (map v_depth ws) in
          if negb (forallb (fun w => v_depth w =? res_depth) ws)
          then raise Unreachable
          else if (Z.of_nat res_depth <? ndim)%Z then raise TooManyDims
          else
            let d := res_depth - Z.to_nat ndim in
            bind (map_structures f (map (fun _ => d) ws) inc (map v_obj ws))
                 (fun o => ret (View o d))
      end)
  else
    match vs with
    | [] => raise NoArguments
    | _ =>
        bind (map_structures f (map v_depth vs) inc (map v_obj vs))
             (fun o => ret (View o (list_max (map v_depth vs))))
    end.

(** ** Selection *)

(** The items of an object given to zip or iter.  In all calls the object is
    a tuple, because it is below the depth of a view. *)
Definition items (o : obj) : outcome (list obj) :=
  match o with PTuple xs => Ok xs | _ => Raise Unreachable end.

(** view.py:100-110. *)
Fixpoint select_loop (xs fs : list obj) : outcome (list obj) :=
  match xs, fs with
  | [], [] => Ok []
  | a :: xs', b :: fs' =>
      if is_present b then
        match select_loop xs' fs' with
        | Ok res => Ok (a :: res)
        | Raise e => Raise e
        end
      else if is_none b then select_loop xs' fs'
      else Raise NotMask
  | _, _ => Raise ZipStrict
  end.

Definition select_impl (x fltr : obj) : M obj :=
  bind (lift (items x)) (fun xs =>
  bind (lift (items fltr)) (fun fs =>
  bind (lift (select_loop xs fs)) (fun res => ret (PTuple res)))).

(** view.py:113-123. *)
Definition select_constant (x fltr : obj) : M obj :=
  if is_present fltr then ret x
  else if is_none fltr then ret (PTuple [])
  else raise NotMask.

(** view.py:561-587. *)
Definition select (fltr : view) (expand_filter : bool) (v : view) : M view :=
  if v_depth v <? v_depth fltr then raise DepthTooLarge
  else
    let select_dim :=
      if expand_filter then (Z.of_nat (v_depth v) - 1)%Z
      else (Z.of_nat (v_depth fltr) - 1)%Z in
    if (select_dim <? 0)%Z then
      if v_depth v =? 0 then raise ScalarView else raise FilterScalar
    else
      bind (lift (implode (Z.of_nat (v_depth v) - select_dim) v)) (fun data =>
      if (select_dim <? Z.of_nat (v_depth fltr))%Z then
        if negb (Z.of_nat (v_depth fltr) =? select_dim + 1)%Z
        then raise Unreachable
        else
          bind (lift (implode 1 fltr)) (fun ifltr =>
          bind (map2 select_impl false data ifltr) (fun res =>
          ret (View (v_obj res) (v_depth v))))
      else
        bind (map2 select_constant true data fltr) (fun res =>
        ret (View (v_obj res) (v_depth v)))).

(** view.py:136-148: one pass over the filter, drawing items from the
    iterator; the rest of the iterator is returned too. *)
Fixpoint inverse_loop (xs fs : list obj) : outcome (list obj * list obj) :=
  match fs with
  | [] => Ok ([], xs)
  | b :: fs' =>
      if is_present b then
        match xs with
        | [] => Raise CountMismatch
        | a :: xs' =>
            match inverse_loop xs' fs' with
            | Ok (res, rest) => Ok (a :: res, rest)
            | Raise e => Raise e
            end
        end
      else if is_none b then
        match inverse_loop xs fs' with
        | Ok (res, rest) => Ok (PNone :: res, rest)
        | Raise e => Raise e
        end
      else Raise NotMask
  end.

(** view.py:126-154. *)
Definition inverse_select_impl (x fltr : obj) : M obj :=
  bind (lift (items x)) (fun xs =>
  bind (lift (items fltr)) (fun fs =>
  bind (lift (inverse_loop xs fs)) (fun '(res, rest) =>
  match rest with
  | [] => ret (PTuple res)
  | _ => raise CountMismatch
  end))).

(** view.py:589-602. *)
Definition inverse_select (fltr v : view) : M view :=
  if negb (v_depth fltr =? v_depth v) then raise DepthsDiffer
  else if v_depth v =? 0 then raise ScalarView
  else
    bind (lift (implode 1 v)) (fun iv =>
    bind (lift (implode 1 fltr)) (fun ifltr =>
    bind (map2 inverse_select_impl false iv ifltr) (fun res =>
    ret (View (v_obj res) (v_depth v))))).

(** view.py:88-97, 627-628. *)
Definition presence_and_impl (x y : obj) : M obj :=
  if is_present y then ret x else raise NotMask.
Definition presence_and (v w : view) : M view := map2 presence_and_impl false v w.

(** view.py:633-636. *)
Definition coalesce (v w : view) : M view :=
  map2 (fun x y => ret (if is_none x then y else x)) true v w.

(** ** Grouping *)

(** Python equality and ordering of the values used as keys. *)
Variable py_eq : obj -> obj -> bool.
Variable hashable : obj -> bool.
(** Ordering of tuples of keys, for sort=True. *)
Variable key_less : list obj -> list obj -> bool.

Fixpoint key_eq (k l : list obj) : bool :=
  match k, l with
  | [], [] => true
  | a :: k', b :: l' => py_eq a b && key_eq k' l'
  | _, _ => false
  end.

(** zip(x, *args, strict=True), view.py:63: the rows, and whether all columns
    ended together. *)
Fixpoint heads (cols : list (list obj)) : option (list obj) :=
  match cols with
  | [] => Some []
  | [] :: _ => None
  | (a :: _) :: cols' =>
      match heads cols' with Some hs => Some (a :: hs) | None => None end
  end.

Fixpoint zip_rows (xs : list obj) (cols : list (list obj))
  : list (obj * list obj) * bool :=
  match xs with
  | [] => ([], forallb (fun c => match c with [] => true | _ => false end) cols)
  | a :: xs' =>
      match heads cols with
      | None => ([], false)
      | Some hs =>
          let (rows, ok) := zip_rows xs' (map (@tl obj) cols) in
          ((a, hs) :: rows, ok)
      end
  end.

(** dict.setdefault(key, []).append(x), view.py:68. *)
Fixpoint add_to_group (key : list obj) (x : obj)
    (groups : list (list obj * list obj)) : list (list obj * list obj) :=
  match groups with
  | [] => [(key, [x])]
  | (k, xs) :: rest =>
      if key_eq k key then (k, xs ++ [x]) :: rest
      else (k, xs) :: add_to_group key x rest
  end.

(** view.py:62-68. *)
Fixpoint group_loop (rows : list (obj * list obj))
    (groups : list (list obj * list obj))
  : outcome (list (list obj * list obj)) :=
  match rows with
  | [] => Ok groups
  | (x, args) :: rest =>
      let key := match args with [] => [x] | _ => args end in
      if existsb is_none key then group_loop rest groups
      else if forallb hashable key
           then group_loop rest (add_to_group key x groups)
           else Raise Unhashable
  end.

(** sorted(grouped.items()), view.py:70.  Keys are different, so the lists of
    values are never compared.  Exceptions of the comparison itself are not
    modelled. *)
Fixpoint insert_sorted (g : list obj * list obj)
    (l : list (list obj * list obj)) : list (list obj * list obj) :=
  match l with
  | [] => [g]
  | g' :: l' =>
      if key_less (fst g) (fst g') then g :: l
      else g' :: insert_sorted g l'
  end.

Definition sort_groups (l : list (list obj * list obj))
  : list (list obj * list obj) := fold_left (fun acc g => insert_sorted g acc) l [].

Fixpoint all_items (os : list obj) : outcome (list (list obj)) :=
  match os with
  | [] => Ok []
  | o :: os' =>
      match items o, all_items os' with
      | Ok xs, Ok xss => Ok (xs :: xss)
      | Raise e, _ => Raise e
      | _, Raise e => Raise e
      end
  end.

(** view.py:58-72. *)
Definition group_by_impl (sort : bool) (args : list obj) : M obj :=
  bind (lift (all_items args)) (fun cols =>
  match cols with
  | [] => raise Unreachable
  | xs :: ks =>
      let (rows, together) := zip_rows xs ks in
      bind (lift (group_loop rows [])) (fun groups =>
      if negb together then raise ZipStrict
      else
        let groups := if sort then sort_groups groups else groups in
        ret (PTuple (map (fun g => PTuple (snd g)) groups)))
  end).

(** view.py:534-550. *)
Definition group_by (sort : bool) (keys : list view) (v : view) : M view :=
  if v_depth v =? 0 then raise ScalarView
  else if negb (forallb (fun k => v_depth k =? v_depth v) keys)
       then raise DepthsDiffer
       else
         bind (mapM (fun w => lift (implode 1 w)) (v :: keys)) (fun ws =>
         bind (map_ (group_by_impl sort) 0 None ws) (fun res =>
         ret (View (v_obj res) (v_depth res + 2)))).

(** view.py:75-85. *)
Fixpoint collapse_loop (res : obj) (xs : list obj) : obj :=
  match xs with
  | [] => res
  | item :: xs' =>
      if is_none item then collapse_loop res xs'
      else if is_none res then collapse_loop item xs'
      else if negb (py_eq res item) then PNone
      else collapse_loop res xs'
  end.

Definition collapse_impl (args : list obj) : M obj :=
  match args with
  | [x] => bind (lift (items x)) (fun xs => ret (collapse_loop PNone xs))
  | _ => raise Unreachable
  end.

(** view.py:552-559. *)
Definition collapse (ndim : Z) (v : view) : M view :=
  if (ndim <? 0)%Z || (Z.of_nat (v_depth v) <? ndim)%Z then raise TooManyDims
  else
    bind (flatten (Z.of_nat (v_depth v) - ndim) None v) (fun w =>
    map_ collapse_impl 1 None [w]).

End Iterables.
