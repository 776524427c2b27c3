(** The adoption queue: koladata/adoption_utils.h:30-80 and adoption_utils.cc:43-141, 210-227.

    A bag is known by its address. Its contents, with those of its fallbacks, are entries of keys and
    values: attributes of items, entries of dicts, whole lists (see C18 for how the parts are merged).
    What a slice reaches is given by Extract (see the theorems about extraction), whose error stands also
    for the cancellation check after it. AdoptStub is left out. *)
From Coq Require Import List Bool Arith.
Import ListNotations.

Section Model.
Variables (key val bag slice error : Type).
Variable key_eqb : key -> key -> bool.
Variable val_eqb : val -> val -> bool.
Variable bag_eqb : bag -> bag -> bool.

Definition contents := list (key * val).
Fixpoint lookup (c : contents) (k : key) : option val :=
  match c with [] => None | (k', v) :: c => if key_eqb k' k then Some v else lookup c k end.

Variable contents_of : bag -> contents.
Variable is_mutable : bag -> bool.
(** data_slice.h GetBag *)
Variable bag_of : slice -> option bag.
(** extract_utils.h Extract: the contents of the bag of the extracted slice, if it has one *)
Variable extract : slice -> option contents + error.

Inductive failure := Conflict | Failed (e : error) | Mutable.

(** data_bag.h MergeInplace with overwrite, allow_data_conflicts and allow_schema_conflicts false: it
    stops at a conflict, with what is merged so far *)
Fixpoint merge_inplace (c other : contents) : contents * option failure :=
  match other with
  | [] => (c, None)
  | (k, v) :: other =>
      match lookup c k with
      | None => merge_inplace (c ++ [(k, v)]) other
      | Some w => if val_eqb w v then merge_inplace c other else (c, Some Conflict)
      end
  end.

(** adoption_utils.h:76-78 *)
Record queue := Queue { slices_to_merge : list slice; bags_to_merge : list bag }.
Definition empty_queue : queue := Queue [] [].
(** adoption_utils.h:41-45 Add *)
Definition add_slice (q : queue) (s : slice) : queue :=
  match bag_of s with
  | Some _ => Queue (slices_to_merge q ++ [s]) (bags_to_merge q)
  | None => q
  end.
(** adoption_utils.h:48-52 Add *)
Definition add_bag (q : queue) (b : option bag) : queue :=
  match b with
  | Some b => Queue (slices_to_merge q) (bags_to_merge q ++ [b])
  | None => q
  end.

(** The calls of Add, in order *)
Inductive add := Add_slice (s : slice) | Add_bag (b : option bag).
Definition queue_of (adds : list add) : queue :=
  fold_left (fun q a => match a with Add_slice s => add_slice q s | Add_bag b => add_bag q b end) adds empty_queue.

Definition contains (visited : list bag) (b : bag) : bool := existsb (bag_eqb b) visited.
(** adoption_utils.cc:46-55 *)
Fixpoint adopt_bags (c : contents) (visited : list bag) (bags : list bag) : contents * list bag * option failure :=
  match bags with
  | [] => (c, visited, None)
  | b :: bags =>
      if contains visited b then adopt_bags c visited bags
      else match merge_inplace c (contents_of b) with
           | (c, None) => adopt_bags c (b :: visited) bags
           | (c, Some e) => (c, b :: visited, Some e)
           end
  end.
(** adoption_utils.cc:56-72 *)
Fixpoint adopt_slices (c : contents) (visited : list bag) (slices : list slice) : contents * option failure :=
  match slices with
  | [] => (c, None)
  | s :: slices =>
      if match bag_of s with Some b => contains visited b | None => false end then adopt_slices c visited slices
      else match extract s with
           | inr e => (c, Some (Failed e))
           | inl None => adopt_slices c visited slices
           | inl (Some x) =>
               match merge_inplace c x with
               | (c, None) => adopt_slices c visited slices
               | (c, Some e) => (c, Some e)
               end
           end
  end.
(** adoption_utils.cc:43-74: into the contents of a bag, visited at first is the bag alone *)
Definition adopt (c : contents) (visited : list bag) (q : queue) : contents * option failure :=
  match adopt_bags c visited (bags_to_merge q) with
  | (c, visited, None) => adopt_slices c visited (slices_to_merge q)
  | (c, _, Some e) => (c, Some e)
  end.
Definition adopt_into (q : queue) (b : bag) : contents * option failure := adopt (contents_of b) [b] q.

(** adoption_utils.cc:82-100: the first bag, and whether there is another one *)
Fixpoint common (single : option bag) (bags : list bag) : option bag * bool :=
  match bags with
  | [] => (single, false)
  | b :: bags =>
      match single with
      | None => common (Some b) bags
      | Some b' => if bag_eqb b' b then common single bags else (single, true)
      end
  end.
(** The result: no bag, a bag that was there, or a new one *)
Inductive result := No_bag | The_bag (b : bag) | New_bag (c : contents) | Fails (e : failure).
Fixpoint bags_of (l : list slice) : list bag :=
  match l with
  | [] => []
  | s :: l => match bag_of s with Some b => b :: bags_of l | None => bags_of l end
  end.
(** adoption_utils.cc:76-114. The new bag has an address of its own, so none of the queue is visited *)
Definition get_common_or_merged_db (q : queue) : result :=
  let (single, several) := common None (bags_to_merge q) in
  let (single, several) := if several : bool then (single, several) else common single (bags_of (slices_to_merge q)) in
  match single with
  | None => No_bag
  | Some b =>
      if several then
        match adopt [] [] q with
        | (c, None) => New_bag c
        | (_, Some e) => Fails e
        end
      else The_bag b
  end.

(** data_bag.cc ImmutableEmptyWithFallbacks, as read: the first of the fallbacks that has the key *)
Fixpoint with_fallbacks (l : list contents) (k : key) : option val :=
  match l with
  | [] => None
  | c :: l => match lookup c k with Some v => Some v | None => with_fallbacks l k end
  end.
(** adoption_utils.cc:116-141 *)
Fixpoint unvisited (visited : list bag) (bags : list bag) : list bag :=
  match bags with
  | [] => []
  | b :: bags => if contains visited b then unvisited visited bags else b :: unvisited (b :: visited) bags
  end.
Definition get_bag_with_fallbacks (q : queue) : list contents :=
  map contents_of (unvisited [] (bags_to_merge q ++ bags_of (slices_to_merge q))).

(** adoption_utils.cc:210-227. [inl None]: no bag. A bag is given by its layers *)
Definition with_adopted_values (b : option bag) (s : slice) : option (list contents) + failure :=
  match b with
  | Some b' =>
      if is_mutable b' then inr Mutable
      else match bag_of s with
           | None => inl (Some [contents_of b'])
           | Some sb =>
               if bag_eqb b' sb then inl (Some [contents_of sb])
               else match extract s with
                    | inr e => inr (Failed e)
                    | inl None => inl (Some [contents_of b'])
                    | inl (Some x) => inl (Some [x; contents_of b'])
                    end
           end
  | None => inl (match bag_of s with Some sb => Some [contents_of sb] | None => None end)
  end.
End Model.
Arguments lookup {key val} key_eqb c k.
Arguments Conflict {error}.
Arguments Failed {error} e.
Arguments Mutable {error}.
Arguments merge_inplace {key val error} key_eqb val_eqb c other.
Arguments Queue {bag slice}.
Arguments slices_to_merge {bag slice} q.
Arguments bags_to_merge {bag slice} q.
Arguments empty_queue {bag slice}.
Arguments add_slice {bag slice} bag_of q s.
Arguments add_bag {bag slice} q b.
Arguments Add_slice {bag slice} s.
Arguments Add_bag {bag slice} b.
Arguments queue_of {bag slice} bag_of adds.
Arguments contains {bag} bag_eqb visited b.
Arguments adopt_bags {key val bag error} key_eqb val_eqb bag_eqb contents_of c visited bags.
Arguments adopt_slices {key val bag slice error} key_eqb val_eqb bag_eqb bag_of extract c visited slices.
Arguments adopt {key val bag slice error} key_eqb val_eqb bag_eqb contents_of bag_of extract c visited q.
Arguments adopt_into {key val bag slice error} key_eqb val_eqb bag_eqb contents_of bag_of extract q b.
Arguments common {bag} bag_eqb single bags.
Arguments No_bag {key val bag error}.
Arguments The_bag {key val bag error} b.
Arguments New_bag {key val bag error} c.
Arguments Fails {key val bag error} e.
Arguments bags_of {bag slice} bag_of l.
Arguments get_common_or_merged_db {key val bag slice error} key_eqb val_eqb bag_eqb contents_of bag_of extract q.
Arguments with_fallbacks {key val} key_eqb l k.
Arguments unvisited {bag} bag_eqb visited bags.
Arguments get_bag_with_fallbacks {key val bag slice} bag_eqb contents_of bag_of q.
Arguments with_adopted_values {key val bag slice error} bag_eqb contents_of is_mutable bag_of extract b s.
