(** What a bag contains, what merging two bags means, and what each operation on
    bags does to them. No storage is mentioned here. *)
From Coq Require Import String NArith ZArith List Bool Arith.
From Verif Require Import ObjectIdModel ItemIdSpec SchemaModel ItemModel DataListModel SourceModel SourceSpec DictModel DictSpec BagModel MergeModel.
Import ListNotations.
Local Open Scope nat_scope.

(** ** Contents: None: the bag says nothing; Some None: removed *)
Record content := mkContent {
  c_attr : string -> ObjectId -> option ditem;
  c_list : ObjectId -> option (list ditem);
  c_dict : ObjectId -> value -> option ditem
}.
Definition empty_content : content := mkContent (fun _ _ => None) (fun _ => None) (fun _ _ => None).

(** What the options of a merge ask for when both bags have a value: an error,
    the value of the other bag, or the own one. *)
Definition asked_policy (overwrite allow_conflicts : bool) : policy :=
  match allow_conflicts with
  | false => RaiseOnConflict
  | true => match overwrite with true => Overwrite | false => KeepOriginal end
  end.

Section Spec.
(** how many objects an allocation has *)
Variable asize : ObjectId -> N.
(** An id of an object that exists *)
Definition exists_object (o : ObjectId) : Prop :=
  wf o /\ (is_small_alloc o = false -> (offset o < asize (allocation_of o))%N).

Definition same_content (c c' : content) : Prop :=
  (forall attr o, exists_object o -> c_attr c' attr o = c_attr c attr o) /\
  (forall o, wf o -> c_list c' o = c_list c o) /\
  (forall o k, wf o -> c_dict c' o k = c_dict c o k).

(** ** Merging. Entries of dicts of explicit schemas follow the policy for schemas. *)
Definition policy_for (dp sp : policy) (o : ObjectId) : policy :=
  if is_explicit_schema (allocation_of o) then sp else dp.
Definition lists_different (a b : list ditem) : bool :=
  negb (length a =? length b) || existsb (fun '(x, y) => differ x y) (combine a b).
(** one location after a merge that succeeded *)
Definition merged_at {A} (diff : A -> A -> bool) (p : policy) (this other after : option A) : Prop :=
  outcome p this other after /\ (p = RaiseOnConflict -> clash diff this other = false).
Definition merged (dp sp : policy) (this other after : content) : Prop :=
  (forall attr o, exists_object o -> merged_at differ dp (c_attr this attr o) (c_attr other attr o) (c_attr after attr o)) /\
  (forall o, wf o -> merged_at lists_different dp (c_list this o) (c_list other o) (c_list after o)) /\
  (forall o k, wf o -> merged_at differ (policy_for dp sp o) (c_dict this o k) (c_dict other o k) (c_dict after o k)).
(** there is a location with two different entries where that is not allowed *)
Definition conflict (dp sp : policy) (this other : content) : Prop :=
  (dp = RaiseOnConflict /\ exists attr o, exists_object o /\ clash strict_differ (c_attr this attr o) (c_attr other attr o) = true) \/
  (dp = RaiseOnConflict /\ exists o, wf o /\ clash lists_different (c_list this o) (c_list other o) = true) \/
  (exists o k, wf o /\ policy_for dp sp o = RaiseOnConflict /\ clash differ (c_dict this o k) (c_dict other o k) = true).
(** [u] on top of [this] is the overwriting merge of [other] into [this] *)
Definition is_update (this other u : content) : Prop :=
  (forall attr o, exists_object o -> combine_entries Overwrite (c_attr this attr o) (c_attr u attr o) = combine_entries Overwrite (c_attr this attr o) (c_attr other attr o)) /\
  (forall o, wf o -> combine_entries Overwrite (c_list this o) (c_list u o) = combine_entries Overwrite (c_list this o) (c_list other o)) /\
  (forall o k, wf o -> combine_entries Overwrite (c_dict this o k) (c_dict u o k) = combine_entries Overwrite (c_dict this o k) (c_dict other o k)).
End Spec.

(** ** Fallbacks: a bag answers by itself, or else its fallbacks answer, in order *)
Definition first_of {A} (x y : option A) : option A := match x with Some _ => x | None => y end.
Definition overlay (c c' : content) : content :=
  mkContent (fun attr o => first_of (c_attr c attr o) (c_attr c' attr o))
    (fun o => first_of (c_list c o) (c_list c' o))
    (fun o k => first_of (c_dict c o k) (c_dict c' o k)).
Record abag := mkAbag {
  data : content;
  writable : bool;
  falls : list nat
}.
(** [depth]: a bound for how deep fallbacks are nested *)
Fixpoint full_from (s : list abag) (depth b : nat) : content :=
  match depth, nth_error s b with
  | S depth, Some x => overlay (data x) (fold_right overlay empty_content (map (full_from s depth) (falls x)))
  | _, _ => empty_content
  end.
(** fallbacks are older than the bags that have them *)
Definition full (s : list abag) (b : nat) : content := full_from s (S b) b.

(** ** What operations do *)
Section Steps.
Variable asize : ObjectId -> N.
Definition same_bag (x y : abag) : Prop :=
  same_content asize (data x) (data y) /\ writable y = writable x /\ falls y = falls x.
Definition same_bags : list abag -> list abag -> Prop := Forall2 same_bag.
(** [s] with another bag at [b] *)
Definition set_bag (s : list abag) (b : nat) (x : abag) : list abag :=
  firstn b s ++ match skipn b s with [] => [] | _ :: r => x :: r end.

Definition set_entry (c : content) (attr : string) (w : ObjectId -> option ditem) : content :=
  mkContent (fun attr' o => if string_dec attr attr' then first_of (w o) (c_attr c attr o) else c_attr c attr' o) (c_list c) (c_dict c).
Definition list_items (x : option (list ditem)) : list ditem := match x with Some l => l | None => [] end.
(** a write to a bag that can be written to; None: refused *)
Definition write_effect (op : bag_op) (c : content) : option content :=
  match op with
  | BSetAttr _ o attr v => Some (set_entry c attr (fun o' => if oid_eq_dec o o' then Some v else None))
  | BSetAttrs _ objs _ _ attr vs => Some (set_entry c attr (last_write (writes objs vs)))
  | BCreate _ alloc fields =>
      Some (mkContent (fun attr o => match a_find string_dec fields attr with
                                     | Some f => if oid_eq_dec (allocation_of o) alloc then field_entry f (offset o) else c_attr c attr o
                                     | None => c_attr c attr o
                                     end) (c_list c) (c_dict c))
  | BSetFull _ alloc attr s =>
      Some (match ds_values s with
            | [] => c
            | _ => set_entry c attr (fun o => if oid_eq_dec (allocation_of o) alloc then array_entry s (offset o) else None)
            end)
  | BEditList _ o _ f =>
      if is_list (allocation_of o)
      then Some (mkContent (c_attr c) (fun o' => if oid_eq_dec o o' then Some (f (list_items (c_list c o))) else c_list c o') (c_dict c))
      else None
  | BEditDict _ o op =>
      if is_dict (allocation_of o) || is_schema (allocation_of o)
      then Some (mkContent (c_attr c) (c_list c) (fun o' => if oid_eq_dec o o' then f_step (c_dict c o) op else c_dict c o'))
      else None
  | _ => None
  end.
Definition write_target (op : bag_op) : option nat :=
  match op with
  | BSetAttr b _ _ _ | BSetAttrs b _ _ _ _ _ | BCreate b _ _ | BSetFull b _ _ _ | BEditList b _ _ _ | BEditDict b _ _ => Some b
  | _ => None
  end.

(** [step_spec s op s' ok]: from the bags [s] the operation [op] can lead to [s'];
    [ok]: it succeeds. *)
Definition step_spec (s : list abag) (op : bag_op) (s' : list abag) (ok : bool) : Prop :=
  let fails := ok = false /\ same_bags s s' in
  let becomes t := ok = true /\ same_bags t s' in
  match op with
  | BNew mut => becomes (s ++ [mkAbag empty_content mut []])
  | BWithFallbacks fbs =>
      if forallb (fun f => match nth_error s f with Some x => negb (writable x) | None => false end) fbs
      then becomes (s ++ [mkAbag empty_content false fbs])
      else fails
  | BFork b imm =>
      match nth_error s b with
      | Some (mkAbag c _ []) => becomes (s ++ [mkAbag c (negb imm) []])
      | _ => fails
      end
  | BFreeze b =>
      match nth_error s b with
      | Some x => if writable x then becomes (s ++ [mkAbag (data x) false []]) else becomes s
      | None => fails
      end
  | BMakeImmutable b =>
      match nth_error s b with
      | Some x => becomes (set_bag s b (mkAbag (data x) false (falls x)))
      | None => fails
      end
  | BSetAttr b _ _ _ | BSetAttrs b _ _ _ _ _ | BCreate b _ _ | BSetFull b _ _ _ | BEditList b _ _ _ | BEditDict b _ _ =>
      match nth_error s b with
      | Some x =>
          if writable x
          then match write_effect op (data x) with
               | Some c => becomes (set_bag s b (mkAbag c true (falls x)))
               | None => fails
               end
          else fails
      | None => fails
      end
  | BMerge b other overwrite allow_data allow_schema =>
      let dp := asked_policy overwrite allow_data in
      let sp := asked_policy overwrite allow_schema in
      match nth_error s b, nth_error s other with
      | Some x, Some _ =>
          if writable x
          then exists c, same_bags (set_bag s b (mkAbag c true (falls x))) s' /\
               if ok then merged asize dp sp (data x) (full s other) c
               else conflict asize dp sp (data x) (full s other)
          else fails
      | _, _ => fails
      end
  | BMergeFallbacks b =>
      match nth_error s b with
      | Some _ => becomes (s ++ [mkAbag (full s b) true []])
      | None => fails
      end
  | BUpdate b other =>
      match nth_error s b, nth_error s other with
      | Some (mkAbag c _ []), Some _ =>
          exists u, is_update asize c (full s other) u /\ becomes (s ++ [mkAbag u false []])
      | _, _ => fails
      end
  end.
End Steps.

(** ** Histories *)
Section Histories.
Variable asize : ObjectId -> N.
(** The arguments of an operation are as the API makes them: the objects exist, a
    batch comes with the allocation ids of its objects (and, if its values have
    different types, without repeated objects), and an allocation is filled with
    arrays of its size. *)
Definition op_ok (op : bag_op) : Prop :=
  match op with
  | BSetAttr _ o _ _ => exists_object asize o
  | BSetAttrs _ objs ids has_small _ vs =>
      length objs = sl_size vs /\ slice_ok vs /\ Forall (exists_object asize) (present objs) /\
      (length (sl_values vs) <= 1 \/ NoDup (present objs)) /\
      Forall (fun id => (wf id /\ offset id = 0%N) /\ is_small_alloc id = false) ids /\
      Forall (fun o => if is_small_alloc o then has_small = true else In (allocation_of o) ids) (present objs)
  | BCreate _ alloc fields =>
      (wf alloc /\ offset alloc = 0%N) /\ is_small_alloc alloc = false /\
      Forall (fun '(_, s) => ds_size s = asize alloc /\ (ds_values s <> [] -> wf_dslice s)) fields /\
      NoDup (map fst fields)
  | BSetFull _ alloc _ s =>
      (wf alloc /\ offset alloc = 0%N) /\ (ds_size s <= capacity alloc)%N /\
      (is_small_alloc alloc = false -> ds_size s = asize alloc) /\ (ds_values s <> [] -> wf_dslice s)
  | BEditList _ o _ _ => wf o
  | BEditDict _ o op => wf o /\ forall a, op <> DDerive a
  | _ => True
  end.
(** operations that may leave something about objects of a big allocation *)
Definition touches (alloc : ObjectId) (op : bag_op) : Prop :=
  match op with
  | BSetAttr _ o _ _ => allocation_of o = alloc
  | BSetAttrs _ _ ids _ _ _ => In alloc ids
  | BCreate _ a _ | BSetFull _ a _ _ => a = alloc
  | _ => False
  end.
(** objects are created in an allocation that is new *)
Definition fresh_for (ops : list bag_op) (op : bag_op) : Prop :=
  match op with BCreate _ alloc _ => Forall (fun op => ~ touches alloc op) ops | _ => True end.
Inductive history : list bag_op -> Prop :=
  | no_history : history []
  | next ops op : history ops -> op_ok op -> fresh_for ops op -> history (ops ++ [op]).
End Histories.
