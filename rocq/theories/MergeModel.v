(** Merging of bags: koladata/internal/data_bag.cc:196-412, 3371-3888,
    koladata/data_bag.cc:120-192. *)
From Coq Require Import String NArith ZArith List Bool Arith.
From Verif Require Import ObjectIdModel SchemaModel ItemModel DictModel SourceModel BagModel.
Import ListNotations.
Local Open Scope nat_scope.

(** An error stops the merge, with what is merged so far: a state and a flag *)
Definition fold_err {A S} (f : S -> A -> S * bool) (l : list A) (s : S) : S * bool :=
  fold_left (fun '(s, err) x => if err : bool then (s, err) else f s x) l (s, false).

(** ** Sources *)

(** data_bag.cc:205-220 MergeToMutableSparseSource *)
Definition merge_to_sparse (ss : list sparse) : option sparse :=
  match rev ss with
  | [] => None
  | s :: r => Some (fold_left (fun res s => fold_left (fun res '(o, v) => sparse_set res o v) (sp_map s) res) r s)
  end.

(** data_bag.cc:235-262 ProcessSparseSources: the entries that are not skipped. (The
    first sources are treated separately there, without the set of seen ids.) *)
Fixpoint process_sparse (seen : list ObjectId) (ss : list smap) : list (ObjectId * ditem) :=
  match ss with
  | [] => []
  | m :: r =>
      filter (fun '(o, _) => negb (existsb (same_oid o) seen)) m ++ process_sparse (seen ++ map fst m) r
  end.

Definition is_overwrite (p : policy) : bool := match p with Overwrite => true | _ => false end.
Definition is_raise (p : policy) : bool := match p with RaiseOnConflict => true | _ => false end.

(** The same for entries of either kind of source: [get] and [set] of the result.
    data_bag.cc:281-301, 314-334, 379-396 *)
Definition merge_entry {S} (get : S -> ObjectId -> option ditem) (set : S -> ObjectId -> ditem -> S)
    (p : policy) (s : S) (x : ObjectId * ditem) : S * bool :=
  let '(o, item) := x in
  if is_overwrite p then (set s o item, false)
  else match get s o with
       | None => (set s o item, false)
       | Some v => (s, is_raise p && differ v item)
       end.
Definition dense_set' (d : dense) (o : ObjectId) (v : ditem) : dense :=
  match dense_set d o v with Some d => d | None => d end.
(** data_bag.cc:275-303 MergeToMutableDenseSourceOnlySparse *)
Definition dense_merge_sparse (p : policy) (d : dense) (ss : list sparse) : dense * bool :=
  fold_err (merge_entry dense_get dense_set' p) (process_sparse [] (map sp_map ss)) d.
(** data_bag.cc:308-336 MergeToMutableSparseSourceOnlySparse *)
Definition sparse_merge_sparse (p : policy) (s : sparse) (ss : list sparse) : sparse * bool :=
  fold_err (merge_entry sparse_get sparse_set p) (process_sparse [] (map sp_map ss)) s.
(** data_bag.cc:341-398 MergeToMutableDenseSource, with 96-145
    GetAttributeFromSources. *)
Definition dense_merge_all (p : policy) (d : dense) (alloc : ObjectId) (od : dense) (os : list sparse)
  : option (dense * bool) :=
  match os with
  | [] => dense_merge p d (get_all od)
  | _ =>
      let size := N.min (de_size d) (de_size od) in
      let items :=
        flat_map (fun off =>
          let o := object_by_offset alloc off in
          match dense_fill od o (fold_left (fun cur s => sparse_fill s o cur) os None) with
          | Some x => [(o, x)]
          | None => []
          end) (below size) in
      if is_overwrite p
      then option_map (fun d => (d, false))
             (dense_set_all d (map (fun '(o, _) => Some o) items) (build_slice (map snd items)))
      else Some (fold_err (merge_entry dense_get dense_set' p) items d)
  end.
(** data_bag.cc:400-412 ReverseConflictHandlingOption *)
Definition reverse_policy (p : policy) : policy :=
  match p with RaiseOnConflict => RaiseOnConflict | Overwrite => KeepOriginal | KeepOriginal => Overwrite end.

(** ** What is new in the other bag *)

(** data_bag.cc:506-512 GetNonPristineBag *)
Definition non_pristine (a : nat) (l : layer) : option nat := if is_pristine l then parent l else Some a.
(** the layers of [other] above the one where [this] begins; each with its parents *)
Fixpoint new_layers (stop : option nat) (ch : list (nat * layer)) : list (nat * layer * list (nat * layer)) :=
  match ch with
  | [] => []
  | (x, l) :: r =>
      if match stop with Some s => x =? s | None => false end then []
      else (x, l, r) :: new_layers stop r
  end.
(** used_keys.insert: the first time only *)
Fixpoint dedup {A K} (dec : forall a b : K, {a = b} + {a <> b}) (k : A -> K) (used : list K) (l : list A) : list A :=
  match l with
  | [] => []
  | x :: r =>
      if in_dec dec (k x) used then dedup dec k used r else x :: dedup dec k (k x :: used) r
  end.

(** *** Attributes of objects of big allocations *)

(** Pointers to sources, as addresses of the layers that made them. (A read-only
    source that was copied into another layer is taken to be a new one; it is the
    same object in the code. Then it is compared instead of skipped.) *)
Fixpoint source_ids (h : heap) (ch : list (nat * layer)) (k : key) : list nat * option nat :=
  match ch with
  | [] => ([], None)
  | (x, l) :: r =>
      match a_find key_dec (big l) k with
      | None => source_ids h r k
      | Some c =>
          let '(ss, d) :=
            match mdense c, cdense c with
            | Some _, _ => ([], Some x)
            | None, Some (CVal _) => ([], Some x)
            | None, Some (CShared b) => ([], Some b)
            | None, None => if lookup_parent c then source_ids h r k else ([], None)
            end in
          (match msparse c with Some _ => x :: ss | None => ss end, d)
      end
  end.
Definition ids_eqb (a b : list nat * option nat) : bool :=
  (if list_eq_dec Nat.eq_dec (fst a) (fst b) then true else false)
  && match snd a, snd b with
     | Some x, Some y => x =? y
     | None, None => true
     | _, _ => false
     end.

(** The copy of the other's collection with the mutable source as a const one *)
Definition copy_coll (x : nat) (c : coll) : coll :=
  mkColl (msparse c) None (match mdense c with Some _ => Some (CShared x) | None => cdense c end) (lookup_parent c).

(** data_bag.cc:3510-3609: one key. [tch], [rest]: this with its parents, and the
    parents; [och]: the other with its parents; [x], [oc], [orest]: the first layer
    of the other that has the key, its collection, its parents; [c0]: the collection
    of [this]. The new collection, None: unchanged. *)
Definition merge_key (h : heap) (p : policy) (tch rest och : list (nat * layer)) (other_frozen : bool)
    (x : nat) (oc : coll) (orest : list (nat * layer)) (k : key) (c0 : coll) : option (coll * bool) :=
  let '(os, od) := data_sources h och k in
  let '(ts, td) := data_sources h tch k in
  if ids_eqb (source_ids h tch k) (source_ids h och k) then None
  else
    let ok c := Some (c, false) in
    let fail := Some (c0, true) in
    match td, ts with
    | None, [] =>
        match od with
        | Some _ =>
            let c := copy_coll x oc in
            if nonempty os
               || (match cd_of h k c with Some d => is_mutable d | None => false end && negb other_frozen)
            then match create_mutable_dense h orest k (capacity (fst k)) None c with
                 | Some c => ok c
                 | None => fail
                 end
            else ok c
        | None => ok (mkColl (merge_to_sparse os) (mdense c0) (cdense c0) false)
        end
    | Some td, _ =>
        match (match mdense c0 with
               | Some _ => Some c0
               | None => create_mutable_dense h rest k (de_size td) None c0
               end) with
        | None => fail
        | Some c =>
            match mdense c with
            | None => fail
            | Some d =>
                match (match od with
                       | None => Some (dense_merge_sparse p d os)
                       | Some od => dense_merge_all p d (fst k) od os
                       end) with
                | None => Some (c, true)
                | Some (d, err) => Some (mkColl (msparse c) (Some d) (cdense c) (lookup_parent c), err)
                end
            end
        end
    | None, ts =>
        match od with
        | Some od =>
            match create_mutable_dense h orest k (de_size od) None (copy_coll x oc) with
            | Some c =>
                match mdense c with
                | Some d =>
                    let '(d, err) := dense_merge_sparse (reverse_policy p) d ts in
                    if err then fail else ok (mkColl (msparse c) (Some d) (cdense c) (lookup_parent c))
                | None => fail
                end
            | None => fail
            end
        | None =>
            match merge_to_sparse ts with
            | Some s =>
                let '(s, err) := sparse_merge_sparse p s os in
                Some (mkColl (Some s) (mdense c0) (cdense c0) false, err)
            | None => fail
            end
        end
    end.
(** the keys with new data *)
Definition big_work (stop : option nat) (och : list (nat * layer)) : list (nat * list (nat * layer) * (key * coll)) :=
  dedup key_dec (fun '(_, (k, _)) => k) []
    (flat_map (fun '(x, l, r) => map (fun kc => (x, r, kc)) (big l)) (new_layers stop och)).
(** data_bag.cc:3489-3621 MergeBigAllocImpl, MergeBigAllocInplace *)
Definition merge_big (h : heap) (p : policy) (a : nat) (rest och : list (nat * layer)) (other_frozen : bool)
    (l : layer) : layer * bool :=
  fold_err (fun l '(x, r, (k, oc)) =>
    match merge_key h p ((a, l) :: rest) rest och other_frozen x oc r k (get_or_create_coll l k) with
    | None => (l, false)
    | Some (c, err) => (set_big l k c, err)
    end) (big_work (non_pristine a l) och) l.

(** *** Attributes of objects of small allocations *)
Fixpoint small_ids (ch : list (nat * layer)) (attr : string) : list nat :=
  match ch with
  | [] => []
  | (x, l) :: r =>
      match a_find string_dec (small l) attr with
      | Some _ => x :: small_ids r attr
      | None => small_ids r attr
      end
  end.
(** data_bag.cc:222-231 StripIfFirstArrayIsSuffix: whether the first array is a
    suffix *)
Definition is_suffix (a b : list nat) : bool :=
  (length a <=? length b)
  && (if list_eq_dec Nat.eq_dec a (skipn (length b - length a) b) then true else false).
(** data_bag.cc:3373-3402 IterateOverSmallAllocWithNewData: the attributes *)
Definition small_work (stop : option nat) (och : list (nat * layer)) : list string :=
  flat_map (fun '(x, l, _) =>
    flat_map (fun '(attr, _) =>
      match small_ids och attr with
      | y :: _ => if y =? x then [attr] else []
      | [] => []
      end) (small l)) (new_layers stop och).
(** data_bag.cc:3404-3452 MergeSmallAllocInplace, for one attribute *)
Definition merge_attr (p : policy) (a : nat) (rest och : list (nat * layer)) (l : layer) (attr : string) : layer * bool :=
  let tids := small_ids ((a, l) :: rest) attr in
  let oids := small_ids och attr in
  let os := map sp_map (small_sources och attr) in
  if if list_eq_dec Nat.eq_dec tids oids then true else false then (l, false)
  else
    let strip := is_overwrite p && is_suffix tids oids in
    let os := if strip then firstn (length oids - length tids) os else os in
    let tids := if strip then [] else tids in
    match tids, os with
    | [], [m] =>
        (match a_find string_dec (small l) attr with
         | Some _ => l
         | None => set_small l attr m
         end, false)
    | _, _ =>
        let own := match a_find string_dec (small l) attr with Some _ => true | None => false end in
        fold_err (fun l '(o, item) =>
          let this_value :=
            if is_overwrite p then None
            else or_else (if own then s_find (small_source l attr) o else None) (look_small rest attr o) in
          match this_value with
          | Some v => (l, is_raise p && differ v item)
          | None => (set_small l attr (sp_map (sparse_set (mkSparse None (small_source l attr)) o item)), false)
          end) (process_sparse [] os) l
    end.
Definition merge_small (p : policy) (a : nat) (rest och : list (nat * layer)) (stop : option nat) (l : layer) : layer * bool :=
  fold_err (merge_attr p a rest och) (small_work stop och) l.

(** *** Lists *)
Fixpoint lists_id (ch : list (nat * layer)) (alloc : ObjectId) : option nat :=
  match ch with
  | [] => None
  | (x, l) :: r =>
      match a_find oid_eq_dec (lists l) alloc with Some _ => Some x | None => lists_id r alloc end
  end.
Definition same_addr (a : option nat) (x : nat) : bool := match a with Some y => y =? x | None => false end.
Definition lists_work (stop : option nat) (och : list (nat * layer)) : list (nat * list (nat * layer) * (ObjectId * lvec)) :=
  dedup oid_eq_dec (fun '(_, (k, _)) => k) []
    (flat_map (fun '(x, l, r) => map (fun kv => (x, r, kv)) (lists l)) (new_layers stop och)).
Definition lists_differ (a b : list ditem) : bool :=
  negb (length a =? length b) || existsb (fun '(x, y) => differ x y) (combine a b).
(** data_bag.cc:3680-3711 one list *)
Definition merge_list (p : policy) (up : N -> option (list ditem)) (other : N -> option (list ditem))
    (v : lvec) (i : N) : lvec * bool :=
  match other i with
  | None => (v, false)
  | Some ol =>
      match lvec_get v i (up i) with
      | None => (lvec_edit v i (up i) (fun _ => ol), false)
      | Some tl =>
          if is_overwrite p then (lvec_edit v i (up i) (fun _ => ol), false)
          else (lvec_edit v i (up i) (fun x => x), is_raise p && lists_differ tl ol)
      end
  end.
Definition set_lists (l : layer) (alloc : ObjectId) (v : lvec) : layer :=
  mkLayer (frozen l) (parent l) (small l) (big l) (a_set oid_eq_dec (lists l) alloc v) (dicts l).
(** data_bag.cc:3647-3713 IterateOverListsWithNewData, MergeListsInplace *)
Definition merge_lists (p : policy) (a : nat) (rest och : list (nat * layer)) (stop : option nat) (l : layer) : layer * bool :=
  fold_err (fun l '(x, r, (alloc, ov)) =>
    if same_addr (lists_id ((a, l) :: rest) alloc) x then (l, false)
    else
      let '(v, err) :=
        fold_err (merge_list p (look_list rest alloc) (fun i => lvec_get ov i (look_list r alloc i)))
          (below (lv_size ov)) (get_or_create_lists rest l alloc 1) in
      (set_lists l alloc v, err)) (lists_work stop och) l.

(** *** Dicts *)
Fixpoint dicts_id (ch : list (nat * layer)) (alloc : ObjectId) : option nat :=
  match ch with
  | [] => None
  | (x, l) :: r =>
      match a_find oid_eq_dec (dicts l) alloc with Some _ => Some x | None => dicts_id r alloc end
  end.
Definition dicts_work (stop : option nat) (och : list (nat * layer)) : list (nat * (nat * layer) * list (nat * layer) * (ObjectId * dvec)) :=
  dedup oid_eq_dec (fun '(_, (k, _)) => k) []
    (flat_map (fun '(x, l, r) => map (fun kv => (x, (x, l), r, kv)) (dicts l)) (new_layers stop och)).
Section Dicts.
Variable iter : dmap -> dmap.
(** data_bag.cc:3781-3802 one dict: [this] is changed, [orig] is what it was *)
Definition merge_dict (p : policy) (orig : option dict) (other this : dict) : dict * bool :=
  fold_err (fun this k =>
    match d_get other k with
    | None => (this, false)
    | Some ov =>
        if is_overwrite p then (d_set this (Some k) ov, false)
        else
          let '(tv, this) := d_get_or_assign this (Some k) ov in
          (this, is_raise p && differ tv ov)
    end) (d_modified_keys iter other orig) this.
Definition own_of (d : dict) : own_dict :=
  mkOwnDict (d_data d) (match d_parent d with None => true | Some _ => false end).
Definition set_dicts (l : layer) (alloc : ObjectId) (v : dvec) : layer :=
  mkLayer (frozen l) (parent l) (small l) (big l) (lists l) (a_set oid_eq_dec (dicts l) alloc v).
(** data_bag.cc:3736-3806 IterateOverDictsWithNewData, MergeDictsInplace. A vector of
    dicts has the size of the allocation. *)
Definition merge_dicts (dp sp : policy) (a : nat) (rest och : list (nat * layer)) (stop : option nat) (l : layer) : layer * bool :=
  fold_err (fun l '(x, xl, r, (alloc, ov)) =>
    let tch := (a, l) :: rest in
    if same_addr (dicts_id tch alloc) x then (l, false)
    else
      let p := if is_explicit_schema alloc then sp else dp in
      let v := get_or_create_dicts l alloc in
      fold_err (fun l1 i =>
        match look_dict (xl :: r) alloc i, look_dict ((a, l1) :: rest) alloc i with
        | Some other, Some this =>
            let '(this, err) := merge_dict p (look_dict tch alloc i) other this in
            (set_dicts l1 alloc (fupd (get_or_create_dicts l1 alloc) i (own_of this)), err)
        | _, _ => (l1, false)
        end) (below (capacity alloc)) (set_dicts l alloc v)) (dicts_work stop och) l.

(** ** data_bag.cc:3832-3848 IsUnmodifiedForkOf, IsSubsetOf *)
Definition opt_eqb (a b : option nat) : bool :=
  match a, b with Some x, Some y => x =? y | None, None => true | _, _ => false end.
Definition is_subset (b : nat) (bl : layer) (a : nat) (al : layer) : bool :=
  if b =? a then true
  else if negb (is_pristine bl) then opt_eqb (parent al) (Some b) && is_pristine al
  else opt_eqb (parent bl) (Some a) || (opt_eqb (parent al) (parent bl) && is_pristine al).

(** data_bag.cc:3850-3867 MergeInplace of the layer [b] into the layer [a]; None:
    frozen. The flag: a conflict *)
Definition then_merge (r : layer * bool) (f : layer -> layer * bool) : layer * bool :=
  let '(l, err) := r in if err then (l, err) else f l.
Definition merge_layer (h : heap) (dp sp : policy) (a b : nat) (l bl : layer) : layer * bool :=
  let rest := parents h a in
  let och := chain h b in
  then_merge (then_merge (then_merge
    (merge_big h dp a rest och (frozen bl) l)
    (fun l1 => merge_small dp a rest och (non_pristine a l1) l1))
    (fun l1 => merge_lists dp a rest och (non_pristine a l1) l1))
    (fun l1 => merge_dicts dp sp a rest och (non_pristine a l1) l1).
Definition merge_impl (h : heap) (dp sp : policy) (a b : nat) : option (heap * bool) :=
  match nth_error h a, nth_error h b with
  | Some l, Some bl =>
      if frozen l then None
      else if is_subset b bl a l then Some (h, false)
      else let '(l, err) := merge_layer h dp sp a b l bl in Some (put h a l, err)
  | _, _ => None
  end.

(** ** Overwriting updates. [fa], [rest]: the fork of [this] (no data of its own) with its parents;
    [u]: the update. *)

(** data_bag.cc:3623-3645 AddBigAllocOverwritingUpdate *)
Definition update_big (h : heap) (fa : nat) (fl : layer) (rest och : list (nat * layer)) (other_frozen : bool)
    (u : layer) : layer * bool :=
  fold_err (fun u '(x, r, (k, oc)) =>
    match merge_key h Overwrite ((fa, fl) :: rest) rest och other_frozen x oc r k (mkColl None None None true) with
    | None => (u, false)
    | Some (c, err) => (set_big u k c, err)
    end) (big_work (non_pristine fa fl) och) u.
(** data_bag.cc:3454-3487 AddSmallAllocOverwritingUpdate *)
Definition update_attr (fa : nat) (fl : layer) (rest och : list (nat * layer)) (u : layer) (attr : string) : layer :=
  let tids := small_ids ((fa, fl) :: rest) attr in
  let oids := small_ids och attr in
  let os := map sp_map (small_sources och attr) in
  if if list_eq_dec Nat.eq_dec tids oids then true else false then u
  else
    let strip := is_suffix tids oids in
    let os := if strip then firstn (length oids - length tids) os else os in
    let tids := if strip then [] else tids in
    match tids, os with
    | [], [m] =>
        match a_find string_dec (small u) attr with
        | Some _ => u
        | None => set_small u attr m
        end
    | _, _ =>
        fold_left (fun u '(o, item) =>
          set_small u attr (sp_map (sparse_set (mkSparse None (small_source u attr)) o item)))
          (process_sparse [] os) u
    end.
Definition update_small (fa : nat) (fl : layer) (rest och : list (nat * layer)) (u : layer) : layer :=
  fold_left (update_attr fa fl rest och) (small_work (non_pristine fa fl) och) u.
(** data_bag.cc:3715-3734 AddListsOverwritingUpdate *)
Definition update_lists (fa : nat) (fl : layer) (rest och : list (nat * layer)) (u : layer) : layer :=
  fold_left (fun u '(x, r, (alloc, ov)) =>
    if same_addr (lists_id ((fa, fl) :: rest) alloc) x then u
    else
      set_lists u alloc
        (fold_left (fun v i =>
           match lvec_get ov i (look_list r alloc i) with
           | None => v
           | Some ol => lvec_edit v i None (fun _ => ol)
           end) (below (lv_size ov))
           (mkLvec (lv_size ov) false
              (if should_use_array (lv_size ov) (lv_size ov) then LArray (fun _ => LNull) else LMap []))))
    (lists_work (non_pristine fa fl) och) u.
(** data_bag.cc:3808-3830 AddDictsOverwritingUpdate *)
Definition update_dicts (fa : nat) (fl : layer) (rest och : list (nat * layer)) (u : layer) : layer :=
  fold_left (fun u '(x, xl, r, (alloc, _)) =>
    let tch := (fa, fl) :: rest in
    if same_addr (dicts_id tch alloc) x then u
    else
      set_dicts u alloc (fun i =>
        match look_dict (xl :: r) alloc i with
        | None => mkOwnDict [] true
        | Some other =>
            own_of (fold_left (fun this k =>
              match d_get other k with
              | Some ov => d_set this (Some k) ov
              | None => this
              end) (d_modified_keys iter other (look_dict tch alloc i)) (mkDict 0 [] None))
        end)) (dicts_work (non_pristine fa fl) och) u.
(** data_bag.cc:3869-3888 CreateOverwritingMergeUpdate: the update is a new layer;
    None: an error *)
Definition update_impl (h : heap) (a b : nat) : option (heap * nat) :=
  match nth_error h a, nth_error h b with
  | Some l, Some bl =>
      let u := mkLayer false None [] [] [] [] in
      if is_subset b bl a l then Some (h ++ [u], length h)
      else
        let fa := length h in
        let fl := mkLayer false (if is_pristine l then parent l else Some a) [] [] [] [] in
        let h1 := h ++ [fl] in
        let rest := parents h1 fa in
        let och := chain h1 b in
        let '(u, err) := update_big h1 fa fl rest och (frozen bl) u in
        if err then None
        else
          let u := update_small fa fl rest och u in
          let u := update_lists fa fl rest och u in
          let u := update_dicts fa fl rest och u in
          Some (h ++ [u], length h)
  | _, _ => None
  end.

(** ** koladata/data_bag.cc *)

(** 128-140 MergeFallbacksToForkedImpl *)
Definition merge_fallbacks_to_fork (st : state) (b : nat) : option (heap * nat) :=
  match nth_error (bags st) b with
  | None => None
  | Some x =>
      match impl_fork (layers st) (impl x) with
      | None => None
      | Some (h, a) =>
          option_map (fun h => (h, a))
            (fold_opt (fun h f =>
               match nth_error (bags st) f with
               | None => None
               | Some y => match merge_impl h KeepOriginal KeepOriginal a (impl y) with
                           | Some (h, false) => Some h
                           | _ => None
                           end
               end) (flatten_fallbacks st b) h)
      end
  end.
(** 144-151 MergeFallbacks, 113-118 FromImpl: the result is a new bag *)
Definition merge_fallbacks (st : state) (b : nat) : option state :=
  match nth_error (bags st) b with
  | None => None
  | Some x =>
      match fallbacks x with
      | [] => fallback_free_fork st b false
      | _ => option_map (fun '(h, a) => mkState h (bags st ++ [mkBag a true false []]))
               (merge_fallbacks_to_fork st b)
      end
  end.
(** 153-171 MergeInplace; the flag: done without a conflict or other error *)
Definition policy_of (overwrite allow : bool) : policy :=
  if allow then if overwrite then Overwrite else KeepOriginal else RaiseOnConflict.
Definition merge_inplace (st : state) (b other : nat) (overwrite allow_data allow_schema : bool) : state * bool :=
  match mutable_impl st b with
  | None => (st, false)
  | Some (st, a) =>
      let dp := policy_of overwrite allow_data in
      let sp := policy_of overwrite allow_schema in
      match nth_error (bags st) other with
      | None => (st, false)
      | Some y =>
          match (match fallbacks y with
                 | [] => Some (layers st, impl y)
                 | _ => merge_fallbacks_to_fork st other
                 end) with
          | None => (st, false)
          | Some (h, c) =>
              match merge_impl h dp sp a c with
              | None => (st, false)
              | Some (h, err) => (mkState h (bags st), negb err)
              end
          end
      end
  end.
(** 173-192 CreateOverwritingMergeUpdate: refused with fallbacks; the update is a
    new bag, made immutable *)
Definition overwriting_update (st : state) (b other : nat) : option state :=
  match nth_error (bags st) b, nth_error (bags st) other with
  | Some x, Some y =>
      match fallbacks x with
      | _ :: _ => None
      | [] =>
          match (match fallbacks y with
                 | [] => Some (layers st, impl y)
                 | _ => merge_fallbacks_to_fork st other
                 end) with
          | None => None
          | Some (h, c) =>
              match update_impl h (impl x) c with
              | None => None
              | Some (h, u) => Some (mkState (freeze h u) (bags st ++ [mkBag u false false []]))
              end
          end
      end
  | _, _ => None
  end.

(** ** All operations on bags *)
Inductive bag_op :=
  | BNew (mutable : bool)
  | BWithFallbacks (fbs : list nat)
  | BFork (b : nat) (immutable : bool)
  | BFreeze (b : nat)
  | BMakeImmutable (b : nat)
  | BSetAttr (b : nat) (o : ObjectId) (attr : string) (v : ditem)
  | BSetAttrs (b : nat) (objs : list (option ObjectId)) (ids : list ObjectId) (has_small : bool) (attr : string) (vs : slice)
  | BCreate (b : nat) (alloc : ObjectId) (fields : list (string * dslice))
  | BSetFull (b : nat) (alloc : ObjectId) (attr : string) (s : dslice)
  | BEditList (b : nat) (o : ObjectId) (update_size : N) (f : list ditem -> list ditem)
  | BEditDict (b : nat) (o : ObjectId) (op : dict_op)
  | BMerge (b other : nat) (overwrite allow_data allow_schema : bool)
  | BMergeFallbacks (b : nat)
  | BUpdate (b other : nat).
Definition or_same (st : state) (r : option state) : state * bool :=
  match r with Some st => (st, true) | None => (st, false) end.
(** the new state, and whether the operation succeeded *)
Definition step (st : state) (op : bag_op) : state * bool :=
  match op with
  | BNew mut => (new_bag st mut [], true)
  | BWithFallbacks fbs => or_same st (immutable_with_fallbacks st fbs)
  | BFork b imm => or_same st (fork st b imm)
  | BFreeze b => or_same st (option_map fst (freeze_bag st b))
  | BMakeImmutable b => or_same st (make_immutable st b)
  | BSetAttr b o attr v => write_bag st b (fun h a => set_attr h a o attr v)
  | BSetAttrs b objs ids has_small attr vs => write_bag st b (fun h a => set_attrs h a objs ids has_small attr vs)
  | BCreate b alloc fields => write_bag st b (fun h a => create_objects h a alloc fields)
  | BSetFull b alloc attr s => write_bag st b (fun h a => set_attr_full h a alloc attr s)
  | BEditList b o n f => write_bag st b (fun h a => edit_list h a o n f)
  | BEditDict b o op => write_bag st b (fun h a => edit_dict iter h a o op)
  | BMerge b other ow ad asch => merge_inplace st b other ow ad asch
  | BMergeFallbacks b => or_same st (merge_fallbacks st b)
  | BUpdate b other => or_same st (overwriting_update st b other)
  end.
Definition run (ops : list bag_op) (st : state) : state := fold_left (fun st op => fst (step st op)) ops st.
End Dicts.
