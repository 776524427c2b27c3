(** Dicts with layers: koladata/internal/dict.h, dict.cc. *)
From Coq Require Import NArith ZArith List Bool Arith.
From Verif Require Import ObjectIdModel SchemaModel ItemModel.
Import ListNotations.
Local Open Scope nat_scope.

(** data_item.h:245-269 DataItem::Eq: same type and same value. (Floats, which are
    compared as numbers there, are no keys; see [unsupported_key].) *)
Definition list_N_eq_dec : forall a b : list N, {a = b} + {a <> b} := list_eq_dec N.eq_dec.
Definition oid_eq_dec (a b : ObjectId) : {a = b} + {a <> b}.
Proof. decide equality; apply N.eq_dec. Defined.
Definition dtype_eq_dec (a b : dtype) : {a = b} + {a <> b}.
Proof. decide equality. Defined.
Definition cval_eq_dec (k : kind) : forall a b : cval k, {a = b} + {a <> b} :=
  match k with
  | KObjectId => oid_eq_dec
  | KInt32 => Z.eq_dec | KInt64 => Z.eq_dec
  | KFloat32 => N.eq_dec | KFloat64 => N.eq_dec
  | KBool => Bool.bool_dec
  | KUnit => fun a b => left (match a, b with tt, tt => eq_refl end)
  | KText => list_N_eq_dec | KBytes => list_N_eq_dec
  | KExprQuote => N.eq_dec
  | KDType => dtype_eq_dec
  end.
Definition value_eqb (a b : value) : bool :=
  match a, b with
  | existT _ ka va, existT _ kb vb =>
      match kind_eq_dec ka kb with
      | left e => if cval_eq_dec kb (eq_rect ka cval va kb e) vb then true else false
      | right _ => false
      end
  end.

(** absl::flat_hash_map<DataItem, DataItem>: each key once. In which order it is
    iterated over is not specified: [iter] below, any order, but the same one each
    time as long as the map is not changed. *)
Definition dmap := list (value * ditem).
Fixpoint m_find (m : dmap) (k : value) : option ditem :=
  match m with
  | [] => None
  | (k', v) :: r => if value_eqb k' k then Some v else m_find r k
  end.
Fixpoint m_set (m : dmap) (k : value) (v : ditem) : dmap :=
  match m with
  | [] => [(k, v)]
  | (k', v') :: r => if value_eqb k' k then (k', v) :: r else (k', v') :: m_set r k v
  end.

(** dict.h:165-187. [addr]: the address of the object, for comparing pointers. *)
Inductive dict := mkDict (addr : N) (data_ : dmap) (parent_ : option dict).
Definition d_addr (d : dict) : N := let 'mkDict a _ _ := d in a.
Definition d_data (d : dict) : dmap := let 'mkDict _ m _ := d in m.
Definition d_parent (d : dict) : option dict := let 'mkDict _ _ p := d in p.

(** dict.h:52-63 IsUnsupportedKeyType, IsUnsupportedDataItemKeyType *)
Definition unsupported_kind (k : kind) : bool :=
  match k with KFloat32 | KFloat64 | KExprQuote => true | _ => false end.
Definition unsupported_key (k : ditem) : bool :=
  match k with None => true | Some (existT _ k _) => unsupported_kind k end.

(** dict.h:69-80 Set *)
Definition d_set (d : dict) (key : ditem) (v : ditem) : dict :=
  let 'mkDict a m p := d in
  match key with
  | Some k => if unsupported_key key then d else mkDict a (m_set m k v) p
  | None => d
  end.

(** dict.h:83-92 Get *)
Fixpoint d_get (d : dict) (k : value) : option ditem :=
  let 'mkDict _ m p := d in
  match m_find m k with
  | Some v => Some v
  | None => match p with Some p => d_get p k | None => None end
  end.

(** dict.h:94-124 GetOrAssign: the value returned and the new dict *)
Definition d_get_or_assign (d : dict) (key : ditem) (v : ditem) : ditem * dict :=
  let 'mkDict a m p := d in
  match key with
  | None => (None, d)
  | Some k =>
      if unsupported_key key then (None, d)
      else match p with
           | None =>
               match m_find m k with
               | Some w => (w, d)
               | None => (v, mkDict a (m_set m k v) p)
               end
           | Some p' =>
               match m_find m k with
               | Some w => (w, d)
               | None =>
                   match d_get p' k with
                   | Some w => (w, d)
                   | None => (v, mkDict a (m_set m k v) p)
                   end
               end
           end
  end.

(** dict.h:171-177 FindFirstNonEmpty *)
Fixpoint first_non_empty (d : dict) : option dict :=
  match d with
  | mkDict _ [] p => match p with Some p => first_non_empty p | None => None end
  | mkDict _ _ _ => Some d
  end.

Section Iter.
Variable iter : dmap -> dmap.

(** dict.cc:32-81 KeyValueCollector: keys and values of parents and fallbacks that
    are not in the main dict. Keys and values are collected by the same loop; here
    both at once. *)
Record collector := mkCol { orig : dmap; used : list value; out : list (value * ditem) }.
Definition in_map (m : dmap) (k : value) : bool := match m_find m k with Some _ => true | None => false end.
Definition in_keys (l : list value) (k : value) : bool := existsb (fun x => value_eqb x k) l.
(** dict.cc:70-78; [more]: the test of line 74 *)
Definition collect_map (m : dmap) (more : bool) (c : collector) : collector :=
  fold_left (fun c kv =>
    if negb (in_map (orig c) (fst kv)) && negb (in_keys (used c) (fst kv))
    then mkCol (orig c) (if more then fst kv :: used c else used c) (out c ++ [kv])
    else c) (iter m) c.
(** the loop of line 54 until [dict] is null; [stop]: where [get_parent] gives up *)
Fixpoint collect_chain (stop : option N) (d : dict) (fallbacks : bool) (c : collector) : collector :=
  let 'mkDict _ m p := d in
  match p with
  | Some p' =>
      if match stop with Some s => (d_addr p' =? s)%N | None => false end
      then collect_map m fallbacks c
      else collect_chain stop p' fallbacks (collect_map m true c)
  | None => collect_map m fallbacks c
  end.
(** dict.cc:56-69 *)
Fixpoint collect_fallbacks (fbs : list dict) (c : collector) : collector :=
  match fbs with
  | [] => c
  | f :: r =>
      let c := mkCol [] (map fst (iter (orig c)) ++ used c) (out c) in
      collect_fallbacks r
        (collect_chain None f (match r with [] => false | _ => true end) c)
  end.

(** dict.cc:83-102, 137-156 GetKeys and GetValues together *)
Definition nonempty {A} (l : list A) : bool := match l with [] => false | _ => true end.
Definition items_of (d : dict) (fbs : list dict) : list (value * ditem) :=
  let own := iter (d_data d) in
  if match d_parent d with Some _ => true | None => nonempty fbs end
  then
    let c := mkCol (d_data d) [] own in
    let c := match d_parent d with
             | Some p => collect_chain None p (nonempty fbs) c
             | None => c
             end in
    out (collect_fallbacks fbs c)
  else own.
Fixpoint d_items_fb (fbs : list dict) : list (value * ditem) :=
  match fbs with
  | [] => []
  | f :: r => match first_non_empty f with None => d_items_fb r | Some d => items_of d r end
  end.
Definition d_items (d : dict) (fbs : list dict) : list (value * ditem) := d_items_fb (d :: fbs).
Definition d_keys (d : dict) (fbs : list dict) : list value := map fst (d_items d fbs).
Definition d_values (d : dict) (fbs : list dict) : list ditem := map snd (d_items d fbs).

(** dict.h:42-50 Clear *)
Definition d_clear (d : dict) : dict :=
  mkDict (d_addr d) (fold_left (fun m k => m_set m k None) (d_keys d []) []) None.

(** dict.h:151-160 GetSizeNoFallbacks *)
Definition d_size (d : dict) : nat :=
  match first_non_empty d with
  | None => 0
  | Some d =>
      match d_parent d with
      | None => length (d_data d)
      | Some _ => length (d_keys d [])
      end
  end.

(** dict.cc:111-135 GetModifiedKeys *)
Definition d_modified_keys (d : dict) (parent : option dict) : list value :=
  match first_non_empty d with
  | None => []
  | Some d =>
      let parent := match parent with Some p => first_non_empty p | None => None end in
      let stop := option_map d_addr parent in
      if match stop with Some s => (d_addr d =? s)%N | None => false end then []
      else
        let own := iter (d_data d) in
        match d_parent d with
        | None => map fst own
        | Some p =>
            if match stop with Some s => (d_addr p =? s)%N | None => false end then map fst own
            else map fst (out (collect_chain stop p false (mkCol (d_data d) [] own)))
        end
  end.

(** dict.cc:104-109, 158-173 GetSortedKeys, GetSortedByKeyValues; std::sort is
    [sort_keys] on keys and [sort_idx] on positions, each with DataItem::Less *)
Section Sorted.
Variable sort_keys : list value -> list value.
Variable sort_idx : list value -> list nat.
Definition d_sorted_keys (d : dict) (fbs : list dict) : list value := sort_keys (d_keys d fbs).
Definition d_sorted_values (d : dict) (fbs : list dict) : list (option ditem) :=
  let keys := d_keys d fbs in
  let values := d_values d fbs in
  map (fun i => nth_error values i) (sort_idx keys).
End Sorted.

(** data_bag.cc:2555-2568 UpdateFilterKeysWithPresentValues, 2596-2599 *)
Definition d_keys_with_values (d : dict) (fbs : list dict) : list value :=
  let keys := d_keys d fbs in
  let values := d_values d fbs in
  map fst (filter (fun kv => match snd kv with Some _ => true | None => false end) (combine keys values)).

(** ** A dict of a bag through its history; [Derive a]: a new layer at address [a]
    (dict.h:199-217) is put on top *)
Inductive dict_op :=
  | DSetKey (k : ditem) (v : ditem)
  | DGetOrAssign (k : ditem) (v : ditem)
  | DClear
  | DDerive (a : N).
Definition derive (a : N) (d : dict) : dict :=
  mkDict a [] (match d_data d with [] => d_parent d | _ => Some d end).
Definition dict_step (d : dict) (o : dict_op) : dict :=
  match o with
  | DSetKey k v => d_set d k v
  | DGetOrAssign k v => snd (d_get_or_assign d k v)
  | DClear => d_clear d
  | DDerive a => derive a d
  end.
Definition dict_run (ops : list dict_op) (d : dict) : dict := fold_left dict_step ops d.
End Iter.
