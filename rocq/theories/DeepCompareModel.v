(** Deep comparison of two slices (kd.testing.assert_equivalent): DeepComparator with
    EquivalentComparator of koladata/internal/op_utils (deep_comparator.h, deep_equivalent.cc,
    deep_diff.cc, traverse_helper.h, object_finder.h) and DeepEquivalentMismatches of
    koladata/testing/traversing_utils.cc.

    The two bags are read through the functions of [bag]; what those return is arbitrary.
    The bag of the result is a graph: a node for each pair of items that were compared and for
    each difference, an edge for each attribute, list item or dict value that was saved. *)
From Coq Require Import String List Bool Arith NArith ZArith.
Import ListNotations.
Local Open Scope string_scope.
Local Open Scope nat_scope.
Local Open Scope list_scope.

(** ** Items *)

(** object_id.h: the flags of an ObjectId that the comparison reads *)
Inductive okind := KEntity | KList | KDict | KSchema | KNoFollow.
(** dtype.h:285-308 *)
Inductive dtype := TObject | TSchema | TItemId | TString | TOther (n : N).
Inductive oprim := OBool | OUnit | OBytes | OExpr.
(** types.h:42-59 ScalarVariant. A float is NaN ([None]) or a point of the order of the floats. *)
Inductive item :=
| Missing
| Obj (k : okind) (n : N)
| Int (wide : bool) (v : Z)
| Float (wide : bool) (v : option Z)
| Other (t : oprim) (v : N)
| Text (s : string)
| DType (d : dtype).

Definition okind_eq_dec (a b : okind) : {a = b} + {a <> b}. Proof. decide equality. Defined.
Definition dtype_eq_dec (a b : dtype) : {a = b} + {a <> b}. Proof. decide equality; apply N.eq_dec. Defined.
Definition oprim_eq_dec (a b : oprim) : {a = b} + {a <> b}. Proof. decide equality. Defined.
Definition item_eq_dec (a b : item) : {a = b} + {a <> b}.
Proof.
  decide equality; try apply N.eq_dec; try apply Z.eq_dec; try apply bool_dec; try apply string_dec;
    try apply okind_eq_dec; try apply dtype_eq_dec; try apply oprim_eq_dec.
  decide equality; apply Z.eq_dec.
Defined.

Definition okind_rank (k : okind) : N :=
  match k with KEntity => 0 | KList => 1 | KDict => 2 | KSchema => 3 | KNoFollow => 4 end%N.
Definition dtype_code (d : dtype) : N :=
  match d with TObject => 0 | TSchema => 1 | TItemId => 2 | TString => 3 | TOther n => 4 + n end%N.
(** The index in ScalarVariant, types.h:42-59 *)
Definition type_id (x : item) : N :=
  match x with
  | Missing => 0 | Obj _ _ => 1
  | Int false _ => 2 | Int true _ => 3
  | Float false _ => 4 | Float true _ => 5
  | Other OBool _ => 6 | Other OUnit _ => 7
  | Text _ => 8 | Other OBytes _ => 9
  | DType _ => 10 | Other OExpr _ => 11
  end%N.

Definition has_value (x : item) : bool := match x with Missing => false | _ => true end.
Definition is_obj (x : item) : bool := match x with Obj _ _ => true | _ => false end.
(** data_item.h:161-171 *)
Definition is_nan (x : item) : bool := match x with Float _ None => true | _ => false end.
Definition is_list (x : item) : bool := match x with Obj KList _ => true | _ => false end.
Definition is_dict (x : item) : bool := match x with Obj KDict _ => true | _ => false end.
Definition is_schema (x : item) : bool :=
  match x with Obj KSchema _ => true | Obj KNoFollow _ => true | _ => false end.

(** data_item.h:245-269, 370-403: integers of any width are compared by value, so are floats *)
Definition item_eqb (a b : item) : bool :=
  match a, b with
  | Int _ x, Int _ y => Z.eqb x y
  | Float _ (Some x), Float _ (Some y) => Z.eqb x y
  | Float _ _, Float _ _ => false
  | _, _ => if item_eq_dec a b then true else false
  end.
(** data_item.h:271-303, for items of one type; ObjectIds are compared as numbers *)
Definition item_ltb (a b : item) : bool :=
  match a, b with
  | Int _ x, Int _ y => Z.ltb x y
  | Float _ (Some x), Float _ (Some y) => Z.ltb x y
  | Obj k x, Obj k' y => N.ltb (okind_rank k + 5 * x) (okind_rank k' + 5 * y)
  | Other _ x, Other _ y => N.ltb x y
  | Text x, Text y => match String.compare x y with Lt => true | _ => false end
  | DType x, DType y => N.ltb (dtype_code x) (dtype_code y)
  | _, _ => false
  end.

(** ** Bags *)
Inductive error :=
| ErrBag (n : N)          (* of a read *)
| ErrSchemaType           (* traverse_helper.h:429 *)
| ErrListSchema           (* traverse_helper.h:717 *)
| ErrDictSchema           (* traverse_helper.h:724 *)
| ErrKey                  (* traverse_helper.h:498, and an index out of range *)
| ErrNoObjSchema          (* data_bag.cc:834 *)
| ErrToken                (* attributes of a primitive *)
| ErrSizes                (* deep_comparator.h:117 *)
| ErrCreateToken          (* deep_equivalent.cc:52 *)
| ErrMaxCount.            (* traversing_utils.cc:57 *)
Inductive res (A : Type) := Ok (a : A) | Err (e : error).
Arguments Ok {A}. Arguments Err {A}.
Definition bind {A B} (r : res A) (f : A -> res B) : res B :=
  match r with Ok a => f a | Err e => Err e end.
Notation "'do' x <- r ; k" := (bind r (fun x => k)) (at level 200, x name, r at level 100, k at level 200).

(** The reads of DataBagImpl (with its fallbacks) that TraverseHelper makes *)
Record bag := mkBag {
  b_names : item -> res (list string);           (* GetPresentSchemaAttrs *)
  b_schema_attr : item -> string -> res item;    (* GetSchemaAttr *)
  b_attr : item -> string -> res item;           (* GetAttr *)
  b_list : item -> res (list item);              (* ExplodeList *)
  b_keys : item -> res (list item);              (* GetDictKeys *)
  b_values : item -> res (list item) }.          (* GetDictValues *)

(** schema_attrs.h *)
Definition kSchemaAttr : string := "__schema__".
Definition kItems : string := "__items__".
Definition kKeys : string := "__keys__".
Definition kValues : string := "__values__".
Definition kName : string := "__schema_name__".
Definition kMetadata : string := "__schema_metadata__".

(** traverse_helper.h:106-109 Transition *)
Record node := mkNode { n_item : item; n_schema : item }.

(** traverse_helper.h:53-65, 112-121 TransitionKey; the index of a slice item is -1 ([None]) when
    a DataItem is compared *)
Inductive key :=
| KListItem (i : nat)
| KListNoItems
| KDictKey (i : nat) (v : item)
| KDictNoKeys
| KDictValue (i : nat) (v : item)
| KDictNoValues
| KAttr (a : string)
| KSchemaName (a : string)
| KSliceItem (i : option nat).

(** traverse_helper.h:243-407 TransitionsSet *)
Inductive tset :=
| TSList (t : item) (items : list item)
| TSDict (kt vt : item) (keys values : list item)
| TSAttrs (is_schema : bool) (names : list string)
| TSEmpty.

Fixpoint dict_keys_from (i : nat) (ks : list item) : list key :=
  match ks with
  | [] => []
  | k :: ks => KDictKey i k :: KDictValue i k :: dict_keys_from (S i) ks
  end.
(** traverse_helper.h:351-385 GetTransitionKeys *)
Definition transition_keys (ts : tset) : list key :=
  match ts with
  | TSList _ [] => [KListNoItems]
  | TSList _ l => map KListItem (seq 0 (length l))
  | TSDict _ _ [] _ => [KDictNoKeys; KDictNoValues]
  | TSDict _ _ ks _ => dict_keys_from 0 ks
  | TSAttrs s names => map (if s then KSchemaName else KAttr) names
  | TSEmpty => []
  end.

Definition is_special (a : string) : bool := String.eqb a kName || String.eqb a kMetadata.
Definition has_name (a : string) (l : list string) : bool := existsb (String.eqb a) l.

(** traverse_helper.h:646-656 ListTransitions *)
Definition list_transitions (b : bag) (x s : item) : res tset :=
  do t <- b_schema_attr b s kItems;
  do l <- b_list b x;
  Ok (TSList t l).
(** traverse_helper.h:658-673 DictTransitions *)
Definition dict_transitions (b : bag) (x s : item) : res tset :=
  do kt <- b_schema_attr b s kKeys;
  do vt <- b_schema_attr b s kValues;
  do ks <- b_keys b x;
  do vs <- b_values b x;
  Ok (TSDict kt vt ks vs).
(** traverse_helper.h:675-747 EntityTransitions, with remove_special_attrs *)
Definition entity_transitions (b : bag) (x s : item) : res tset :=
  match s with
  | Obj KNoFollow _ => Ok TSEmpty
  | _ =>
      do names <- b_names b s;
      if has_name kItems names then
        if length names =? 1 then list_transitions b x s else Err ErrListSchema
      else if has_name kKeys names || has_name kValues names then
        if (length names =? 2) && has_name kKeys names && has_name kValues names
        then dict_transitions b x s else Err ErrDictSchema
      else Ok (TSAttrs false (filter (fun a => negb (is_special a)) names))
  end.
(** traverse_helper.h:749-768 SchemaTransitions *)
Definition schema_transitions (b : bag) (x : item) : res tset :=
  match x with
  | Obj KNoFollow _ => Ok TSEmpty
  | Obj _ _ => do names <- b_names b x; Ok (TSAttrs true names)
  | _ => Ok TSEmpty
  end.
(** traverse_helper.h:414-430 GetTransitions *)
Definition get_transitions (b : bag) (x s : item) : res tset :=
  match s with
  | Obj _ _ => entity_transitions b x s
  | DType TObject => Ok TSEmpty
  | DType TSchema => schema_transitions b x
  | DType _ => Ok TSEmpty
  | _ => Err ErrSchemaType
  end.

(** traverse_helper.h:540-547 GetSchemaAttrSchema *)
Definition schema_of_schema_attr (a : string) : item :=
  if String.eqb a kName then DType TString
  else if String.eqb a kMetadata then DType TObject
  else DType TSchema.
Definition nth_res {A} (l : list A) (i : nat) : res A :=
  match nth_error l i with Some x => Ok x | None => Err ErrKey end.
(** traverse_helper.h:463-521 TransitionByKey *)
Definition by_key (b : bag) (x s : item) (ts : tset) (k : key) : res node :=
  match k, ts with
  | KListItem i, TSList t l => do y <- nth_res l i; Ok (mkNode y t)
  | KListNoItems, TSList t l => Ok (mkNode Missing t)
  | KDictKey i v, TSDict kt _ _ _ => Ok (mkNode v kt)
  | KDictValue i v, TSDict _ vt _ vs => do y <- nth_res vs i; Ok (mkNode y vt)
  | KDictNoKeys, TSDict kt _ _ _ => Ok (mkNode Missing kt)
  | KDictNoValues, TSDict _ vt _ _ => Ok (mkNode Missing vt)
  | KAttr a, _ => do v <- b_attr b x a; do t <- b_schema_attr b s a; Ok (mkNode v t)
  | KSchemaName a, _ => do t <- b_schema_attr b x a; Ok (mkNode t (schema_of_schema_attr a))
  | _, _ => Err ErrKey
  end.

(** deep_comparator.h:209-216 with data_bag.cc:827-838: the schema of an object is read from it *)
Definition resolve (b : bag) (n : node) : res item :=
  match n_schema n, n_item n with
  | DType TObject, Obj _ _ =>
      do s <- b_attr b (n_item n) kSchemaAttr;
      if has_value s then Ok s else Err ErrNoObjSchema
  | s, _ => Ok s
  end.

(** ** EquivalentComparator *)

(** deep_equivalent.h:39-46 *)
Record params := mkParams { p_partial : bool; p_schemas : bool; p_ids : bool }.

(** deep_equivalent.cc:162-165 *)
Definition schema_mismatch (p : params) (l r : node) : bool :=
  p_schemas p && negb (item_eqb (n_schema l) (n_schema r)).
(** deep_equivalent.cc:130-155 Equal *)
Definition equal (p : params) (l r : node) : bool :=
  if schema_mismatch p l r then false
  else if negb (is_obj (n_item l)) || negb (is_obj (n_item r)) || p_ids p then
    if is_nan (n_item l) && is_nan (n_item r) then true else item_eqb (n_item l) (n_item r)
  else if negb (Bool.eqb (is_list (n_item l)) (is_list (n_item r))) then false
  else if negb (Bool.eqb (is_dict (n_item l)) (is_dict (n_item r))) then false
  else if negb (Bool.eqb (is_schema (n_item l)) (is_schema (n_item r))) then false
  else if item_eqb (n_schema l) (DType TItemId)
       then item_eqb (n_schema r) (n_schema l) && item_eqb (n_item l) (n_item r)
  else true.

Definition key_rank (k : key) : nat :=
  match k with
  | KListItem _ => 0 | KListNoItems => 1 | KDictKey _ _ => 2 | KDictNoKeys => 3 | KDictValue _ _ => 4
  | KDictNoValues => 5 | KAttr _ => 6 | KSchemaName _ => 7 | KSliceItem _ => 10
  end.
Definition key_value (k : key) : item :=
  match k with
  | KDictKey _ v => v | KDictValue _ v => v | KAttr a => Text a | KSchemaName a => Text a | _ => Missing
  end.
(** deep_equivalent.cc:111-129 CompareOrder *)
Definition compare_order (a b : key) : comparison :=
  if negb (key_rank a =? key_rank b) then Nat.compare (key_rank a) (key_rank b)
  else match a, b with
       | KListItem i, KListItem j => Nat.compare i j
       | _, _ =>
           if negb (N.eqb (type_id (key_value a)) (type_id (key_value b)))
           then N.compare (type_id (key_value a)) (type_id (key_value b))
           else if item_eqb (key_value a) (key_value b) then Eq
           else if item_ltb (key_value a) (key_value b) then Lt else Gt
       end.

Definition is_dict_key (k : key) : bool := match k with KDictKey _ _ => true | _ => false end.
Definition item_or_value (k : key) : bool :=
  match k with KListItem _ => true | KDictValue _ _ => true | _ => false end.

(** ** The result *)

(** deep_diff.cc:167-229: what a difference holds *)
Inductive diff :=
| DLeft (l : node)
| DRight (r : node)
| DMismatch (l r : node) (schemas : bool).
Inductive tkind := TkList | TkDict | TkObject.
(** A node of the result: an item itself (deep_diff.cc:91), a new list, dict or object, or a
    difference; [n] is the new ObjectId *)
Inductive rnode := RVal (x : item) | RTok (k : tkind) (n : nat) | RDiff (n : nat) (d : diff).

Definition node_eq_dec (a b : node) : {a = b} + {a <> b}. Proof. decide equality; apply item_eq_dec. Defined.
Definition diff_eq_dec (a b : diff) : {a = b} + {a <> b}.
Proof. decide equality; try apply node_eq_dec; apply bool_dec. Defined.
Definition rnode_eq_dec (a b : rnode) : {a = b} + {a <> b}.
Proof.
  decide equality; try apply item_eq_dec; try apply Nat.eq_dec; try apply diff_eq_dec. decide equality.
Defined.

Record edge := mkEdge { e_from : rnode; e_key : key; e_to : rnode }.
(** token_map_, to_compare_ and the bag of the result: the next new ObjectId, the edges, and the
    items that were given a schema (ITEMID) in it *)
Record state := mkState {
  s_tokens : list (node * node * rnode);
  s_stack : list (rnode * node * node);
  s_next : nat;
  s_edges : list edge;
  s_marked : list item }.
Definition empty_state : state := mkState [] [] 0 [] [].

(** Two keys that the result keeps in one place: dict keys that are equal as items *)
Definition same_place (a b : key) : bool :=
  match a, b with
  | KDictValue _ v, KDictValue _ w => item_eqb v w
  | KListItem i, KListItem j => i =? j
  | KListNoItems, KListNoItems | KDictNoKeys, KDictNoKeys | KDictNoValues, KDictNoValues => true
  | KAttr x, KAttr y => String.eqb x y
  | KSchemaName x, KSchemaName y => String.eqb x y
  | _, _ => false
  end.
Definition set_edge (es : list edge) (t : rnode) (k : key) (v : rnode) : list edge :=
  mkEdge t k v ::
  filter (fun e => negb ((if rnode_eq_dec (e_from e) t then true else false) && same_place (e_key e) k)) es.
(** deep_diff.cc:113-165 SaveTransition; the attributes of schemas and the schemas of empty lists and
    dicts have names of their own in the result (lines 134, 252) *)
Definition save_transition (st : state) (t : rnode) (k : key) (v : rnode) : res state :=
  if is_dict_key k then Ok st
  else match t with
       | RVal _ => Err ErrToken
       | _ => Ok (mkState (s_tokens st) (s_stack st) (s_next st) (set_edge (s_edges st) t k v) (s_marked st))
       end.
(** deep_diff.cc:177-180, 194-197, 220-227 *)
Definition mark (n : node) (m : list item) : list item :=
  match n_schema n, n_item n with DType TObject, Obj _ _ => n_item n :: m | _, _ => m end.
Definition mark_diff (d : diff) (m : list item) : list item :=
  match d with DLeft l => mark l m | DRight r => mark r m | DMismatch l r _ => mark r (mark l m) end.
(** deep_diff.cc:167-243: a new ObjectId for the wrapper of the difference *)
Definition create_diff (st : state) (d : diff) : state * rnode :=
  (mkState (s_tokens st) (s_stack st) (S (s_next st)) (s_edges st) (mark_diff d (s_marked st)),
   RDiff (s_next st) d).
(** deep_diff.cc:41-78 *)
Definition save_diff (st : state) (t : rnode) (k : key) (d : diff) : res state :=
  if is_dict_key k then Ok st
  else let '(st, v) := create_diff st d in save_transition st t k v.

(** deep_equivalent.cc:68-82 LhsOnlyAttribute *)
Definition lhs_only (p : params) (st : state) (t : rnode) (k : key) (l : node) : res state :=
  if p_partial p && negb (item_or_value k) then Ok st
  else if negb (has_value (n_item l)) && negb (p_schemas p) then Ok st
  else save_diff st t k (DLeft l).
(** deep_equivalent.cc:83-90 RhsOnlyAttribute *)
Definition rhs_only (p : params) (st : state) (t : rnode) (k : key) (r : node) : res state :=
  if negb (has_value (n_item r)) && negb (p_schemas p) then Ok st
  else save_diff st t k (DRight r).
(** deep_equivalent.cc:91-103 LhsRhsMismatch *)
Definition both_mismatch (p : params) (st : state) (t : rnode) (k : key) (l r : node) : res state :=
  if p_partial p && negb (item_or_value k) && negb (has_value (n_item r)) then Ok st
  else save_diff st t k (DMismatch l r (schema_mismatch p l r)).

(** deep_diff.cc:90-111 CreateTokenLike *)
Definition token_like (st : state) (x : item) : state * rnode :=
  match x with
  | Obj k _ =>
      let tk := match k with KList => TkList | KDict => TkDict | _ => TkObject end in
      (mkState (s_tokens st) (s_stack st) (S (s_next st)) (s_edges st) (s_marked st), RTok tk (s_next st))
  | _ => (st, RVal x)
  end.
(** deep_equivalent.cc:47-61 CreateToken *)
Definition create_token (st : state) (l r : node) : res (state * rnode) :=
  if has_value (n_item l) then Ok (token_like st (n_item l))
  else if has_value (n_item r) then Err ErrCreateToken
  else Ok (token_like st (Obj KEntity 0)).

(** deep_comparator.h:160-166 *)
Definition equal_or_nan (a b : item) : bool := (is_nan a && is_nan b) || item_eqb a b.
Definition pair_eqb (a b : node * node) : bool :=
  equal_or_nan (n_item (fst a)) (n_item (fst b)) && item_eqb (n_schema (fst a)) (n_schema (fst b)) &&
  equal_or_nan (n_item (snd a)) (n_item (snd b)) && item_eqb (n_schema (snd a)) (n_schema (snd b)).
Fixpoint find_token (q : node * node) (m : list (node * node * rnode)) : option rnode :=
  match m with
  | [] => None
  | (q', t) :: m => if pair_eqb q' q then Some t else find_token q m
  end.
(** deep_comparator.h:181-194 AddToCompare; NeedDeepCompare is true (deep_equivalent.cc:156-159) *)
Definition add_to_compare (st : state) (l r : node) : res (state * rnode) :=
  match find_token (l, r) (s_tokens st) with
  | Some t => Ok (st, t)
  | None =>
      do x <- create_token st l r;
      let '(st, t) := x in
      Ok (mkState ((l, r, t) :: s_tokens st) ((t, l, r) :: s_stack st) (s_next st) (s_edges st) (s_marked st), t)
  end.

(** ** DeepComparator *)

(** deep_comparator.h:196-203: std::stable_sort *)
Fixpoint insert_key (k : key) (l : list key) : list key :=
  match l with
  | [] => [k]
  | x :: l' => match compare_order x k with Gt => k :: l | Lt => x :: insert_key k l' | Eq => k :: l end
  end.
Definition sort_keys (l : list key) : list key := fold_right insert_key [] l.

Inductive step := LeftOnly (k : key) | RightOnly (k : key) | Match (kl kr : key).
(** deep_comparator.h:245-287: which keys are taken together *)
Fixpoint merge_keys (ls : list key) : list key -> list step :=
  fix go (rs : list key) : list step :=
    match ls, rs with
    | [], _ => map RightOnly rs
    | _, [] => map LeftOnly ls
    | l :: ls', r :: rs' =>
        match compare_order l r with
        | Lt => LeftOnly l :: merge_keys ls' rs
        | Gt => RightOnly r :: go rs'
        | Eq => Match l r :: merge_keys ls' rs'
        end
    end.

(** deep_comparator.h:226-241, 251-279 *)
Definition do_step (p : params) (lb rb : bag) (t : rnode) (lx ls rx rs : item) (lts rts : tset)
    (st : state) (s : step) : res state :=
  match s with
  | LeftOnly k => do l <- by_key lb lx ls lts k; lhs_only p st t k l
  | RightOnly k => do r <- by_key rb rx rs rts k; rhs_only p st t k r
  | Match kl kr =>
      do l <- by_key lb lx ls lts kl;
      do r <- by_key rb rx rs rts kr;
      if equal p l r then
        do x <- add_to_compare st l r;
        let '(st, to) := x in save_transition st t kl to
      else both_mismatch p st t kl l r
  end.
Fixpoint do_steps (p : params) (lb rb : bag) (t : rnode) (lx ls rx rs : item) (lts rts : tset)
    (st : state) (l : list step) : res state :=
  match l with
  | [] => Ok st
  | s :: l => do st <- do_step p lb rb t lx ls rx rs lts rts st s; do_steps p lb rb t lx ls rx rs lts rts st l
  end.
(** deep_comparator.h:207-287: one pair *)
Definition compare_pair (p : params) (lb rb : bag) (st : state) (t : rnode) (l r : node) : res state :=
  do ls <- resolve lb l;
  do rs <- resolve rb r;
  do lts <- get_transitions lb (n_item l) ls;
  do rts <- get_transitions rb (n_item r) rs;
  do_steps p lb rb t (n_item l) ls (n_item r) rs lts rts st
    (merge_keys (sort_keys (transition_keys lts)) (sort_keys (transition_keys rts))).
(** deep_comparator.h:205-290 DeepCompare; [None]: not finished after [fuel] pairs *)
Fixpoint deep_compare (fuel : nat) (p : params) (lb rb : bag) (st : state) : option (res state) :=
  match s_stack st with
  | [] => Some (Ok st)
  | (t, l, r) :: rest =>
      match fuel with
      | 0 => None
      | S fuel =>
          match compare_pair p lb rb (mkState (s_tokens st) rest (s_next st) (s_edges st) (s_marked st)) t l r with
          | Err e => Some (Err e)
          | Ok st => deep_compare fuel p lb rb st
          end
      end
  end.

(** deep_comparator.h:127-146: the items of the slices *)
Fixpoint compare_items (p : params) (ls rs : item) (st : state) (l r : list item)
  : res (state * list rnode) :=
  match l, r with
  | x :: l, y :: r =>
      let a := mkNode x ls in
      let b := mkNode y rs in
      do q <- (if equal p a b then add_to_compare st a b
               else Ok (create_diff st (DMismatch a b (schema_mismatch p a b))));
      let '(st, t) := q in
      do q <- compare_items p ls rs st l r;
      Ok (fst q, t :: snd q)
  | _, _ => Ok (st, [])
  end.
Definition or_missing (l : list item) : list item := match l with [] => [Missing] | _ => l end.
(** deep_comparator.h:112-149 CompareSlices *)
Definition compare_slices (fuel : nat) (p : params) (lb rb : bag) (l : list item) (ls : item) (r : list item) (rs : item)
  : option (res (state * list rnode)) :=
  if negb (length l =? length r) then Some (Err ErrSizes)
  else match compare_items p ls rs empty_state (or_missing l) (or_missing r) with
       | Err e => Some (Err e)
       | Ok (st, roots) =>
           match deep_compare fuel p lb rb st with
           | None => None
           | Some (Err e) => Some (Err e)
           | Some (Ok st) => Some (Ok (st, roots))
           end
       end.

(** ** The paths to the differences: ObjectFinder *)

(** The attributes, dict keys and items of a bag come in an order that is not specified *)
Section Find.
Variable order : list edge -> list edge.
Variable st : state.
Variable max_count : nat.

Definition edges_of (n : rnode) : list edge :=
  order (filter (fun e => if rnode_eq_dec (e_from e) n then true else false) (s_edges st)).
(** A dict has a key and a value for each saved value; keys have the schema OBJECT
    (deep_diff.cc:151-157, traverse_helper.h:361-369) *)
Definition children (n : rnode) : list (key * rnode) :=
  flat_map (fun e => match e_key e with
                     | KDictValue i v => [(KDictKey i v, RVal v); (e_key e, e_to e)]
                     | k => [(k, e_to e)]
                     end) (edges_of n).

(** previsit_stack_ with the items that were already processed, access_stack_ (reversed),
    used_items_, and the differences found *)
Record fstate := mkF {
  f_stack : list (rnode * key * bool);
  f_access : list key;
  f_used : list rnode;
  f_found : list (list key * diff) }.

Definition visited_once (n : rnode) : bool := match n with RVal x => is_obj x | _ => true end.
(** object_finder.h:118-143 Previsit; the callback adds nothing there, the schema of a difference is
    only known once it is processed *)
Definition previsit (f : fstate) (c : key * rnode) : fstate :=
  let '(k, n) := c in
  if visited_once n then
    if in_dec rnode_eq_dec n (f_used f) then f
    else mkF ((n, k, false) :: f_stack f) (f_access f) (n :: f_used f) (f_found f)
  else f.
(** object_finder.h:200-204 *)
Fixpoint pop_done (stack : list (rnode * key * bool)) (access : list key) : list (rnode * key * bool) * list key :=
  match stack with
  | (_, _, true) :: stack' => pop_done stack' (tl access)
  | _ => (stack, access)
  end.
(** object_finder.h:151-205, with deep_equivalent.cc:212-224 as the callback. What a difference
    holds is not traversed. *)
Definition process (f : fstate) : res fstate :=
  match f_stack f with
  | [] => Ok f
  | (n, k, _) :: rest =>
      let f := mkF ((n, k, true) :: rest) (k :: f_access f) (f_used f) (f_found f) in
      do f <- match n with
              | RVal x => if in_dec item_eq_dec x (s_marked st) then Ok f else Err ErrNoObjSchema
              | RDiff _ d =>
                  Ok (if length (f_found f) <? max_count
                      then mkF (f_stack f) (f_access f) (f_used f) (f_found f ++ [(rev (f_access f), d)])
                      else f)
              | RTok _ _ => Ok (fold_left previsit (children n) f)
              end;
      let '(stack, access) := pop_done (f_stack f) (f_access f) in
      Ok (mkF stack access (f_used f) (f_found f))
  end.
Fixpoint find_loop (fuel : nat) (f : fstate) : option (res fstate) :=
  match f_stack f with
  | [] => Some (Ok f)
  | _ =>
      match fuel with
      | 0 => None
      | S fuel =>
          match process f with
          | Err e => Some (Err e)
          | Ok f => find_loop fuel f
          end
      end
  end.
(** object_finder.h:59-89 TraverseSlice *)
Definition find_diffs (fuel : nat) (roots : list (key * rnode)) : option (res (list (list key * diff))) :=
  match find_loop fuel (fold_left previsit roots (mkF [] [] [] [])) with
  | None => None
  | Some (Err e) => Some (Err e)
  | Some (Ok f) => Some (Ok (f_found f))
  end.
End Find.

(** The first key of a path: object_finder.h:66-72 for slices, 83-87 for an item, and
    traversing_utils.cc:93-108 for empty slices *)
Definition root_keys (is_item : bool) (l : list item) : list key :=
  if is_item then [KSliceItem None]
  else match l with [] => [KSliceItem None] | _ => map (fun i => KSliceItem (Some i)) (seq 0 (length l)) end.

Inductive outcome := ShapesDiffer | Differences (l : list (list key * diff)).
(** traversing_utils.cc:53-121 DeepEquivalentMismatches *)
Definition mismatches (order : list edge -> list edge) (fuel : nat) (p : params) (max_count : Z)
    (lshape rshape : list (list nat)) (is_item : bool)
    (lb : bag) (l : list item) (ls : item) (rb : bag) (r : list item) (rs : item) : option (res outcome) :=
  if Z.ltb max_count 0 then Some (Err ErrMaxCount)
  else if list_eq_dec (list_eq_dec Nat.eq_dec) lshape rshape then
    match compare_slices fuel p lb rb l ls r rs with
    | None => None
    | Some (Err e) => Some (Err e)
    | Some (Ok (st, roots)) =>
        match find_diffs order st (Z.to_nat max_count) fuel (combine (root_keys is_item l) roots) with
        | None => None
        | Some (Err e) => Some (Err e)
        | Some (Ok found) => Some (Ok (Differences found))
        end
    end
  else Some (Ok ShapesDiffer).
