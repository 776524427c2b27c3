(** Model of py/koladata/ext/storage/data_slice_path.py: data slice paths, their
    text, and the paths that a schema allows. Views of a data slice manager
    (data_slice_manager_view.py) navigate along such paths.

    A text is the list of the code points of a Python string. *)
From Coq Require Import String Ascii.
From Coq Require Import NArith ZArith List Bool PeanoNat.
Import ListNotations.
Local Open Scope nat_scope.

Definition text := list N.

Fixpoint str (s : string) : text :=
  match s with
  | EmptyString => []
  | String c s => N_of_ascii c :: str s
  end.

Fixpoint text_eqb (a b : text) : bool :=
  match a, b with
  | [], [] => true
  | x :: a, y :: b => N.eqb x y && text_eqb a b
  | _, _ => false
  end.

(** s.startswith(p) and s.removeprefix(p): [None] if s does not start with p. *)
Fixpoint strip_prefix (p s : text) : option text :=
  match p, s with
  | [], _ => Some s
  | x :: p, y :: s => if N.eqb x y then strip_prefix p s else None
  | _ :: _, [] => None
  end.

(** data_slice_path.py:353-366 _get_prefix, of.split(before)[0] *)
Fixpoint get_prefix (before s : text) : text :=
  match strip_prefix before s with
  | Some _ => []
  | None => match s with [] => [] | c :: s => c :: get_prefix before s end
  end.

(** * Actions and paths *)

(** data_slice_path.py:125-257 *)
Inductive action :=
| DictGetKeys
| DictGetValues
| ListExplode
| GetAttr (attr_name : text).

(** data_slice_path.py:369-373 DataSlicePath *)
Definition path := list action.

Definition action_eqb (a b : action) : bool :=
  match a, b with
  | DictGetKeys, DictGetKeys => true
  | DictGetValues, DictGetValues => true
  | ListExplode, ListExplode => true
  | GetAttr s, GetAttr t => text_eqb s t
  | _, _ => false
  end.

(** data_slice_path.py:450-452 concat *)
Definition concat_paths (p q : path) : path := p ++ q.

(** data_slice_path.py:454-456 extended_with_action *)
Definition extended_with_action (p : path) (a : action) : path := p ++ [a].

(** data_slice_path.py:485-493 depth *)
Definition depth (p : path) : nat := length p.

(** data_slice_path.py:468-483 evaluate. The data slices and the evaluation of
    one action are arbitrary; [None] stands for a raised exception. *)
Fixpoint evaluate {Slice : Type} (eval_action : action -> Slice -> option Slice)
    (p : path) (x : Slice) : option Slice :=
  match p with
  | [] => Some x
  | a :: p =>
      match eval_action a x with
      | Some y => evaluate eval_action p y
      | None => None
      end
  end.

(** * Text of paths *)

(** What Python knows about characters and what Koda does with strings:
    [xid_start] and [xid_continue] tell which code points from 128 on may
    start and continue an identifier (str.isidentifier), [encode] is
    kd.strings.encode_base64(kd.strings.encode(_)) and [decode] is
    kd.strings.decode(kd.strings.decode_base64(_)), data_slice_path.py:243-252;
    [None] stands for a raised ValueError. *)
Record lexicon := Lexicon {
  xid_start : N -> bool;
  xid_continue : N -> bool;
  encode : text -> option text;
  decode : text -> option text }.

Definition is_letter (c : N) : bool :=
  ((65 <=? c)%N && (c <=? 90)%N) || ((97 <=? c)%N && (c <=? 122)%N)
  || N.eqb c 95.
Definition is_digit (c : N) : bool := (48 <=? c)%N && (c <=? 57)%N.

Definition starts_identifier (lx : lexicon) (c : N) : bool :=
  if (c <? 128)%N then is_letter c else xid_start lx c.
Definition continues_identifier (lx : lexicon) (c : N) : bool :=
  if (c <? 128)%N then is_letter c || is_digit c else xid_continue lx c.

(** data_slice_path.py:236-240, str.isidentifier *)
Definition isidentifier (lx : lexicon) (s : text) : bool :=
  match s with
  | [] => false
  | c :: s => starts_identifier lx c && forallb (continues_identifier lx) s
  end.

(** data_slice_path.py:140-141, 177-178, 214-215, 320-323 __str__. [None] if
    the attribute name cannot be encoded. *)
Definition action_text (lx : lexicon) (a : action) : option text :=
  match a with
  | DictGetKeys => Some (str ".get_keys()")
  | DictGetValues => Some (str ".get_values()")
  | ListExplode => Some (str "[:]")
  | GetAttr s =>
      if isidentifier lx s then Some (str "." ++ s)
      else match encode lx s with
           | Some b => Some (str ".get_attr(" ++ [34%N] ++ b ++ [34%N; 41%N])
           | None => None
           end
  end.

(** data_slice_path.py:458-460 to_string *)
Fixpoint to_string (lx : lexicon) (p : path) : option text :=
  match p with
  | [] => Some []
  | a :: p =>
      match action_text lx a, to_string lx p with
      | Some s, Some t => Some (s ++ t)
      | _, _ => None
      end
  end.

Inductive parse_error :=
| NoAttributeName        (* 269-271 *)
| NotQuoted              (* 272-276 *)
| NotBase64              (* 279-285 *)
| NotClosed              (* 287-292 *)
| EmptyName              (* 305-310 *)
| InvalidName            (* 311-317 *)
| NoValidPrefix.         (* 440-444 *)

Inductive prefix_result :=
| NotApplicable
| PrefixError (e : parse_error)
| Prefix (a : action) (rest : text).

(** data_slice_path.py:264-293, the part for '.get_attr(' *)
Definition parse_get_attr (lx : lexicon) (remainder : text) : prefix_result :=
  match remainder with
  | [] => PrefixError NoAttributeName
  | q :: remainder =>
      if negb (N.eqb q 34 || N.eqb q 39) then PrefixError NotQuoted
      else
        let b := get_prefix [q] remainder in
        match decode lx b with
        | None => PrefixError NotBase64
        | Some name =>
            let remainder := skipn (length b) remainder in
            match strip_prefix [q; 41%N] remainder with
            | None => PrefixError NotClosed
            | Some rest => Prefix (GetAttr name) rest
            end
        end
  end.

(** data_slice_path.py:295-318, the dot syntax *)
Definition parse_dot (lx : lexicon) (s : text) : prefix_result :=
  match strip_prefix (str ".") s with
  | None => NotApplicable
  | Some without_leading_dot =>
      let up_to_explode := get_prefix (str "[:]") without_leading_dot in
      let up_to_dot := get_prefix (str ".") without_leading_dot in
      let name :=
        if length up_to_explode <? length up_to_dot then up_to_explode
        else up_to_dot in
      match name with
      | [] => PrefixError EmptyName
      | _ =>
          if negb (isidentifier lx name) then PrefixError InvalidName
          else Prefix (GetAttr name) (skipn (length name) without_leading_dot)
      end
  end.

(** The four parse_from_data_slice_path_prefix methods. *)
Definition parse_keys (s : text) : prefix_result :=
  match strip_prefix (str ".get_keys()") s with
  | Some rest => Prefix DictGetKeys rest
  | None => NotApplicable
  end.
Definition parse_values (s : text) : prefix_result :=
  match strip_prefix (str ".get_values()") s with
  | Some rest => Prefix DictGetValues rest
  | None => NotApplicable
  end.
Definition parse_explode (s : text) : prefix_result :=
  match strip_prefix (str "[:]") s with
  | Some rest => Prefix ListExplode rest
  | None => NotApplicable
  end.
Definition parse_attr (lx : lexicon) (s : text) : prefix_result :=
  match strip_prefix (str ".get_attr(") s with
  | Some remainder => parse_get_attr lx remainder
  | None => parse_dot lx s
  end.

(** data_slice_path.py:421-444, the body of the while loop *)
Fixpoint first_applicable (l : list (text -> prefix_result)) (s : text)
  : prefix_result :=
  match l with
  | [] => NotApplicable
  | f :: l =>
      match f s with
      | NotApplicable => first_applicable l s
      | r => r
      end
  end.
Definition parse_prefix (lx : lexicon) : text -> prefix_result :=
  first_applicable [parse_keys; parse_values; parse_explode; parse_attr lx].

Inductive parse_result :=
| Parsed (p : path)
| ParseError (e : parse_error)
| Unfinished. (* the loop needs more rounds than the model grants *)

(** data_slice_path.py:420-445 *)
Fixpoint parse_loop (lx : lexicon) (fuel : nat) (s : text) (actions : path)
  : parse_result :=
  match s, fuel with
  | [], _ => Parsed actions
  | _, O => Unfinished
  | _, S fuel =>
      match parse_prefix lx s with
      | NotApplicable => ParseError NoValidPrefix
      | PrefixError e => ParseError e
      | Prefix a rest => parse_loop lx fuel rest (actions ++ [a])
      end
  end.

(** data_slice_path.py:375-445 parse_from_string *)
Definition parse_from_string (lx : lexicon) (s : text) : parse_result :=
  parse_loop lx (length s) s [].

(** * Schemas *)

(** A schema item: one with an item id, a primitive schema (or ITEMID or NONE)
    known by its name, or one of the two schemas that managers refuse. *)
Inductive schema :=
| SNode (id : text)
| SPrimitive (name : text)
| SObject
| SSchema.

(** What the bag of a schema says about an item id. An entity schema lists its
    attributes in the order of kd.dir. *)
Inductive node :=
| NList (item : schema)
| NDict (key value : schema)
| NEntity (attrs : list (text * schema)).

(** The bag of a schema; an item id that it does not mention is that of an
    entity schema without attributes (koladata/data_slice.cc:1267-1279). The
    reserved attributes for names and metadata of schemas are left out. *)
Definition schema_bag := list (text * node).

Fixpoint lookup (b : schema_bag) (id : text) : node :=
  match b with
  | [] => NEntity []
  | (i, n) :: b => if text_eqb i id then n else lookup b id
  end.

Fixpoint attr_schema (attrs : list (text * schema)) (s : text) : option schema :=
  match attrs with
  | [] => None
  | (t, x) :: attrs => if text_eqb t s then Some x else attr_schema attrs s
  end.

(** data_slice_path.py:143-146, 180-183, 217-220, 328-337 get_subschema. [None]
    stands for IncompatibleSchemaError. *)
Definition get_subschema (b : schema_bag) (a : action) (x : schema)
  : option schema :=
  match x with
  | SNode id =>
      match a, lookup b id with
      | DictGetKeys, NDict k _ => Some k
      | DictGetValues, NDict _ v => Some v
      | ListExplode, NList i => Some i
      | GetAttr s, NEntity attrs => attr_schema attrs s
      | _, _ => None
      end
  | _ => None
  end.

(** data_slice_path.py:516-547 expand_one_step (schema_helper.py:411-447 is the
    same without the path). *)
Definition expand_schema (b : schema_bag) (x : schema) : list (action * schema) :=
  match x with
  | SNode id =>
      match lookup b id with
      | NList i => [(ListExplode, i)]
      | NDict k v => [(DictGetKeys, k); (DictGetValues, v)]
      | NEntity attrs => map (fun sx => (GetAttr (fst sx), snd sx)) attrs
      end
  | _ => []
  end.
Definition expand_one_step (b : schema_bag) (px : path * schema)
  : list (path * schema) :=
  map (fun ax => (extended_with_action (fst px) (fst ax), snd ax))
    (expand_schema b (snd px)).

(** data_slice_path.py:549-552 within_max_depth *)
Definition within_max_depth (max_depth : Z) (level_depth : nat) : bool :=
  if Z.eqb max_depth (-1) then true else Z.leb (Z.of_nat level_depth) max_depth.

(** data_slice_path.py:554-563. The first [rounds] rounds of the while loop: the
    paths that were yielded and whether the generator is exhausted. *)
Fixpoint generate_loop (b : schema_bag) (max_depth : Z) (rounds : nat)
    (level : list (path * schema)) (level_depth : nat) : list path * bool :=
  match level with
  | [] => ([], true)
  | _ =>
      if negb (within_max_depth max_depth level_depth) then ([], true)
      else
        match rounds with
        | O => ([], false)
        | S rounds =>
            let next_level :=
              if within_max_depth max_depth (S level_depth)
              then flat_map (expand_one_step b) level else [] in
            let r := generate_loop b max_depth rounds next_level (S level_depth) in
            (map fst level ++ fst r, snd r)
        end
  end.

(** data_slice_path.py:496-563
    generate_data_slice_paths_for_arbitrary_data_slice_with_schema *)
Definition generate_paths (b : schema_bag) (x : schema) (max_depth : Z)
    (rounds : nat) : list path * bool :=
  generate_loop b max_depth rounds [([], x)] 0.

(** schema_helper.py:550-562, the walk along a path. *)
Fixpoint schema_at (b : schema_bag) (x : schema) (p : path) : option schema :=
  match p with
  | [] => Some x
  | a :: p =>
      match get_subschema b a x with
      | Some y => schema_at b y p
      | None => None
      end
  end.

(** * Views *)

(** A view is a path into a managed data slice with schema [root]; the path
    must be valid when the view is made (data_slice_manager_view.py:61-79).
    [exists_path] is the manager's method of this name. *)
Section Views.
  Variable exists_path : path -> bool.

  Inductive view_result :=
  | View (p : path)
  | ViewError.

  Definition make_view (p : path) : view_result :=
    if exists_path p then View p else ViewError.

  (** data_slice_manager_view.py:455-480 get_ancestor *)
  Definition get_ancestor (p : path) (num_levels_up : Z) : view_result :=
    if Z.ltb num_levels_up 0 then ViewError
    else if Z.ltb (Z.of_nat (length p)) num_levels_up then ViewError
    else if Z.eqb num_levels_up 0 then View p
    else make_view (firstn (length p - Z.to_nat num_levels_up) p).

  (** data_slice_manager_view.py:426-440 get_parent *)
  Definition get_parent (p : path) : view_result :=
    match p with [] => ViewError | _ => get_ancestor p 1 end.

  (** data_slice_manager_view.py:442-453 get_grandparent *)
  Definition get_grandparent (p : path) : view_result :=
    if length p <? 2 then ViewError else get_ancestor p 2.

  (** data_slice_manager_view.py:572-667 get_list_items, get_dict_keys,
      get_dict_values and get_attr *)
  Definition get_child (p : path) (a : action) : view_result :=
    if exists_path p then make_view (extended_with_action p a) else ViewError.

  (** data_slice_manager_view.py:499-537 find_descendants after [rounds] levels.
      [x] is the schema at the view path, [pred] the predicate on views. *)
  Definition find_descendants (b : schema_bag) (x : schema)
      (pred : path -> bool) (max_delta_depth : Z) (rounds : nat) (p : path)
    : list view_result :=
    if exists_path p then
      flat_map (fun q =>
        match q with
        | [] => []
        | _ => match make_view (concat_paths p q) with
               | View v => if pred v then [View v] else []
               | ViewError => [ViewError]
               end
        end)
        (fst (generate_paths b x max_delta_depth rounds))
    else [ViewError].
End Views.
