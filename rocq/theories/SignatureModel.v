(** Signatures of functors and the binding of the arguments of a call to the parameters:
    koladata/signature.{h,cc} and koladata/functor/signature_utils.cc.
    A value is an element of an arbitrary type [V]; the DataSlice of a default value is its
    rank and the value. Error texts are left out, what they name is kept. *)
From Coq Require Import String List Bool Arith.
Import ListNotations.
Local Open Scope nat_scope.
Local Open Scope list_scope.

(** signature.h:47-53 *)
Inductive kind := PositionalOnly | PositionalOrKeyword | VarPositional | KeywordOnly | VarKeyword.
Definition kind_rank (k : kind) : nat :=
  match k with
  | PositionalOnly => 0
  | PositionalOrKeyword => 1
  | VarPositional => 2
  | KeywordOnly => 3
  | VarKeyword => 4
  end.
Definition kind_eqb (a b : kind) : bool := kind_rank a =? kind_rank b.
Definition positional (k : kind) : bool := kind_eqb k PositionalOnly || kind_eqb k PositionalOrKeyword.
Definition keyword (k : kind) : bool := kind_eqb k KeywordOnly || kind_eqb k PositionalOrKeyword.
Definition variadic (k : kind) : bool := kind_eqb k VarPositional || kind_eqb k VarKeyword.

Inductive sig_error :=
| EDuplicate (name : string)
| EVariadicDefault (name : string)
| EDefaultRank (name : string)
| EOrder (next current : string)
| EAtMostOne (k : kind)
| ENoDefaultAfter (next current : string)
| ESizes
| ETwice (name : string)
| EField (name : string)
| ETooMany (extra : nat)
| EUnknown (names : list string)
| ENoValue (name : string).
Inductive sig_result (A : Type) := Good (a : A) | Bad (e : sig_error).
Arguments Good {A} a.
Arguments Bad {A} e.

Section Values.
Variable V : Type.

(** signature.h:42-59 *)
Record param := mkParam { p_name : string; p_kind : kind; p_default : option (nat * V) }.

(** signature.h:82-83 *)
Record signature := mkSig { s_params : list param; s_index : list (string * nat) }.

(** signature.cc:33-59: the checks on single parameters; [names] holds the names seen so far *)
Fixpoint check_single (names : list string) (l : list param) : option sig_error :=
  match l with
  | [] => None
  | p :: l =>
      if existsb (String.eqb (p_name p)) names then Some (EDuplicate (p_name p))
      else match p_default p with
           | Some (rank, _) =>
               if variadic (p_kind p) then Some (EVariadicDefault (p_name p))
               else if negb (rank =? 0) then Some (EDefaultRank (p_name p))
               else check_single (p_name p :: names) l
           | None => check_single (p_name p :: names) l
           end
  end.
Definition has_default (p : param) : bool := match p_default p with Some _ => true | None => false end.
(** signature.cc:63-84: a parameter and the next one *)
Definition check_pair (p q : param) : option sig_error :=
  if kind_rank (p_kind q) <? kind_rank (p_kind p) then Some (EOrder (p_name q) (p_name p))
  else if kind_eqb (p_kind p) (p_kind q) && variadic (p_kind p) then Some (EAtMostOne (p_kind p))
  else if positional (p_kind q) && negb (has_default q) && has_default p
       then Some (ENoDefaultAfter (p_name q) (p_name p))
  else None.
(** signature.cc:62-85 *)
Fixpoint check_pairs (l : list param) : option sig_error :=
  match l with
  | p :: ((q :: _) as rest) => match check_pair p q with Some e => Some e | None => check_pairs rest end
  | _ => None
  end.
(** signature.cc:92-98: the map from names to positions of the parameters that can be
    passed by keyword *)
Fixpoint keyword_index (i : nat) (l : list param) : list (string * nat) :=
  match l with
  | [] => []
  | p :: l => if keyword (p_kind p) then (p_name p, i) :: keyword_index (S i) l else keyword_index (S i) l
  end.
(** signature.cc:31-88 Signature::Create *)
Definition create_signature (l : list param) : sig_result signature :=
  match check_single [] l with
  | Some e => Bad e
  | None => match check_pairs l with
            | Some e => Bad e
            | None => Good (mkSig l (keyword_index 0 l))
            end
  end.

(** ** Binding *)

(** What a parameter is bound to: a value, or the tuple or named tuple of a variadic
    parameter (arolla::MakeTuple, arolla::MakeNamedTuple) *)
Inductive bound := Plain (v : V) | Tuple (l : list V) | NamedTuple (l : list (string * V)).

Fixpoint set_nth {A} (n : nat) (x : A) (l : list A) : list A :=
  match n, l with
  | _, [] => []
  | O, _ :: l => x :: l
  | S n, y :: l => y :: set_nth n x l
  end.

(** flat_hash_map::find *)
Fixpoint find_index (n : string) (l : list (string * nat)) : option nat :=
  match l with
  | [] => None
  | (m, i) :: l => if String.eqb n m then Some i else find_index n l
  end.

(** signature_utils.cc:92-102: positional arguments, [i] is the index of the first one *)
Fixpoint bind_positional (ps : list param) (i : nat) (args : list V) (b : list (option bound)) (unknown : list V)
  : list (option bound) * list V :=
  match args with
  | [] => (b, unknown)
  | a :: args =>
      if match nth_error ps i with Some p => positional (p_kind p) | None => false end
      then bind_positional ps (S i) args (set_nth i (Some (Plain a)) b) unknown
      else bind_positional ps (S i) args b (unknown ++ [a])
  end.

(** signature_utils.cc:104-119: keyword arguments *)
Fixpoint bind_keywords (index : list (string * nat)) (kw : list (string * V)) (b : list (option bound))
         (unknown : list (string * V)) : sig_result (list (option bound) * list (string * V)) :=
  match kw with
  | [] => Good (b, unknown)
  | (n, v) :: kw =>
      match find_index n index with
      | None => bind_keywords index kw b (unknown ++ [(n, v)])
      | Some i =>
          match nth i b None with
          | Some _ => Bad (ETwice n)
          | None => bind_keywords index kw (set_nth i (Some (Plain v)) b) unknown
          end
      end
  end.

(** arolla::MakeNamedTuple refuses a field name that occurs twice *)
Fixpoint duplicate_field (l : list (string * V)) : option string :=
  match l with
  | [] => None
  | (n, _) :: l => if existsb (fun m => String.eqb n (fst m)) l then Some n else duplicate_field l
  end.

(** signature_utils.cc:121-134: variadic parameters take what is left over *)
Fixpoint bind_variadic (ps : list param) (i : nat) (b : list (option bound)) (args : list V) (kw : list (string * V))
  : sig_result (list (option bound) * list V * list (string * V)) :=
  match ps with
  | [] => Good (b, args, kw)
  | p :: ps =>
      match p_kind p with
      | VarPositional => bind_variadic ps (S i) (set_nth i (Some (Tuple args)) b) [] kw
      | VarKeyword =>
          match duplicate_field kw with
          | Some n => Bad (EField n)
          | None => bind_variadic ps (S i) (set_nth i (Some (NamedTuple kw)) b) args []
          end
      | _ => bind_variadic ps (S i) b args kw
      end
  end.

(** DataSlice::WithBag on the value of a default *)
Variable bag : Type.
Variable with_bag : bag -> V -> V.

(** signature_utils.cc:148-165: default values *)
Fixpoint bind_defaults (db : option bag) (ps : list param) (b : list (option bound)) : sig_result (list bound) :=
  match ps, b with
  | p :: ps, x :: b =>
      match x with
      | Some v => match bind_defaults db ps b with Good l => Good (v :: l) | Bad e => Bad e end
      | None =>
          match p_default p with
          | Some (_, d) =>
              let v := match db with Some db => with_bag db d | None => d end in
              match bind_defaults db ps b with Good l => Good (Plain v :: l) | Bad e => Bad e end
          | None => Bad (ENoValue (p_name p))
          end
      end
  | _, _ => Good []
  end.

(** signature_utils.cc:74-168 BindArguments *)
Definition bind_arguments (s : signature) (args : list V) (kwnames : list string) (db : option bag)
  : sig_result (list bound) :=
  if length args <? length kwnames then Bad ESizes
  else
    let offset := length args - length kwnames in
    let ps := s_params s in
    let '(b1, unknown_args) := bind_positional ps 0 (firstn offset args) (repeat None (length ps)) [] in
    match bind_keywords (s_index s) (combine kwnames (skipn offset args)) b1 [] with
    | Bad e => Bad e
    | Good (b2, unknown_kwargs) =>
        match bind_variadic ps 0 b2 unknown_args unknown_kwargs with
        | Bad e => Bad e
        | Good (b3, rest_args, rest_kwargs) =>
            match rest_args, rest_kwargs with
            | _ :: _, _ => Bad (ETooMany (length rest_args))
            | [], _ :: _ => Bad (EUnknown (map fst rest_kwargs))
            | [], [] => bind_defaults db ps b3
            end
        end
    end.

End Values.

Arguments mkParam {V} _ _ _.
Arguments p_name {V} p.
Arguments p_kind {V} p.
Arguments p_default {V} p.
Arguments mkSig {V} _ _.
Arguments s_params {V} s.
Arguments s_index {V} s.
Arguments has_default {V} p.
Arguments check_single {V} names l.
Arguments check_pair {V} p q.
Arguments check_pairs {V} l.
Arguments keyword_index {V} i l.
Arguments create_signature {V} l.
Arguments Plain {V} v.
Arguments Tuple {V} l.
Arguments NamedTuple {V} l.
Arguments bind_positional {V} ps i args b unknown.
Arguments bind_keywords {V} index kw b unknown.
Arguments duplicate_field {V} l.
Arguments bind_variadic {V} ps i b args kw.
Arguments bind_defaults {V bag} with_bag db ps b.
Arguments bind_arguments {V bag} with_bag s args kwnames db.
