(** Automatic variables: koladata/functor/auto_variables.cc, SharedNodeTracker,
    ExtractAutoVariables and AutoVariables.

    Expressions and functors are those of FunctorModel. An expression is a directed graph in
    the code, with one node for equal subexpressions; here a node is the expression that
    starts at it, and the post order lists each once. *)
From Coq Require DecimalString.
From Coq Require Import String List Bool Arith.
From Verif Require Import SignatureModel FunctorModel.
Import ListNotations.
Local Open Scope string_scope.
Local Open Scope nat_scope.
Local Open Scope list_scope.

(** What the code distinguishes: kd.slice and kd.item (auto_variables.cc:70-84
    IsSliceOrItemOperator), annotations of source locations and names, other operators *)
Inductive op_kind := KSlice | KLocation | KName | KOther.

(** Internal: an InternalError, a FailedPreconditionError or a find() that finds nothing *)
Inductive auto_result (A : Type) := Done (a : A) | Refused (e : fn_error) | Internal.
Arguments Done {A} a.
Arguments Refused {A} e.
Arguments Internal {A}.
Definition then_ {A B} (x : auto_result A) (f : A -> auto_result B) : auto_result B :=
  match x with Done a => f a | Refused e => Refused e | Internal => Internal end.

Section Auto.
Variables (V op : Type).
Local Notation expr := (expr V op).
Local Notation item := (item V op).
Local Notation functor := (functor V op).

(** equality of fingerprints *)
Variable same : expr -> expr -> bool.
Variable kind : op -> op_kind.
(** literals: whether the value is a DataSlice; IsSimpleSlice (173-177: an item without a bag
    that is a primitive or None); the unspecified value; the text of an annotation of a name *)
Variables is_slice is_simple is_unspecified : V -> bool.
Variable text_of : V -> string.
(** the rank of a DataSlice, a rank as a value, Implode of all dimensions, kd.explode *)
Variable rank : V -> nat.
Variable num : nat -> V.
Variable implode : V -> V.
Variable op_explode : op.
(** the item that an attribute with this DataItem as its value has *)
Variable stored : V -> item.

Definition mem (e : expr) (l : list expr) : bool := existsb (same e) l.
Definition deps (e : expr) : list expr := match e with Call _ args => args | _ => [] end.

(** arolla::expr::PostOrder: arguments before operators, from left to right, each node once *)
Fixpoint post (e : expr) (l : list expr) : list expr :=
  if mem e l then l
  else match e with
       | Call _ args => fold_left (fun l a => post a l) args l ++ [e]
       | _ => l ++ [e]
       end.
Definition post_order (roots : list expr) : list expr := fold_left (fun l e => post e l) roots [].

Section Extract.
(** auto_variables.cc:416-419: annotations of names and the nodes that the caller wants *)
Variable extra : expr -> bool.
Definition is_name (e : expr) : bool :=
  match e with Call o _ => match kind o with KName => true | _ => false end | _ => false end.
Definition needed (e : expr) : bool := is_name e || extra e.

(** ** Shared nodes *)

(** auto_variables.cc:155-163: a variable that exists already, a node, several parents *)
Inductive tag := Top (i : nat) | Node (e : expr) | Multiple.
Definition tag_eqb (a b : tag) : bool :=
  match a, b with
  | Top i, Top j => i =? j
  | Node e, Node e' => same e e'
  | Multiple, Multiple => true
  | _, _ => false
  end.
Fixpoint find_tag (e : expr) (l : list (expr * tag)) : option tag :=
  match l with
  | [] => None
  | (e', t) :: l => if same e e' then Some t else find_tag e l
  end.
(** 138-152 AddParentTag *)
Definition add_tag (e : expr) (t : tag) (l : list (expr * tag)) : list (expr * tag) :=
  match find_tag e l with
  | None => (e, t) :: l
  | Some t' => if tag_eqb t t' then l else (e, Multiple) :: l
  end.
(** 104-122: one round of Process *)
Definition tag_for_children (e : expr) (l : list (expr * tag)) : option tag :=
  if needed e then Some (Node e)
  else match find_tag e l with
       | None => None
       | Some Multiple => Some (Node e)
       | Some t => Some t
       end.
Definition tag_children (e : expr) (l : list (expr * tag)) : list (expr * tag) :=
  match tag_for_children e l with
  | None => l
  | Some t => fold_left (fun l c => add_tag c t l) (deps e) l
  end.
(** 405-414, 421 and 99-124: the roots are the arguments of the tuple, which itself has no tag *)
Definition top_tags (roots : list expr) : list (expr * tag) :=
  fold_left (fun l x => add_tag (snd x) (Top (fst x)) l) (combine (seq 0 (length roots)) roots) [].
Definition all_tags (roots : list expr) : list (expr * tag) :=
  fold_left (fun l e => tag_children e l) (rev (post_order roots)) (top_tags roots).

Variable tags : list (expr * tag).
(** 128-130 *)
Definition is_shared (e : expr) : bool := match find_tag e tags with Some Multiple => true | _ => false end.

(** ** Extraction *)

(** auto_variables.cc:190-199: vars, prefix_to_counter, aux_variable_fingerprints *)
Record state := mkState { vars : list (string * item); counters : list (string * nat); aux : list expr }.

Definition taken (n : string) (vs : list (string * item)) : bool :=
  match lookup n vs with Some _ => true | None => false end.
Definition numbered (prefix : string) (k : nat) : string :=
  (prefix ++ "_" ++ DecimalString.NilEmpty.string_of_uint (Nat.to_uint k))%string.
Fixpoint free_number (fuel : nat) (prefix : string) (k : nat) (vs : list (string * item)) : option nat :=
  match fuel with
  | O => None
  | S fuel => if taken (numbered prefix k) vs then free_number fuel prefix (S k) vs else Some k
  end.
(** 199-208 create_unique_variable; one more round than there are variables suffices *)
Definition unique (prefix : string) (s : state) : auto_result (string * state) :=
  let k := match lookup prefix (counters s) with Some k => k | None => 0 end in
  match free_number (S (length (vars s))) prefix k (vars s) with
  | None => Internal
  | Some k => Done (numbered prefix k, mkState (vars s) ((prefix, S k) :: counters s) (aux s))
  end.
Definition add_var (n : string) (i : item) (s : state) : state := mkState ((n, i) :: vars s) (counters s) (aux s).
Definition var (n : string) : expr := Input "V" n.

(** 210-233 extract_slice *)
Definition extract_slice (v : V) (shared : bool) (s : state) : auto_result (expr * state) :=
  then_ (unique "_aux" s) (fun '(n, s) =>
  let '(i, e) := if rank v =? 0 then (stored v, var n)
                 else (stored (implode v), Call op_explode [var n; Lit (num (rank v))]) in
  let s := add_var n i s in
  Done (e, if shared then s else mkState (vars s) (counters s) (e :: aux s))).

(** 235-250 create_aux_variable_if_necessary *)
Definition is_var (e : expr) : bool := match e with Input c _ => String.eqb c "V" | _ => false end.
Definition make_aux (need : bool) (e : expr) (s : state) : auto_result (expr * state) :=
  if negb need || is_var e then Done (e, s)
  else then_ (unique "_aux" s) (fun '(n, s) => Done (var n, add_var n (Quote e) s)).

(** 179-182 IsDataSliceLiteral *)
Definition slice_literal (e : expr) : bool := match e with Lit v => is_slice v | _ => false end.
Definition erase (n : string) (vs : list (string * item)) : list (string * item) :=
  filter (fun x => negb (String.eqb n (fst x))) vs.
(** SubstituteByFingerprint of one variable by another *)
Fixpoint rename (from to_ : string) (e : expr) : expr :=
  match e with
  | Input c n => if String.eqb c "V" && String.eqb n from then Input c to_ else e
  | Call o args => Call o (map (rename from to_) args)
  | _ => e
  end.

(** 299-341: a node that is named n *)
Definition extract_named (n : string) (child : expr) (s : state) : auto_result (expr * state) :=
  then_ (if taken n (vars s) then unique n s else Done (n, s)) (fun '(n, s) =>
  if mem child (aux s) then
    match sorted_names (names_in "V" child) with
    | [m] =>
        match lookup m (vars s) with
        | None => Internal
        | Some i =>
            make_aux true (rename m n child)
              (mkState ((n, i) :: erase m (vars s)) (counters s) (filter (fun e => negb (same child e)) (aux s)))
        end
    | _ => Internal
    end
  else match child with
       | Lit v => if is_slice v
                  then if is_simple v then Done (var n, add_var n (stored v) s) else Internal
                  else Done (var n, add_var n (Quote child) s)
       | _ => Done (var n, add_var n (Quote child) s)
       end).

(** 296-344: what is left to do with an operator *)
Definition extract_call (shared need : bool) (o : op) (args : list expr) (s : state) : auto_result (expr * state) :=
  if negb need && negb shared then Done (Call o args, s)
  else match kind o, args with
       | KName, [child; Lit t] => extract_named (text_of t) child s
       | _, _ => make_aux true (Call o args) s
       end.
Definition literal_or_aux (e : expr) (s : state) : bool := slice_literal e || mem e (aux s).
(** 254-345 transform_node: the node and the node with its transformed arguments *)
Definition transform_node (node new : expr) (s : state) : auto_result (expr * state) :=
  match new with
  | Lit v =>
      if is_slice v && negb (is_simple v)
      then then_ (extract_slice v (is_shared node) s) (fun '(e, s) => make_aux (needed node) e s)
      else make_aux (needed node) new s
  | Call o args =>
      match kind o, args with
      | KSlice, [val; Lit u] =>
          if literal_or_aux val s && is_unspecified u then make_aux (needed node) val s
          else extract_call (is_shared node) (needed node) o args s
      | KLocation, val :: _ =>
          if literal_or_aux val s then make_aux (needed node) val s
          else extract_call (is_shared node) (needed node) o args s
      | _, _ => extract_call (is_shared node) (needed node) o args s
      end
  | _ => make_aux (needed node) new s
  end.

(** arolla::expr::TransformOnPostOrder *)
Fixpoint find_new (e : expr) (l : list (expr * expr)) : option expr :=
  match l with
  | [] => None
  | (e', t) :: l => if same e e' then Some t else find_new e l
  end.
Fixpoint all_new (es : list expr) (l : list (expr * expr)) : option (list expr) :=
  match es with
  | [] => Some []
  | e :: es => match find_new e l, all_new es l with Some t, Some ts => Some (t :: ts) | _, _ => None end
  end.
Definition with_new_args (e : expr) (l : list (expr * expr)) : option expr :=
  match e with
  | Call o args => match all_new args l with Some args => Some (Call o args) | None => None end
  | _ => Some e
  end.
Fixpoint transform (nodes : list expr) (l : list (expr * expr)) (s : state) : auto_result (list (expr * expr) * state) :=
  match nodes with
  | [] => Done (l, s)
  | e :: nodes =>
      match with_new_args e l with
      | None => Internal
      | Some new => then_ (transform_node e new s) (fun '(t, s) => transform nodes ((e, t) :: l) s)
      end
  end.
End Extract.

(** ** AutoVariables *)

(** auto_variables.cc:372-397: the variables, the names and the expressions of those that are
    expressions. The attributes come in the order of their names *)
Definition variables (f : functor) : list (string * item) :=
  flat_map (fun n => if String.eqb n signature_attr then []
                     else match lookup n f with Some i => [(n, i)] | None => [] end)
    (sorted_names (map fst f)).
Definition expressions (vs : list (string * item)) : list (string * expr) :=
  flat_map (fun x => match snd x with Quote e => [(fst x, e)] | _ => [] end) vs.
(** 430-433 *)
Definition put_back (l : list (string * expr)) (vs : list (string * item)) : list (string * item) :=
  fold_left (fun vs x => (fst x, Quote (snd x)) :: erase (fst x) vs) l vs.

Variable self_default : V.
Variable as_object : list (param V) -> V.
(** the order of a hash map *)
Variable arrange : list (string * item) -> list (string * item).

(** 365-448. That the tuple of all expressions is not among the wanted nodes is taken for granted *)
Definition auto_variables (f : functor) (extra : expr -> bool) : auto_result functor :=
  if negb (is_functor f) then Refused EFunctor
  else match lookup signature_attr f with
       | None => Refused (EAttr signature_attr)
       | Some signature =>
           let vs := variables f in
           let exprs := expressions vs in
           let roots := map snd exprs in
           then_ (transform extra (all_tags extra roots) (post_order roots) [] (mkState vs [] [])) (fun '(l, s) =>
           match all_new roots l with
           | None => Internal
           | Some news =>
               let vs := put_back (combine (map fst exprs) news) (vars s) in
               match lookup returns vs with
               | None => Internal
               | Some r =>
                   match create_functor self_default as_object (0, r) (0, signature)
                           (map (fun x => (fst x, (0, snd x))) (arrange (erase returns vs))) with
                   | Ok g => Done g
                   | Err e => Refused e
                   end
               end
           end)
       end.
End Auto.
