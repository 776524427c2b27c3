(** Functors: koladata/functor/functor.cc (CreateFunctor and the walk over the variables),
    the evaluation of a functor in koladata/functor/{auto_variables,call}.cc, the default
    signature and the cache of preprocessed functors in koladata/data_bag.h.

    A functor is the list of the attributes of an object. Values, operators and bags are
    arbitrary; an operator is a function of the outcomes of its arguments (None: it
    fails), so that operators that do not evaluate all arguments are covered. An
    expression is a tree; sharing of equal subexpressions is left out. *)
From Coq Require Import String List Bool Arith.
From Verif Require Import SignatureModel.
Import ListNotations.
Local Open Scope string_scope.
Local Open Scope nat_scope.
Local Open Scope list_scope.

Section Functors.
Variables (V op bag : Type).

(** arolla::expr::ExprNode: literals, I.x and V.x (InputOperator with the name of the
    container), the leaf of the non-deterministic token, other leaves, placeholders,
    operators *)
Inductive expr :=
| Lit (v : V)
| Input (container name : string)
| Token
| Leaf (key : string)
| Placeholder (key : string)
| Call (o : op) (args : list expr).

(** The item of an attribute: an ExprQuote, an ObjectId, a missing item, the object of a
    signature with its parameters, any other item *)
Inductive item :=
| Quote (e : expr)
| Object (v : V)
| Missing (v : V)
| SignatureObject (v : V) (ps : list (param V))
| Primitive (v : V).
Definition functor := list (string * item).

Inductive fn_error :=
| EFunctor
| EExpr
| ECycle (name : string)
| EUndefined (names : list string)
| EReturns
| EVariable (name : string)
| ESignature
| EParameters (e : sig_error)
| EAttr (name : string)
| EUnknownVariable (name : string)
| EOrderOfVariables
| EInputTwice (name : string)
| EInputs
| EEval
| EBag
| EFuel.
Inductive fn_result (A : Type) := Ok (a : A) | Err (e : fn_error).
Arguments Ok {A} a.
Arguments Err {A} e.

(** DataSlice::GetAttrOrMissing *)
Fixpoint lookup {A} (n : string) (f : list (string * A)) : option A :=
  match f with
  | [] => None
  | (m, i) :: f => if String.eqb n m then Some i else lookup n f
  end.

Definition returns := "returns".
Definition signature_attr := "__signature__".
Definition self_bag := "__bag".

(** functor_storage.cc:26-45 IsFunctor; that the slice is an item with a bag is taken for granted *)
Definition has (n : string) (f : functor) : bool :=
  match lookup n f with Some (Missing _) | None => false | Some _ => true end.
Definition is_functor (f : functor) : bool := has returns f && has signature_attr f.

(** ** Inputs and variables of an expression *)

(** expr/expr_eval.cc:126-196 TransformExprForEval: the expressions it refuses *)
Fixpoint legal (e : expr) : bool :=
  match e with
  | Lit _ | Token => true
  | Input c _ => String.eqb c "I" || String.eqb c "V"
  | Leaf _ | Placeholder _ => false
  | Call _ args => forallb legal args
  end.
(** expr_eval.cc:153-167: the names of the inputs of container c *)
Fixpoint names_in (c : string) (e : expr) : list string :=
  match e with
  | Input c' n => if String.eqb c c' then [n] else []
  | Call _ args => flat_map (names_in c) args
  | _ => []
  end.
(** std::sort and the removal of duplicates *)
Fixpoint insert_name (n : string) (l : list string) : list string :=
  match l with
  | [] => [n]
  | m :: l' => match String.compare n m with
               | Lt => n :: l
               | Eq => l
               | Gt => m :: insert_name n l'
               end
  end.
Definition sorted_names (l : list string) : list string := fold_right insert_name [] l.
(** expr_eval.cc:416-442 GetExprVariables, GetExprInputs *)
Definition expr_names (c : string) (e : expr) : fn_result (list string) :=
  if legal e then Ok (sorted_names (names_in c e)) else Err EExpr.

(** ** Reachable variables *)

(** functor.cc:117-122 *)
Record frame := mkFrame { fr_name : string; fr_value : option item; fr_deps : list string }.
(** functor.cc:112-115 and 133-134: the stack (the dependencies of a frame are those not
    reached yet), the states of the variables and what the visitor has seen so far *)
Inductive status := InStack | Visited.
Record walk := mkWalk { w_stack : list frame; w_status : list (string * status);
                        w_seen : list (string * option item) }.

(** functor.cc:150-154 *)
Definition dependencies (i : option item) : fn_result (list string) :=
  match i with
  | Some (Quote e) => expr_names "V" e
  | _ => Ok []
  end.
(** functor.cc:136-159 reach_variable *)
Definition reach (f : functor) (n : string) (w : walk) : fn_result walk :=
  match lookup n (w_status w) with
  | Some InStack => Err (ECycle n)
  | Some Visited => Ok w
  | None =>
      let v := lookup n f in
      match dependencies v with
      | Err e => Err e
      | Ok deps => Ok (mkWalk (mkFrame n v deps :: w_stack w) ((n, InStack) :: w_status w) (w_seen w))
      end
  end.
(** functor.cc:162-173: one round of the loop; None: the stack is empty *)
Definition round (f : functor) (w : walk) : option (fn_result walk) :=
  match w_stack w with
  | [] => None
  | fr :: stack =>
      Some match fr_deps fr with
           | [] => Ok (mkWalk stack ((fr_name fr, Visited) :: w_status w) (w_seen w ++ [(fr_name fr, fr_value fr)]))
           | d :: deps => reach f d (mkWalk (mkFrame (fr_name fr) (fr_value fr) deps :: stack) (w_status w) (w_seen w))
           end
  end.
Fixpoint rounds (fuel : nat) (f : functor) (w : walk) : fn_result (list (string * option item)) :=
  match fuel with
  | O => Err EFuel
  | S fuel =>
      match round f w with
      | None => Ok (w_seen w)
      | Some (Ok w) => rounds fuel f w
      | Some (Err e) => Err e
      end
  end.
(** A number of rounds that suffices (C51_order: EFuel is not returned) *)
Definition mentioned (i : option item) : list string :=
  match i with Some (Quote e) => sorted_names (names_in "V" e) | _ => [] end.
Definition universe (f : functor) : list string :=
  nodup string_dec (returns :: flat_map (fun x => mentioned (Some (snd x))) f).
Definition enough (f : functor) : nat :=
  1 + list_sum (map (fun n => S (length (mentioned (lookup n f)))) (universe f)).
(** functor.cc:126-175 ForEachReachableVariable, with a visitor that records *)
Definition for_each (f : functor) : fn_result (list (string * option item)) :=
  if negb (is_functor f) then Err EFunctor
  else match reach f returns (mkWalk [] [] []) with
       | Err e => Err e
       | Ok w => rounds (enough f) f w
       end.

(** functor.cc:182-201 ValidateAllVariablesDefined *)
Definition validate_defined (f : functor) (defined : list string) : fn_result unit :=
  match for_each f with
  | Err e => Err e
  | Ok seen =>
      match filter (fun n => negb (existsb (String.eqb n) defined)) (map fst seen) with
      | [] => Ok tt
      | undefined => Err (EUndefined undefined)
      end
  end.

(** ** Creating a functor *)

Variable self_default : V.
Variable as_object : list (param V) -> V.

(** default_signature.cc:30-54 *)
Definition default_parameters (inputs : list string) : list (param V) :=
  [mkParam "self" PositionalOnly (Some (0, self_default))]
  ++ map (fun n => mkParam n KeywordOnly None) (filter (fun n => negb (String.eqb n "self")) inputs)
  ++ [mkParam "__extra_inputs__" VarKeyword None].

(** functor.cc:76-86 *)
Fixpoint all_inputs (values : list item) : fn_result (list string) :=
  match values with
  | [] => Ok []
  | Quote e :: values =>
      match expr_names "I" e, all_inputs values with
      | Ok l, Ok l' => Ok (l ++ l')
      | Err e, _ | Ok _, Err e => Err e
      end
  | _ :: values => all_inputs values
  end.
(** functor.cc:72-98 ProcessSignature: the item of the signature *)
Definition process_signature (signature : item) (values : list item) : fn_result item :=
  match signature with
  | Missing _ =>
      match all_inputs values with
      | Err e => Err e
      | Ok inputs =>
          let ps := default_parameters (sorted_names inputs) in
          match create_signature ps with
          | Bad e => Err (EParameters e)
          | Good _ => Ok (SignatureObject (as_object ps) ps)
          end
      end
  | SignatureObject v ps => match create_signature ps with Bad e => Err (EParameters e) | Good _ => Ok signature end
  | _ => Err ESignature
  end.

(** A DataSlice: its rank, and its item if that is 0 *)
Definition slice := (nat * item)%type.
Fixpoint items_of (l : list (string * slice)) : fn_result functor :=
  match l with
  | [] => Ok []
  | (n, (rank, i)) :: l =>
      if rank =? 0 then match items_of l with Ok l => Ok ((n, i) :: l) | Err e => Err e end else Err (EVariable n)
  end.
(** functor.cc:51-61 ValidateReturn *)
Definition present (i : item) : bool := match i with Missing _ => false | _ => true end.
(** functor.cc:205-221 CreateFunctor. The names that are checked against are those of the
    caller and "returns"; "__signature__", which CreateFunctorImpl adds to its own copy of
    the names, is not among them *)
Definition create_functor (ret signature : slice) (vars : list (string * slice)) : fn_result functor :=
  if negb (fst ret =? 0) then Err EReturns
  else if negb (present (snd ret)) then Err EReturns
  else if negb (fst signature =? 0) then Err (EVariable "signature")
  else match items_of vars with
       | Err e => Err e
       | Ok vs =>
           let attrs := (returns, snd ret) :: vs in
           match process_signature (snd signature) (map snd attrs) with
           | Err e => Err e
           | Ok s =>
               let f := attrs ++ [(signature_attr, s)] in
               match validate_defined f (map fst attrs) with
               | Err e => Err e
               | Ok _ => Ok f
               end
           end
       end.

(** ** Calling a functor *)

Variable op_with_bag : op.
Variable token : V.
Variable eval_op : op -> list (option V) -> option V.
Variable with_bag : bag -> V -> V.
Variable bag_value : bag -> V.
Variable tuple_value : list V -> V.
Variable named_value : list (string * V) -> V.

(** arolla::expr::Transform with auto_variables.cc:479-492 *)
Fixpoint inline (vars : list (string * expr)) (e : expr) : fn_result expr :=
  match e with
  | Input c n =>
      if String.eqb c "V"
      then match lookup n vars with Some e' => Ok e' | None => Err (EUnknownVariable n) end
      else Ok e
  | Call o args =>
      match (fix go l := match l with
                         | [] => Ok []
                         | a :: l => match inline vars a, go l with
                                     | Ok a, Ok l => Ok (a :: l)
                                     | Err e, _ | Ok _, Err e => Err e
                                     end
                         end) args with
      | Ok args => Ok (Call o args)
      | Err e => Err e
      end
  | _ => Ok e
  end.
(** auto_variables.cc:465-477: the expression of a variable *)
Definition variable_expr (vars : list (string * expr)) (i : item) : fn_result expr :=
  match i with
  | Quote e => inline vars e
  | Object v | Missing v | SignatureObject v _ => Ok (Call op_with_bag [Lit v; Input "I" self_bag])
  | Primitive v => Ok (Lit v)
  end.
(** auto_variables.cc:464-495 *)
Fixpoint inline_variables (f : functor) (order : list string) (vars : list (string * expr))
  : fn_result (list (string * expr)) :=
  match order with
  | [] => Ok vars
  | n :: order =>
      match lookup n f with
      | None => Err (EAttr n)
      | Some i =>
          match variable_expr vars i with
          | Err e => Err e
          | Ok e => inline_variables f order ((n, e) :: vars)
          end
      end
  end.
(** auto_variables.cc:450-497 InlineAllVariables *)
Definition inline_all (f : functor) : fn_result expr :=
  match for_each f with
  | Err e => Err e
  | Ok seen =>
      let order := map fst seen in
      match rev order with
      | l :: _ =>
          if String.eqb l returns
          then match inline_variables f order [] with
               | Err e => Err e
               | Ok vars => match lookup l vars with Some e => Ok e | None => Err EOrderOfVariables end
               end
          else Err EOrderOfVariables
      | [] => Err EOrderOfVariables
      end
  end.

(** call.cc:53-72 ProcessFunctor *)
Definition process (f : functor) : fn_result (signature V * expr) :=
  match lookup signature_attr f with
  | Some (SignatureObject _ ps) =>
      match create_signature ps with
      | Bad e => Err (EParameters e)
      | Good s => match inline_all f with Err e => Err e | Ok e => Ok (s, e) end
      end
  | Some _ => Err ESignature
  | None => Err (EAttr signature_attr)
  end.

(** The value of an expression when I.x and V.x have the given outcomes *)
Fixpoint eval (env : string -> string -> option V) (e : expr) : option V :=
  match e with
  | Lit v => Some v
  | Input c n => env c n
  | Token => Some token
  | Leaf _ | Placeholder _ => None
  | Call o args => eval_op o (map (eval env) args)
  end.
Definition given (inputs : list (string * V)) (c n : string) : option V :=
  if String.eqb c "I" then lookup n inputs else None.
(** expr_eval.cc:359-370: an input of the expression that is passed more than once *)
Fixpoint passed_twice (wanted : list string) (inputs : list (string * V)) : option string :=
  match inputs with
  | [] => None
  | (n, _) :: inputs =>
      if existsb (String.eqb n) wanted && existsb (fun x => String.eqb n (fst x)) inputs then Some n
      else passed_twice wanted inputs
  end.
(** expr_eval.cc:342-404 EvalExprWithCompilationCache without variables *)
Definition eval_expr (e : expr) (inputs : list (string * V)) : fn_result V :=
  if negb (legal e) then Err EExpr
  else match passed_twice (names_in "I" e) inputs with
       | Some n => Err (EInputTwice n)
       | None =>
           if forallb (fun n => existsb (fun x => String.eqb n (fst x)) inputs) (names_in "I" e)
              && match names_in "V" e with [] => true | _ => false end
           then match eval (given inputs) e with Some v => Ok v | None => Err EEval end
           else Err EInputs
       end.

Definition bound_value (b : bound V) : V :=
  match b with Plain v => v | Tuple l => tuple_value l | NamedTuple l => named_value l end.
(** call.cc:126-138 *)
Definition run (b : bag) (p : signature V * expr) (args : list V) (kwnames : list string) : fn_result V :=
  match bind_arguments with_bag (fst p) args kwnames (Some b) with
  | Bad e => Err (EParameters e)
  | Good r =>
      eval_expr (snd p) (combine (map p_name (s_params (fst p))) (map bound_value r) ++ [(self_bag, bag_value b)])
  end.
(** call.cc:80-139 without the cache *)
Definition call (b : bag) (f : functor) (args : list V) (kwnames : list string) : fn_result V :=
  if negb (is_functor f) then Err EFunctor
  else match process f with
       | Err e => Err e
       | Ok p => run b p args kwnames
       end.

(** ** The cache *)

(** A bag: whether it is mutable, its objects, and the cache of preprocessed functors
    (data_bag.h:156-221) *)
Record bag_state := mkBag { b_mutable : bool; b_objects : list (nat * functor);
                            b_cache : list (nat * (signature V * expr)) }.
Definition world := list bag_state.

Fixpoint find {A} (k : nat) (l : list (nat * A)) : option A :=
  match l with
  | [] => None
  | (j, a) :: l => if k =? j then Some a else find k l
  end.
(** data_bag.h:203-216 SetCachedMetadata: what is returned and the new state *)
Definition set_cached (id : nat) (p : signature V * expr) (b : bag_state) : (signature V * expr) * bag_state :=
  if b_mutable b then (p, b)
  else match find id (b_cache b) with
       | Some q => (q, b)
       | None => (p, mkBag (b_mutable b) (b_objects b) ((id, p) :: b_cache b))
       end.
(** call.cc:80-139 CallFunctorWithCompilationCache for the object id of a bag *)
Definition call_cached (bv : bag) (b : bag_state) (id : nat) (args : list V) (kwnames : list string)
  : fn_result V * bag_state :=
  match find id (b_objects b) with
  | None => (Err EFunctor, b)
  | Some f =>
      if negb (is_functor f) then (Err EFunctor, b)
      else match find id (b_cache b) with
           | Some p => (run bv p args kwnames, b)
           | None =>
               match process f with
               | Err e => (Err e, b)
               | Ok p => let '(q, b) := set_cached id p b in (run bv q args kwnames, b)
               end
           end
  end.

(** What can happen to bags: a new mutable bag; the attribute of an object is set; a bag is
    frozen in place (DataBag::UnsafeMakeImmutable); it is forked or frozen into a new bag
    (data_bag.cc:68-111, the cache is not copied); bags are put one over the other
    (DataBag::ImmutableEmptyWithFallbacks); a functor is called *)
Inductive event :=
| NewBag
| SetAttr (bag id : nat) (name : string) (i : item)
| MakeImmutable (bag : nat)
| Fork (bag : nat) (immutable : bool)
| Fallbacks (bags : list nat)
| CallEvent (bag id : nat) (args : list V) (kwnames : list string).

Fixpoint update_at {A} (n : nat) (x : A) (l : list A) : list A :=
  match n, l with
  | _, [] => []
  | O, _ :: l => x :: l
  | S n, y :: l => y :: update_at n x l
  end.
Fixpoint set_assoc (id : nat) (f : functor) (l : list (nat * functor)) : list (nat * functor) :=
  match l with
  | [] => [(id, f)]
  | (j, g) :: l => if id =? j then (j, f) :: l else (j, g) :: set_assoc id f l
  end.
Definition write (b : bag_state) (id : nat) (name : string) (i : item) : bag_state :=
  let f := match find id (b_objects b) with Some f => f | None => [] end in
  mkBag (b_mutable b) (set_assoc id ((name, i) :: f) (b_objects b)) (b_cache b).

(** data_bag.cc:51-66 ImmutableEmptyWithFallbacks, and what is then found in the new bag: the
    attributes of the first bag hide those of the others *)
Fixpoint fallbacks_of (w : world) (ks : list nat) : option (list bag_state) :=
  match ks with
  | [] => Some []
  | k :: ks =>
      match nth_error w k, fallbacks_of w ks with
      | Some b, Some l => if b_mutable b then None else Some (b :: l)
      | _, _ => None
      end
  end.
Definition attributes_in (id : nat) (b : bag_state) : functor :=
  match find id (b_objects b) with Some f => f | None => [] end.
Definition layered (l : list bag_state) : bag_state :=
  mkBag false (map (fun id => (id, flat_map (attributes_in id) l)) (flat_map (fun b => map fst (b_objects b)) l)) [].

Variable bag_of : nat -> bag.

Definition step (w : world) (e : event) : world * option (fn_result V) :=
  match e with
  | NewBag => (w ++ [mkBag true [] []], None)
  | SetAttr k id name i =>
      match nth_error w k with
      | Some b => if b_mutable b then (update_at k (write b id name i) w, None) else (w, Some (Err EBag))
      | None => (w, Some (Err EBag))
      end
  | MakeImmutable k =>
      match nth_error w k with
      | Some b => (update_at k (mkBag false (b_objects b) (b_cache b)) w, None)
      | None => (w, Some (Err EBag))
      end
  | Fork k immutable =>
      match nth_error w k with
      | Some b => (w ++ [mkBag (negb immutable) (b_objects b) []], None)
      | None => (w, Some (Err EBag))
      end
  | Fallbacks ks =>
      match fallbacks_of w ks with
      | Some l => (w ++ [layered l], None)
      | None => (w, Some (Err EBag))
      end
  | CallEvent k id args kwnames =>
      match nth_error w k with
      | Some b => let '(r, b) := call_cached (bag_of k) b id args kwnames in (update_at k b w, Some r)
      | None => (w, Some (Err EBag))
      end
  end.
Fixpoint steps (w : world) (l : list event) : list (option (fn_result V)) :=
  match l with
  | [] => []
  | e :: l => let '(w, r) := step w e in r :: steps w l
  end.

End Functors.

Arguments Lit {V op} v.
Arguments Input {V op} container name.
Arguments Token {V op}.
Arguments Leaf {V op} key.
Arguments Placeholder {V op} key.
Arguments Call {V op} o args.
Arguments Quote {V op} e.
Arguments Object {V op} v.
Arguments Missing {V op} v.
Arguments SignatureObject {V op} v ps.
Arguments Primitive {V op} v.
Arguments Ok {A} a.
Arguments Err {A} e.
Arguments has {V op} n f.
Arguments is_functor {V op} f.
Arguments legal {V op} e.
Arguments names_in {V op} c e.
Arguments expr_names {V op} c e.
Arguments mkFrame {V op} _ _ _.
Arguments fr_name {V op} f.
Arguments fr_value {V op} f.
Arguments fr_deps {V op} f.
Arguments mkWalk {V op} _ _ _.
Arguments w_stack {V op} w.
Arguments w_status {V op} w.
Arguments w_seen {V op} w.
Arguments dependencies {V op} i.
Arguments reach {V op} f n w.
Arguments round {V op} f w.
Arguments rounds {V op} fuel f w.
Arguments mentioned {V op} i.
Arguments universe {V op} f.
Arguments enough {V op} f.
Arguments for_each {V op} f.
Arguments validate_defined {V op} f defined.
Arguments default_parameters {V} self_default inputs.
Arguments all_inputs {V op} values.
Arguments process_signature {V op} self_default as_object signature values.
Arguments items_of {V op} l.
Arguments present {V op} i.
Arguments create_functor {V op} self_default as_object ret signature vars.
Arguments inline {V op} vars e.
Arguments variable_expr {V op} op_with_bag vars i.
Arguments inline_variables {V op} op_with_bag f order vars.
Arguments inline_all {V op} op_with_bag f.
Arguments process {V op} op_with_bag f.
Arguments eval {V op} token eval_op env e.
Arguments given {V} inputs c n.
Arguments passed_twice {V} wanted inputs.
Arguments eval_expr {V op} token eval_op e inputs.
Arguments bound_value {V} tuple_value named_value b.
Arguments run {V op bag} token eval_op with_bag bag_value tuple_value named_value b p args kwnames.
Arguments call {V op bag} op_with_bag token eval_op with_bag bag_value tuple_value named_value b f args kwnames.
Arguments mkBag {V op} _ _ _.
Arguments b_mutable {V op} b.
Arguments b_objects {V op} b.
Arguments b_cache {V op} b.
Arguments set_cached {V op} id p b.
Arguments call_cached {V op bag} op_with_bag token eval_op with_bag bag_value tuple_value named_value bv b id args kwnames.
Arguments NewBag {V op}.
Arguments SetAttr {V op} bag id name i.
Arguments MakeImmutable {V op} bag.
Arguments Fork {V op} bag immutable.
Arguments Fallbacks {V op} bags.
Arguments CallEvent {V op} bag id args kwnames.
Arguments write {V op} b id name i.
Arguments step {V op bag} op_with_bag token eval_op with_bag bag_value tuple_value named_value bag_of w e.
Arguments steps {V op bag} op_with_bag token eval_op with_bag bag_value tuple_value named_value bag_of w l.
