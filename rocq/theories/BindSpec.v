(** What the statements about partial application are phrased with. *)
From Coq Require Import String List Bool Arith.
From Verif Require Import SignatureModel SignatureSpec FunctorModel FunctorSpec BindModel.
Import ListNotations.
Local Open Scope string_scope.
Local Open Scope nat_scope.
Local Open Scope list_scope.

(** The keyword arguments of a call of functools.partial: the bound ones, unless the caller
    passes another value, and those that only the caller passes *)
Definition override {A} (bound given : list (string * A)) : list (string * A) :=
  map (fun x => (fst x, match lookup (fst x) given with Some v => v | None => snd x end)) bound
  ++ filter (fun x => match lookup (fst x) bound with Some _ => false | None => true end) given.

Section Spec.
Variables (V op bag : Type).

(** Arolla's operators on tuples and named tuples, and kd.functor.call: apply rt f pos kw is
    the outcome of the call of the functor f that is to return a value of the type of rt.
    All of them fail if an argument fails *)
Record computes (ops : operators op) (token : V) (eval_op : op -> list (option V) -> option V)
  (tuple_value : list V -> V) (named_value : list (string * V) -> V) (names_value : list string -> V)
  (number_value : nat -> V) (text_value : string -> V)
  (apply : V -> V -> list V -> list (string * V) -> option V) : Prop := {
  of_tuple : forall l, eval_op (o_tuple ops) (map Some l) = Some (tuple_value l);
  of_named : forall l, NoDup (map fst l) ->
    eval_op (o_named ops) (Some (names_value (map fst l)) :: map Some (map snd l)) = Some (named_value l);
  of_concat : forall l l', eval_op (o_concat ops) [Some (tuple_value l); Some (tuple_value l')] = Some (tuple_value (l ++ l'));
  of_union : forall l l', NoDup (map fst l) -> NoDup (map fst l') ->
    eval_op (o_union ops) [Some (named_value l); Some (named_value l')] = Some (named_value (override l l'));
  of_nth : forall l i v, nth_error l i = Some v ->
    eval_op (o_nth ops) [Some (tuple_value l); Some (number_value i)] = Some v;
  of_field : forall l n v, NoDup (map fst l) -> In (n, v) l ->
    eval_op (o_field ops) [Some (named_value l); Some (text_value n)] = Some v;
  of_call : forall f rt pos kw, NoDup (map fst kw) ->
    eval_op (o_call ops) [Some f; Some (tuple_value pos); Some rt; Some (named_value kw); Some token] = apply rt f pos kw;
  strict : forall o l, In o [o_tuple ops; o_named ops; o_concat ops; o_union ops; o_nth ops; o_field ops; o_call ops] ->
    In None l -> eval_op o l = None }.

Variable with_bag : bag -> V -> V.

(** The value of an item that is no expression, in the bag of the functor *)
Inductive item_value (b : bag) : item V op -> V -> Prop :=
| ValueOfPrimitive v : item_value b (Primitive v) v
| ValueOfObject v : item_value b (Object v) (with_bag b v)
| ValueOfMissing v : item_value b (Missing v) (with_bag b v)
| ValueOfSignature v ps : item_value b (SignatureObject v ps) (with_bag b v).

(** The names are those of different variables, also of the auxiliary ones *)
Definition good_names (positions : nat) (names : list string) : Prop :=
  NoDup names /\ forall n, In n names -> ~ In n ["returns"; "__signature__"; "_aux_fn"]
    /\ forall i, i < positions -> n <> arg_name i.

(** kd.functor.call finds f behind the object, runs it and checks the type of the result *)
Definition runs (has_type : V -> V -> bool) (apply : V -> V -> list V -> list (string * V) -> option V)
  (call : functor V op -> list V -> list string -> fn_result V) (object : V) (f : functor V op) : Prop :=
  forall rt pos kw, apply rt object pos kw =
    match call f (pos ++ map snd kw) (map fst kw) with
    | Ok v => if has_type rt v then Some v else None
    | Err _ => None
    end.

(** The inputs of the bound expressions: I.self is the positional argument *)
Definition expression_inputs (self : V) (pos : list V) (kw : list (string * V)) (n : string) : option V :=
  if String.eqb n "self" then Some (hd self pos) else lookup n kw.

Variable token : V.
Variable eval_op : op -> list (option V) -> option V.
(** The outcome of a bound item, which may be an expression *)
Inductive bound_outcome (b : bag) (inputs : string -> option V) : item V op -> V -> Prop :=
| OutcomeOfExpr e v : eval token eval_op (fun _ n => inputs n) e = Some v -> bound_outcome b inputs (Quote e) v
| OutcomeOfItem i v : item_value b i v -> bound_outcome b inputs i v.

(** I.n occurs in a bound expression *)
Definition used_input (args : list (slice V op)) (kwargs : list (string * slice V op)) (n : string) : Prop :=
  exists s e, In s (args ++ map snd kwargs) /\ snd s = Quote e /\ occurs "I" n e.
(** The outcomes of everything that is bound *)
Definition bound_outcomes (b : bag) (inputs : string -> option V) (args : list (slice V op)) (kwargs : list (string * slice V op))
  (avs : list V) (kvs : list (string * V)) : Prop :=
  Forall2 (fun s x => bound_outcome b inputs (snd s) x) args avs
  /\ Forall2 (fun s x => fst s = fst x /\ bound_outcome b inputs (snd (snd s)) (snd x)) kwargs kvs.
End Spec.
Arguments computes {V op} ops token eval_op tuple_value named_value names_value number_value text_value apply.
Arguments item_value {V op bag} with_bag b i v.
Arguments runs {V op} has_type apply call object f.
Arguments expression_inputs {V} self pos kw n.
Arguments bound_outcome {V op bag} with_bag token eval_op b inputs i v.
Arguments used_input {V op} args kwargs n.
Arguments bound_outcomes {V op bag} with_bag token eval_op b inputs args kwargs avs kvs.
