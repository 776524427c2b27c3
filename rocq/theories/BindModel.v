(** Partial application of functors: kd.functor.bind in koladata/functor/bind_operator.cc and
    its Python counterpart in py/koladata/functor/functor_factories.py.

    Functors, items and expressions are those of FunctorModel. The operators that occur in
    the expressions are arbitrary here; what they compute is said in BindSpec. The bags of the
    bound values are merged into that of the new functor; this is left out, as it is in
    FunctorModel. *)
From Coq Require Import String List Bool Arith.
From Verif Require Import SignatureModel FunctorModel AutoVarModel.
Import ListNotations.
Local Open Scope string_scope.
Local Open Scope nat_scope.
Local Open Scope list_scope.

(** kd.functor.call, core.make_tuple, namedtuple.make, core.concat_tuples, namedtuple.union,
    core.get_nth, namedtuple.get_field *)
Record operators (op : Type) := mkOps {
  o_call : op; o_tuple : op; o_named : op; o_concat : op; o_union : op; o_nth : op; o_field : op }.
Arguments o_call {op} o.
Arguments o_tuple {op} o.
Arguments o_named {op} o.
Arguments o_concat {op} o.
Arguments o_union {op} o.
Arguments o_nth {op} o.
Arguments o_field {op} o.

Inductive bind_error :=
| NotAnItem
| NotPresent
| NotAFunctor
| ReservedName
| NoFunctor (e : fn_error).
Inductive bind_result (A : Type) := Made (a : A) | Refused (e : bind_error).
Arguments Made {A} a.
Arguments Refused {A} e.

Section Bind.
Variables (V op : Type).
Local Notation expr := (expr V op).
Local Notation slice := (slice V op).
Local Notation functor := (functor V op).
Variable self_default : V.
Variable as_object : list (param V) -> V.
Variable ops : operators op.
(** The literals: a tuple of names, a number, a text *)
Variable names_value : list string -> V.
Variable number_value : nat -> V.
Variable text_value : string -> V.

Definition variable (n : string) : expr := Input "V" n.
Definition aux_fn := "_aux_fn".
(** bind_operator.cc:158-160, functor_factories.py:463 *)
Definition arg_name (i : nat) : string := numbered "_aux_fn_arg" i.
Definition arg_names (n : nat) : list string := map arg_name (seq 0 n).

(** bind_operator.cc:74-82 MakeArgumentNamesTuple *)
Definition argument_names_tuple (names : list string) : expr := Lit (names_value names).
(** bind_operator.cc:84-95 MakeTupleOfVariables *)
Definition tuple_of_variables (names : list string) : expr := Call (o_tuple ops) (map variable names).
(** bind_operator.cc:97-109 MakeNamedTupleOfVariables *)
Definition named_tuple_of_variables (names : list string) : expr :=
  Call (o_named ops) (argument_names_tuple names :: map variable names).
(** bind_operator.cc:111-141 MakeCapturingLambdaExpr; the arguments of kd.functor.call are
    the functor, the positional arguments, the type, the keyword arguments and the token. The
    same expression is made in functor_factories.py:506-522 *)
Definition capturing_lambda (return_type_as : V) (aux_arg_names kwargs_names : list string) : expr :=
  Call (o_call ops)
    [variable aux_fn;
     Call (o_concat ops) [tuple_of_variables aux_arg_names; Input "I" "args"];
     Lit return_type_as;
     Call (o_union ops) [named_tuple_of_variables kwargs_names; Input "I" "kwargs"];
     Token].

(** signature_utils.cc:271-282 CppArgsKwargsSignature *)
Definition args_kwargs : list (param V) := [mkParam "args" VarPositional None; mkParam "kwargs" VarKeyword None].
(** signature_utils.cc:291-295 KodaArgsKwargsSignature *)
Definition args_kwargs_signature : slice := (0, SignatureObject (as_object args_kwargs) args_kwargs).

Definition made (r : fn_result functor) : bind_result functor :=
  match r with Ok f => Made f | Err e => Refused (NoFunctor e) end.

(** bind_operator.cc:62-72 ValidateFn and 143-181 CreateBind *)
Definition create_bind (fn : slice) (return_type_as : V) (args : list slice) (kwargs : list (string * slice))
  : bind_result functor :=
  if negb (fst fn =? 0) then Refused NotAnItem
  else if negb (present (snd fn)) then Refused NotPresent
  else
    let names := arg_names (length args) in
    made (create_functor self_default as_object
            (0, Quote (capturing_lambda return_type_as names (map fst kwargs)))
            args_kwargs_signature
            (kwargs ++ combine names args ++ [(aux_fn, fn)])).

(** ** The Python function *)

(** dict.__setitem__ and dict.update *)
Fixpoint put {A} (n : string) (x : A) (l : list (string * A)) : list (string * A) :=
  match l with
  | [] => [(n, x)]
  | (m, y) :: l => if String.eqb n m then (m, x) :: l else (m, y) :: put n x l
  end.
Definition put_all {A} (new l : list (string * A)) : list (string * A) := fold_left (fun l x => put (fst x) (snd x) l) new l.

(** functor_factories.py:464-467: an expression, also if it comes as a DataItem *)
Definition is_expr (s : slice) : bool :=
  match s with (0, Quote _) => true | _ => false end.

(** The new object of a functor *)
Variable object_of : functor -> V.

(** functor_factories.py:56-93 expr_fn; its own parameters cannot be names of variables: the
    first two make the call fail, the third is taken for the flag and so is not a variable.
    With that flag the functor is passed to auto_variables, too; this is left out since
    "auto_variables" is then an undefined variable of all functors made here *)
Definition expr_fn (ret signature : slice) (vars : list (string * slice)) : bind_result functor :=
  if existsb (fun x => String.eqb (fst x) "returns" || String.eqb (fst x) "signature") vars
  then Refused ReservedName
  else made (create_functor self_default as_object ret signature
               (filter (fun x => negb (String.eqb (fst x) "auto_variables")) vars)).

Definition compute_variables := "_aux_fn_compute_variables".
Definition computed_variables := "_aux_fn_variables".
Definition missing_signature : slice := (0, Missing self_default).

(** functor_factories.py:471-481: the functor that computes the bound values *)
Definition compute_functor (args : list slice) (kwargs : list (string * slice)) : bind_result functor :=
  let names := arg_names (length args) in
  expr_fn
    (0, Quote (Call (o_tuple ops) [tuple_of_variables names; named_tuple_of_variables (map fst kwargs)]))
    missing_signature
    (put_all (combine names args) kwargs).
(** functor_factories.py:488-500: how the bound values are found in what it returns *)
Definition computed_tuple : expr := Call (o_nth ops) [variable computed_variables; Lit (number_value 0)].
Definition computed_named : expr := Call (o_nth ops) [variable computed_variables; Lit (number_value 1)].
Definition computed_arg (i : nat) : slice := (0, Quote (Call (o_nth ops) [computed_tuple; Lit (number_value i)])).
Definition computed_kwarg (n : string) : slice := (0, Quote (Call (o_field ops) [computed_named; Lit (text_value n)])).
(** functor_factories.py:412-523 bind; [is_fn] says whether fn is a functor, [variables_type]
    is the value with the type of the computed variables (482-487, 492) *)
Definition bind (is_fn : bool) (fn : slice) (return_type_as variables_type : V) (args : list slice)
  (kwargs : list (string * slice)) : bind_result functor :=
  if negb is_fn then Refused NotAFunctor
  else
    let names := arg_names (length args) in
    let finish vars := expr_fn (0, Quote (capturing_lambda return_type_as names (map fst kwargs))) args_kwargs_signature vars in
    if existsb is_expr (args ++ map snd kwargs)
    then match compute_functor args kwargs with
         | Refused e => Refused e
         | Made h =>
             finish
               (put_all (map (fun n => (n, computed_kwarg n)) (map fst kwargs))
                 (put_all (map (fun i => (arg_name i, computed_arg i)) (seq 0 (length args)))
                   [(aux_fn, fn);
                    (compute_variables, (0, Object (object_of h)));
                    (computed_variables,
                     (0, Quote (Call (o_call ops) [variable compute_variables; Input "I" "args"; Lit variables_type;
                                                  Input "I" "kwargs"; Token])))]))
         end
    else finish (put_all (combine names args) (put_all kwargs [(aux_fn, fn)])).

End Bind.
Arguments variable {V op} n.
Arguments capturing_lambda {V op} ops names_value return_type_as aux_arg_names kwargs_names.
Arguments args_kwargs {V}.
Arguments create_bind {V op} self_default as_object ops names_value fn return_type_as args kwargs.
Arguments is_expr {V op} s.
Arguments compute_functor {V op} self_default as_object ops names_value args kwargs.
Arguments bind {V op} self_default as_object ops names_value number_value text_value object_of is_fn fn return_type_as variables_type args kwargs.
