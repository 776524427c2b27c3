(** C55: a functor that is partially applied behaves like functools.partial. *)
From Coq Require Import String List Bool Arith Lia.
From Verif Require Import SignatureModel SignatureSpec FunctorModel FunctorSpec FunctorProofs AutoVarModel AutoVarProofs AutoVarTopProofs BindModel BindSpec BindProofs BindTopProofs BindExprProofs BindUseProofs.
Import ListNotations.
Local Open Scope string_scope.
Local Open Scope nat_scope.
Local Open Scope list_scope.

Section Properties.
Context {V op bag : Type}.
Variable self_default : V.
Variable as_object : list (param V) -> V.
Variable ops : operators op.
Variable op_with_bag : op.
Variable token : V.
Variable eval_op : op -> list (option V) -> option V.
Variable with_bag : bag -> V -> V.
Variable bag_value : bag -> V.
Variable tuple_value : list V -> V.
Variable named_value : list (string * V) -> V.
Variable names_value : list string -> V.
Variable number_value : nat -> V.
Variable text_value : string -> V.
Variable object_of : functor V op -> V.
Variable has_type : V -> V -> bool.
Variable apply : V -> V -> list V -> list (string * V) -> option V.
Local Notation call := (call op_with_bag token eval_op with_bag bag_value tuple_value named_value).
Local Notation create_bind := (create_bind self_default as_object ops names_value).
Local Notation bind := (bind self_default as_object ops names_value number_value text_value object_of).
Local Notation values b args avs := (Forall2 (fun s x => item_value with_bag b (snd s) x) args avs).
Local Notation named_values b kwargs kvs := (Forall2 (fun s x => fst s = fst x /\ item_value with_bag b (snd (snd s)) (snd x)) kwargs kvs).
Hypothesis op_with_bag_ok : forall b v, eval_op op_with_bag [Some v; Some (bag_value b)] = Some (with_bag b v).
Hypothesis comp : computes ops token eval_op tuple_value named_value names_value number_value text_value apply.

(** The call of the bound functor is the call of the given one with the bound positional
    arguments before those of the call, and the bound keyword arguments unless the call has
    others *)
Theorem C55_call fn rt args kwargs g b fv avs kvs pos kw v :
  create_bind fn rt args kwargs = Made g -> good_names (length args) (map fst kwargs) ->
  item_value with_bag b (snd fn) fv -> values b args avs -> named_values b kwargs kvs ->
  call b g (pos ++ map snd kw) (map fst kw) = Ok v <->
  NoDup (map fst kw) /\ apply rt fv (avs ++ pos) (override kvs kw) = Some v.
Proof.
  exact (create_bind_call V op bag self_default as_object ops op_with_bag token eval_op with_bag bag_value tuple_value named_value
           names_value number_value text_value apply op_with_bag_ok comp fn rt args kwargs g b fv avs kvs pos kw v).
Qed.

(** Also with the Python function *)
Theorem C55_python_call is_fn fn rt vt args kwargs g b fv avs kvs pos kw v :
  bind is_fn fn rt vt args kwargs = Made g -> good_names (length args) (map fst kwargs) ->
  item_value with_bag b (snd fn) fv -> values b args avs -> named_values b kwargs kvs ->
  call b g (pos ++ map snd kw) (map fst kw) = Ok v <->
  NoDup (map fst kw) /\ apply rt fv (avs ++ pos) (override kvs kw) = Some v.
Proof.
  exact (bind_call V op bag self_default as_object ops op_with_bag token eval_op with_bag bag_value tuple_value named_value
           names_value number_value text_value object_of apply op_with_bag_ok comp is_fn fn rt vt args kwargs g b fv avs kvs pos kw v).
Qed.

(** With expressions among the bound values: they are evaluated in each call, with the
    keyword arguments of the call as inputs and its positional argument as I.self; there can
    be only one *)
Theorem C55_expressions is_fn fn rt vt args kwargs g b fv pos kw v :
  good_names (length args) (map fst kwargs) ->
  ~ In "_aux_fn_compute_variables" (map fst kwargs) -> ~ In "_aux_fn_variables" (map fst kwargs) ->
  (forall s e, In s (args ++ map snd kwargs) -> snd s = Quote e -> (forall n, ~ occurs "V" n e) /\ ~ occurs "I" "__bag" e) ->
  bind is_fn fn rt vt args kwargs = Made g -> existsb is_expr (args ++ map snd kwargs) = true ->
  (forall h, compute_functor self_default as_object ops names_value args kwargs = Made h ->
     runs has_type apply (call b) (with_bag b (object_of h)) h) ->
  item_value with_bag b (snd fn) fv ->
  call b g (pos ++ map snd kw) (map fst kw) = Ok v <->
  NoDup (map fst kw) /\ length pos <= 1 /\ (forall n, used_input args kwargs n -> n <> "self" -> In n (map fst kw))
  /\ exists avs kvs,
       bound_outcomes with_bag token eval_op b (expression_inputs (with_bag b self_default) pos kw) args kwargs avs kvs
       /\ has_type vt (tuple_value [tuple_value avs; named_value kvs]) = true
       /\ apply rt fv (avs ++ pos) (override kvs kw) = Some v.
Proof.
  intros G NC NV S M E R F.
  exact (bind_expr_call V op bag self_default as_object ops op_with_bag token eval_op with_bag bag_value tuple_value named_value
           names_value number_value text_value object_of apply op_with_bag_ok comp args kwargs G S has_type is_fn fn rt vt g b fv pos kw v M E NC NV R F).
Qed.

(** If kd.functor.call finds the functor f, the bound functor returns what f returns, if it
    has the promised type *)
Theorem C55_functor fn rt args kwargs g b fv f avs kvs pos kw v :
  create_bind fn rt args kwargs = Made g -> good_names (length args) (map fst kwargs) ->
  item_value with_bag b (snd fn) fv -> runs has_type apply (call b) fv f -> values b args avs -> named_values b kwargs kvs ->
  call b g (pos ++ map snd kw) (map fst kw) = Ok v <->
  NoDup (map fst kw) /\ has_type rt v = true
  /\ call b f ((avs ++ pos) ++ map snd (override kvs kw)) (map fst (override kvs kw)) = Ok v.
Proof.
  exact (bound_functor V op bag self_default as_object ops op_with_bag token eval_op with_bag bag_value tuple_value named_value
           names_value number_value text_value has_type apply op_with_bag_ok comp fn rt args kwargs g b fv f avs kvs pos kw v).
Qed.

(** Binding some arguments and then others is binding all of them; of two values for a
    keyword the later one counts *)
Theorem C55_twice fn rt args kwargs g fn' args' kwargs' g' g2 b fv f gv avs kvs avs' kvs' pos kw v :
  create_bind fn rt args kwargs = Made g -> create_bind fn' rt args' kwargs' = Made g' ->
  create_bind fn rt (args ++ args') (override kwargs kwargs') = Made g2 ->
  good_names (length args) (map fst kwargs) -> good_names (length args') (map fst kwargs') ->
  good_names (length (args ++ args')) (map fst (override kwargs kwargs')) ->
  item_value with_bag b (snd fn) fv -> runs has_type apply (call b) fv f ->
  item_value with_bag b (snd fn') gv -> runs has_type apply (call b) gv g ->
  values b args avs -> named_values b kwargs kvs -> values b args' avs' -> named_values b kwargs' kvs' ->
  call b g' (pos ++ map snd kw) (map fst kw) = Ok v <-> call b g2 (pos ++ map snd kw) (map fst kw) = Ok v.
Proof.
  exact (bound_twice V op bag self_default as_object ops op_with_bag token eval_op with_bag bag_value tuple_value named_value
           names_value number_value text_value has_type apply op_with_bag_ok comp fn rt args kwargs g fn' args' kwargs' g' g2 b fv f gv
           avs kvs avs' kvs' pos kw v).
Qed.

(** A parameter that is given by position, bound or not, cannot also be given by keyword *)
Theorem C55_clash fn rt args kwargs g b fv f avs kvs pos kw v sv ps i p :
  create_bind fn rt args kwargs = Made g -> good_names (length args) (map fst kwargs) ->
  item_value with_bag b (snd fn) fv -> runs has_type apply (call b) fv f -> values b args avs -> named_values b kwargs kvs ->
  lookup "__signature__" f = Some (SignatureObject sv ps) ->
  at_ ps i p -> by_position p -> by_keyword p -> i < length args + length pos ->
  In (p_name p) (map fst kwargs) \/ In (p_name p) (map fst kw) ->
  call b g (pos ++ map snd kw) (map fst kw) <> Ok v.
Proof.
  exact (bound_clash V op bag self_default as_object ops op_with_bag token eval_op with_bag bag_value tuple_value named_value
           names_value number_value text_value has_type apply op_with_bag_ok comp fn rt args kwargs g b fv f avs kvs pos kw v sv ps i p).
Qed.
End Properties.

(** Items can be bound to what is there; that it is a functor, and that it takes the
    arguments, is only seen when it is called *)
Theorem C55_created {V op} self_default as_object ops names_value (fn : slice V op) rt args kwargs :
  good_names (length args) (map fst kwargs) ->
  (forall e, snd fn <> Quote e) -> (forall s e, In s args -> snd s <> Quote e) -> (forall n s e, In (n, s) kwargs -> snd s <> Quote e) ->
  (exists g, create_bind self_default as_object ops names_value fn rt args kwargs = Made g) <->
  fst fn = 0 /\ (forall v, snd fn <> Missing v) /\ (forall s, In s args -> fst s = 0) /\ (forall n s, In (n, s) kwargs -> fst s = 0).
Proof. exact (create_bind_iff V op self_default as_object ops names_value (fun _ => rt) fn rt args kwargs). Qed.

(** ** An example *)

Inductive exv := Num (n : nat) | Tup (l : list exv) | Nam (l : list (string * exv)) | Names (l : list string) | Txt (s : string)
  | Obj (n : nat) | Tok | BagV | Self | Sig | Expr (n : nat).
Inductive exop := OBag | OCall | OTuple | ONamed | OConcat | OUnion | ONth | OField | OMix.
Definition ex_ops := mkOps exop OCall OTuple ONamed OConcat OUnion ONth OField.
Fixpoint present_all (l : list (option exv)) : option (list exv) :=
  match l with
  | [] => Some []
  | None :: _ => None
  | Some x :: l => match present_all l with Some r => Some (x :: r) | None => None end
  end.
Definition applying := exv -> exv -> list exv -> list (string * exv) -> option exv.
Definition ex_eval (ap : applying) (o : exop) (l : list (option exv)) : option exv :=
  match present_all l with
  | None => None
  | Some l =>
      match o, l with
      | OBag, [x; _] => Some x
      | OTuple, _ => Some (Tup l)
      | ONamed, Names ns :: l => Some (Nam (combine ns l))
      | OConcat, [Tup a; Tup b] => Some (Tup (a ++ b))
      | OUnion, [Nam a; Nam b] => Some (Nam (override a b))
      | ONth, [Tup a; Num i] => nth_error a i
      | OField, [Nam a; Txt n] => lookup n a
      | OMix, [Num x; Num y] => Some (Num (10 * x + y))
      | OCall, [f; Tup pos; rt; Nam kw; Tok] => ap rt f pos kw
      | _, _ => None
      end
  end.
Definition ex_type (rt v : exv) : bool :=
  match rt, v with Num _, Num _ => true | Tup _, Tup _ => true | _, _ => false end.
Definition ex_call (ap : applying) := call (bag := unit) OBag Tok (ex_eval ap) (fun _ v => v) (fun _ => BagV) Tup Nam.
Definition nothing : applying := fun _ _ _ _ => None.
Definition checked ap (rt : exv) (f : functor exv exop) (pos : list exv) (kw : list (string * exv)) : option exv :=
  match ex_call ap tt f (pos ++ map snd kw) (map fst kw) with
  | Ok v => if ex_type rt v then Some v else None
  | Err _ => None
  end.
Lemma ex_computes ap : computes ex_ops Tok (ex_eval ap) Tup Nam Names Num Txt ap.
Proof.
  assert (P : forall l, present_all (map Some l) = Some l) by (induction l as [|x l IH]; cbn; [reflexivity|]; rewrite IH; reflexivity).
  constructor; intros.
  - unfold ex_eval. cbn [o_tuple ex_ops]. rewrite P. reflexivity.
  - unfold ex_eval. cbn [o_named ex_ops present_all]. rewrite P. do 2 f_equal. clear. induction l as [|[n x] l IH]; cbn; [reflexivity|f_equal; exact IH].
  - reflexivity.
  - reflexivity.
  - exact H.
  - unfold ex_eval. cbn. apply lookup_nodup; assumption.
  - reflexivity.
  - unfold ex_eval. assert (N : present_all l = None).
    { induction l as [|[x|] l IH]; cbn; [destruct H0|destruct H0 as [E|I]; [discriminate|rewrite IH; [reflexivity|exact I]]|reflexivity]. }
    rewrite N. reflexivity.
Qed.

(** def fn(x, y, *, z, w=0): return 100 * x + 10 * y + z *)
Definition ex_params := [mkParam "x" PositionalOrKeyword None; mkParam "y" PositionalOrKeyword None; mkParam "z" KeywordOnly None;
  mkParam "w" KeywordOnly (Some (0, Num 0))].
Definition ex_f : functor exv exop :=
  [("returns", Quote (Call OMix [Call OMix [Input "I" "x"; Input "I" "y"]; Input "I" "z"]));
   ("__signature__", SignatureObject Sig ex_params)].
Definition num (n : nat) : slice exv exop := (0, Primitive (Num n)).
Definition quoted (e : expr exv exop) : slice exv exop := (0, Quote e).
Definition fn_item (n : nat) : slice exv exop := (0, Object (Obj n)).
Definition ex_bind := create_bind Self (fun _ => Sig) ex_ops Names.
Definition ex_pybind := bind Self (fun _ => Sig) ex_ops Names Num Txt (fun _ => Obj 2) true.
Definition made_functor (r : bind_result (functor exv exop)) : functor exv exop := match r with Made f => f | Refused _ => [] end.

(** bind(fn, 1, z=3), and then bind(., 2) and bind(., z=4) *)
Definition ex_g := made_functor (ex_bind (fn_item 1) (Num 0) [num 1] [("z", num 3)]).
Definition ex_g' := made_functor (ex_bind (fn_item 3) (Num 0) [num 2] [("z", num 4)]).
Definition ex_g2 := made_functor (ex_bind (fn_item 1) (Num 0) [num 1; num 2] [("z", num 4)]).
(** bind(fn, I.w, z=10 * I.w + I.self) *)
Definition ex_args := [quoted (Input "I" "w")].
Definition ex_kwargs := [("z", quoted (Call OMix [Input "I" "w"; Input "I" "self"]))].
Definition ex_h := made_functor (compute_functor Self (fun _ => Sig) ex_ops Names ex_args ex_kwargs).
Definition ex_e := made_functor (ex_pybind (fn_item 1) (Num 0) (Tup []) ex_args ex_kwargs).

(** The objects 1 and 2 are fn and the functor that computes the bound expressions, 3 is the
    bound functor *)
Definition ap1 : applying := fun rt o pos kw =>
  match o with Obj 1 => checked nothing rt ex_f pos kw | Obj 2 => checked nothing rt ex_h pos kw | _ => None end.
Definition ap2 : applying := fun rt o pos kw =>
  match o with Obj 3 => checked ap1 rt ex_g pos kw | _ => ap1 rt o pos kw end.

Lemma call_same ap ap' f p pos kw : process OBag f = Ok p ->
  (forall inputs, eval Tok (ex_eval ap) (given inputs) (snd p) = eval Tok (ex_eval ap') (given inputs) (snd p)) ->
  ex_call ap tt f pos kw = ex_call ap' tt f pos kw.
Proof.
  intros P E. unfold ex_call, call. rewrite P. destruct (negb (is_functor f)); [reflexivity|]. unfold run.
  destruct (bind_arguments _ _ _ _ _); [|reflexivity]. unfold eval_expr. rewrite E. reflexivity.
Qed.
Lemma ex_runs_f : runs ex_type ap2 (ex_call ap2 tt) (Obj 1) ex_f.
Proof.
  intros rt pos kw. cbn [ap2 ap1]. unfold checked. erewrite (call_same nothing ap2); [reflexivity|vm_compute; reflexivity|]. reflexivity.
Qed.
Lemma ex_runs_h : runs ex_type ap2 (ex_call ap2 tt) (Obj 2) ex_h.
Proof.
  intros rt pos kw. cbn [ap2 ap1]. unfold checked. erewrite (call_same nothing ap2); [reflexivity|vm_compute; reflexivity|]. reflexivity.
Qed.
Lemma ex_runs_g : runs ex_type ap2 (ex_call ap2 tt) (Obj 3) ex_g.
Proof.
  intros rt pos kw. cbn [ap2]. unfold checked. erewrite (call_same ap1 ap2); [reflexivity|vm_compute; reflexivity|].
  intros inputs. cbn [snd]. cbn -[ap1 ap2 combine override].
  destruct (lookup "__bag" inputs); [|reflexivity].
  destruct (lookup "args" inputs) as [[]|]; try reflexivity. destruct (lookup "kwargs" inputs) as [[]|]; reflexivity.
Qed.

Ltac names := split; [repeat constructor; cbn; intuition discriminate|];
  intros n I; cbn in I; repeat destruct I as [<-|I]; try contradiction; split; [cbn; intuition discriminate|];
  intros i L E; unfold arg_name, AutoVarModel.numbered in E; discriminate.

Example C55_hypotheses_met :
  (forall b v, ex_eval ap2 OBag [Some v; Some ((fun _ : unit => BagV) b)] = Some ((fun (_ : unit) v => v) b v))
  /\ computes ex_ops Tok (ex_eval ap2) Tup Nam Names Num Txt ap2
  /\ ex_bind (fn_item 1) (Num 0) [num 1] [("z", num 3)] = Made ex_g
  /\ good_names 1 ["z"] /\ good_names 2 ["z"]
  /\ runs ex_type ap2 (ex_call ap2 tt) (Obj 1) ex_f
  /\ ex_call ap2 tt ex_g [Num 2] [] = Ok (Num 123)
  (* z is overridden, y by keyword *)
  /\ ex_call ap2 tt ex_g [Num 9; Num 2] ["z"; "y"] = Ok (Num 129)
  (* x is already bound by position *)
  /\ ex_call ap2 tt ex_g [Num 2; Num 5] ["x"] = Err EEval
  (* once more *)
  /\ ex_bind (fn_item 3) (Num 0) [num 2] [("z", num 4)] = Made ex_g'
  /\ ex_bind (fn_item 1) (Num 0) ([num 1] ++ [num 2]) (override [("z", num 3)] [("z", num 4)]) = Made ex_g2
  /\ runs ex_type ap2 (ex_call ap2 tt) (Obj 3) ex_g
  /\ ex_call ap2 tt ex_g' [] [] = Ok (Num 124) /\ ex_call ap2 tt ex_g2 [] [] = Ok (Num 124)
  (* the Python function *)
  /\ ex_pybind (fn_item 1) (Num 0) (Tup []) [num 1] [("z", num 3)] = Made (made_functor (ex_pybind (fn_item 1) (Num 0) (Tup []) [num 1] [("z", num 3)]))
  /\ ex_call ap2 tt (made_functor (ex_pybind (fn_item 1) (Num 0) (Tup []) [num 1] [("z", num 3)])) [Num 2] [] = Ok (Num 123)
  (* and expressions *)
  /\ ex_pybind (fn_item 1) (Num 0) (Tup []) ex_args ex_kwargs = Made ex_e
  /\ existsb is_expr (ex_args ++ map snd ex_kwargs) = true
  /\ (forall s e, In s (ex_args ++ map snd ex_kwargs) -> snd s = Quote e -> (forall n, ~ occurs "V" n e) /\ ~ occurs "I" "__bag" e)
  /\ compute_functor Self (fun _ => Sig) ex_ops Names ex_args ex_kwargs = Made ex_h
  /\ runs ex_type ap2 (ex_call ap2 tt) (Obj 2) ex_h
  /\ ex_call ap2 tt ex_h [Num 4; Num 1] ["w"] = Ok (Tup [Tup [Num 1]; Nam [("z", Num 14)]])
  /\ ex_call ap2 tt ex_e [Num 4; Num 1] ["w"] = Ok (Num 154).
Proof.
  split; [reflexivity|]. split; [apply ex_computes|]. split; [vm_compute; reflexivity|]. split; [names|]. split; [names|].
  split; [exact ex_runs_f|]. do 3 (split; [vm_compute; reflexivity|]). do 2 (split; [vm_compute; reflexivity|]). split; [exact ex_runs_g|].
  do 6 (split; [vm_compute; reflexivity|]). split; [|split; [vm_compute; reflexivity|split; [exact ex_runs_h|split; vm_compute; reflexivity]]].
  intros s e I E. cbn in I. destruct I as [<-|[<-|[]]]; injection E as <-; (split; [intros n|]); rewrite <- FunctorProofs.names_in_iff; cbn; intuition discriminate.
Qed.

(** It is not so that a bound expression leaves the positional arguments of the call as they
    are: more than one is refused although the functor takes them *)
Theorem C55_two_positions_refuted : exists (kwargs : list (string * slice exv exop)) g pos kw kvs e v,
  ex_pybind (fn_item 1) (Num 0) (Tup []) [] kwargs = Made g
  /\ bound_outcomes (fun (_ : unit) v => v) Tok (ex_eval ap2) tt (expression_inputs Self pos kw) [] kwargs [] kvs
  /\ ap2 (Num 0) (Obj 1) pos (override kvs kw) = Some v
  /\ ex_call ap2 tt g (pos ++ map snd kw) (map fst kw) = Err e.
Proof.
  exists [("z", quoted (Input "I" "w"))], (made_functor (ex_pybind (fn_item 1) (Num 0) (Tup []) [] [("z", quoted (Input "I" "w"))])).
  exists [Num 1; Num 2], [("w", Num 3)], [("z", Num 3)]. do 2 eexists.
  split; [vm_compute; reflexivity|]. split; [|split; vm_compute; reflexivity].
  split; [constructor|]. constructor; [|constructor]. split; [reflexivity|]. constructor. reflexivity.
Qed.

(** It is not so that the operator passes all bound items on as they are: an expression that is
    bound becomes a variable and is evaluated, here to 12, also with the inputs of the call *)
Theorem C55_bound_expression_refuted : exists g,
  ex_bind (fn_item 1) (Num 0) [quoted (Call OMix [Lit (Num 1); Lit (Num 2)])] [] = Made g
  /\ ex_call ap2 tt g [Num 3; Num 4] ["z"] = Ok (Num 1234).
Proof. eexists. split; vm_compute; reflexivity. Qed.

(** It is not so that the Python function binds what the operator binds *)
Theorem C55_python_names_refuted : exists n e g,
  good_names 0 [n]
  /\ ex_bind (fn_item 1) (Num 0) [] [(n, num 1)] = Made g
  /\ ex_pybind (fn_item 1) (Num 0) (Tup []) [] [(n, num 1)] = Refused e.
Proof. exists "signature". do 2 eexists. split; [names|]. split; vm_compute; reflexivity. Qed.

Print Assumptions C55_call.
Print Assumptions C55_python_call.
Print Assumptions C55_expressions.
Print Assumptions C55_functor.
Print Assumptions C55_twice.
Print Assumptions C55_clash.
Print Assumptions C55_created.
Print Assumptions C55_two_positions_refuted.
Print Assumptions C55_bound_expression_refuted.
Print Assumptions C55_python_names_refuted.
