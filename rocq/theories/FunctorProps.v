(** C51: a functor computes what its variables say. *)
From Coq Require Import String List Bool Arith Relations.
From Verif Require Import SignatureModel SignatureSpec FunctorModel FunctorSpec FunctorProofs FunctorCallProofs.
Import ListNotations.
Local Open Scope string_scope.
Local Open Scope nat_scope.
Local Open Scope list_scope.

(** The walk reports every variable that "returns" depends on exactly once, each after those
    it depends on, with its value; if it fails, what it complains about is there *)
Theorem C51_order {V op} (f : functor V op) :
  match for_each f with
  | Ok seen =>
      has_attr "returns" f /\ has_attr "__signature__" f
      /\ NoDup (map fst seen)
      /\ (forall x, In x (map fst seen) <-> reachable f x)
      /\ after_what_it_needs f (map fst seen)
      /\ (exists l, map fst seen = l ++ ["returns"])
      /\ (forall x v, In (x, v) seen -> v = lookup x f)
      /\ acyclic f /\ plain f
  | Err EFunctor => ~ (has_attr "returns" f /\ has_attr "__signature__" f)
  | Err (ECycle x) => reachable f x /\ on_cycle f x
  | Err EExpr => exists x q, reachable f x /\ lookup x f = Some (Quote q) /\ strange q
  | Err _ => False
  end.
Proof.
  pose proof (for_each_ok V op f) as H. destruct (for_each f) as [seen|e]; [exact H|].
  destruct H as [[-> H]|H]; [exact H|]. destruct e; try contradiction; exact H.
Qed.

(** Which functors can be created, and what they consist of *)
Theorem C51_create {V op} (self_default : V) as_object (ret signature : slice V op) vars f :
  NoDup ("returns" :: map fst vars ++ ["__signature__"]) ->
  create_functor self_default as_object ret signature vars = Ok f <-> creates self_default as_object ret signature vars f.
Proof. exact (create_iff V op self_default as_object ret signature vars f). Qed.

(** A call returns v exactly if the arguments can be bound and v is the outcome of "returns" *)
Theorem C51_call {V op bag} op_with_bag token eval_op with_bag bag_value tuple_value named_value
  (b : bag) (f : functor V op) pos kw v :
  (forall b v, eval_op op_with_bag [Some v; Some (bag_value b)] = Some (with_bag b v)) ->
  call op_with_bag token eval_op with_bag bag_value tuple_value named_value b f (pos ++ map snd kw) (map fst kw) = Ok v
  <-> calls token eval_op with_bag bag_value tuple_value named_value b f pos kw v.
Proof. intros H. exact (call_iff V op bag op_with_bag token eval_op with_bag bag_value tuple_value named_value H b f pos kw v). Qed.

(** The outcomes of the variables are determined by the inputs *)
Theorem C51_outcome {V op bag} token eval_op with_bag (b : bag) (f : functor V op) inputs den den' x :
  has_attr "returns" f -> has_attr "__signature__" f -> acyclic f -> plain f -> defined f ->
  denotes token eval_op with_bag b f inputs den -> denotes token eval_op with_bag b f inputs den' ->
  reachable f x -> den x = den' x.
Proof.
  intros HR HS AC PL DEF D D'. exact (denotes_unique V op f token eval_op bag with_bag b inputs den den' HR HS AC PL DEF D D' x).
Qed.

(** A call that fails has no result, and the error tells why *)
Theorem C51_call_error {V op bag} op_with_bag token eval_op with_bag bag_value tuple_value named_value
  (b : bag) (f : functor V op) pos kw e :
  (forall b v, eval_op op_with_bag [Some v; Some (bag_value b)] = Some (with_bag b v)) ->
  call op_with_bag token eval_op with_bag bag_value tuple_value named_value b f (pos ++ map snd kw) (map fst kw) = Err e ->
  call_fails token eval_op with_bag bag_value tuple_value named_value b f pos kw e
  /\ forall v, ~ calls token eval_op with_bag bag_value tuple_value named_value b f pos kw v.
Proof. intros H. exact (call_err V op bag op_with_bag token eval_op with_bag bag_value tuple_value named_value H b f pos kw e). Qed.

(** A functor that could be created is only refused for its arguments, for inputs that the
    given signature does not have (with the default signature it has all), for I.__bag and
    for what an operator refuses *)
Theorem C51_created_call {V op bag} op_with_bag token eval_op with_bag bag_value tuple_value named_value
  self_default as_object (ret signature : slice V op) vars f (b : bag) pos kw e :
  (forall b v, eval_op op_with_bag [Some v; Some (bag_value b)] = Some (with_bag b v)) ->
  NoDup ("returns" :: map fst vars ++ ["__signature__"]) ->
  create_functor self_default as_object ret signature vars = Ok f ->
  call op_with_bag token eval_op with_bag bag_value tuple_value named_value b f (pos ++ map snd kw) (map fst kw) = Err e ->
  match e with
  | EParameters c => exists v ps, lookup "__signature__" f = Some (SignatureObject v ps) /\ complaint_holds ps pos kw c
  | EInputs => (forall v, snd signature <> Missing v)
               /\ call_fails token eval_op with_bag bag_value tuple_value named_value b f pos kw e
  | EInputTwice _ | EEval => call_fails token eval_op with_bag bag_value tuple_value named_value b f pos kw e
  | _ => False
  end.
Proof.
  intros H. exact (created_call V op bag op_with_bag token eval_op with_bag bag_value tuple_value named_value H
                     self_default as_object ret signature vars f b pos kw e).
Qed.

(** The cache does not change what calls return, whatever is done to the bags in between *)
Theorem C51_cache {V op bag} op_with_bag token eval_op with_bag bag_value tuple_value named_value
  (bag_of : nat -> bag) (l : list (event V op)) :
  steps op_with_bag token eval_op with_bag bag_value tuple_value named_value bag_of [] l =
  ref_steps (fun k f args kwnames =>
               call op_with_bag token eval_op with_bag bag_value tuple_value named_value (bag_of k) f args kwnames) [] l.
Proof. exact (steps_like V op bag op_with_bag token eval_op with_bag bag_value tuple_value named_value bag_of l). Qed.

(** Numbers; operator 0 adds, operator 1 is with_bag (the bag is added, too), operator 2 is
    "x if x is there, else y" and operator 3 fails *)
Definition ex_op (o : nat) (l : list (option nat)) : option nat :=
  match o, l with
  | 0, [Some a; Some b] | 1, [Some a; Some b] => Some (a + b)
  | 2, [Some a; _] => Some a
  | 2, [None; b] => b
  | _, _ => None
  end.
Definition ex_create := create_functor (V := nat) (op := nat) 5 (fun ps => length ps).
Definition ex_call := call (V := nat) (op := nat) 1 0 ex_op (fun b v => v + b) (fun b => b) (fun l => list_sum l) (fun l => list_sum (map snd l)) 1000.
Definition I n := Input (V := nat) (op := nat) "I" n.
Definition Vr n := Input (V := nat) (op := nat) "V" n.
Definition q e : slice nat nat := (0, Quote e).
Definition no_signature : slice nat nat := (0, Missing 0).
(** returns = V.a + V.b, a = V.b + I.x, b = I.y + V.c, c is an object *)
Definition ex_vars := [("a", q (Call 0 [Vr "b"; I "x"])); ("b", q (Call 0 [I "y"; Vr "c"])); ("c", (0, Object 7)); ("unused", (0, Primitive 3))].
Definition ex_f := match ex_create (q (Call 0 [Vr "a"; Vr "b"])) no_signature ex_vars with Ok f => f | Err _ => [] end.
Definition ex_events : list (event nat nat) :=
  [NewBag] ++ map (fun x => SetAttr 0 0 (fst x) (snd x)) ex_f
  ++ [CallEvent 0 0 [10; 20] ["x"; "y"]; SetAttr 0 0 "c" (Primitive 0); CallEvent 0 0 [10; 20] ["x"; "y"];
      MakeImmutable 0; CallEvent 0 0 [10; 20] ["x"; "y"]; CallEvent 0 0 [10; 20] ["x"; "y"]; SetAttr 0 0 "c" (Primitive 1);
      Fork 0 false; SetAttr 1 0 "c" (Primitive 1); CallEvent 1 0 [10; 20] ["x"; "y"]; CallEvent 0 0 [10; 20] ["x"; "y"];
      Fallbacks [1; 0]; MakeImmutable 1; Fallbacks [1; 0]; CallEvent 2 0 [10; 20] ["x"; "y"]].

Example C51_hypotheses_met :
  (forall b v, ex_op 1 [Some v; Some b] = Some (v + b))
  /\ NoDup ("returns" :: map fst ex_vars ++ ["__signature__"])
  /\ (exists f, ex_create (q (Call 0 [Vr "a"; Vr "b"])) no_signature ex_vars = Ok f)
  /\ match for_each ex_f with Ok seen => map fst seen = ["c"; "b"; "a"; "returns"] | Err _ => False end
  (* (20 + 1007 + 10) + (20 + 1007) *)
  /\ ex_call ex_f [10; 20] ["x"; "y"] = Ok 2064
  /\ ex_call ex_f [10] ["x"] = Err (EParameters (ENoValue "y"))
  (* what does not work *)
  /\ ex_create (q (Vr "a")) no_signature [("a", q (Vr "b")); ("b", q (Vr "a"))] = Err (ECycle "a")
  /\ ex_create (q (Vr "a")) no_signature [] = Err (EUndefined ["a"])
  /\ ex_create (q (Vr "__signature__")) no_signature [] = Err (EUndefined ["__signature__"])
  /\ ex_create (q (Leaf "a")) no_signature [] = Err EExpr
  /\ ex_create (0, Missing 0) no_signature [] = Err EReturns
  /\ ex_create (q (I "__extra_inputs__")) no_signature [] = Err (EParameters (EDuplicate "__extra_inputs__"))
  (* an unused cycle does not matter, an operator need not look at all of its arguments *)
  /\ ex_call (match ex_create (q (Call 2 [I "x"; Vr "a"])) no_signature [("a", q (Call 3 [])); ("b", q (Vr "b"))] with Ok f => f | Err _ => [] end) [4] ["x"] = Ok 4
  /\ ex_call (match ex_create (q (Call 0 [I "x"; Vr "a"])) no_signature [("a", q (Call 3 []))] with Ok f => f | Err _ => [] end) [4] ["x"] = Err EEval
  (* inputs that the signature does not have, and the bag *)
  /\ ex_call (match ex_create (q (I "x")) (0, SignatureObject 0 [mkParam "y" KeywordOnly None]) [] with Ok f => f | Err _ => [] end) [4] ["y"] = Err EInputs
  /\ ex_call (match ex_create (q (I "__bag")) no_signature [] with Ok f => f | Err _ => [] end) [4] ["__bag"] = Err (EInputTwice "__bag")
  /\ steps 1 0 ex_op (fun b v => v + b) (fun b => b) (fun l => list_sum l) (fun l => list_sum (map snd l)) (fun _ => 1000) [] ex_events =
     repeat None 7 ++ [Some (Ok 2064); None; Some (Ok 50); None; Some (Ok 50); Some (Ok 50); Some (Err EBag); None; None; Some (Ok 52); Some (Ok 50);
                     Some (Err EBag); None; None; Some (Ok 52)].
Proof.
  split; [reflexivity|]. split.
  { cbn. repeat (constructor; [cbn; intuition discriminate|]). constructor. }
  split; [eexists; vm_compute; reflexivity|]. vm_compute. repeat split; reflexivity.
Qed.

Print Assumptions C51_order.
Print Assumptions C51_create.
Print Assumptions C51_call.
Print Assumptions C51_outcome.
Print Assumptions C51_call_error.
Print Assumptions C51_created_call.
Print Assumptions C51_cache.
