(** What the statements about functors are phrased with. *)
From Coq Require Import String List Bool Arith Relations.
From Verif Require Import SignatureModel SignatureSpec FunctorModel.
Import ListNotations.
Local Open Scope string_scope.
Local Open Scope nat_scope.
Local Open Scope list_scope.

(** Strictly ascending *)
Definition ascending (l : list string) : Prop :=
  forall i j a b, i < j -> nth_error l i = Some a -> nth_error l j = Some b -> String.compare a b = Lt.

Section Spec.
Variables (V op : Type).
Local Notation functor := (functor V op).

(** I.n (c = "I") or V.n (c = "V") occurs in the expression *)
Inductive occurs (c n : string) : expr V op -> Prop :=
| OccursHere : occurs c n (Input c n)
| OccursBelow o args a : In a args -> occurs c n a -> occurs c n (Call o args).

(** The expression has a leaf, a placeholder or an input that is neither I.x nor V.x *)
Inductive strange : expr V op -> Prop :=
| StrangeLeaf k : strange (Leaf k)
| StrangePlaceholder k : strange (Placeholder k)
| StrangeInput c n : c <> "I" -> c <> "V" -> strange (Input c n)
| StrangeBelow o args a : In a args -> strange a -> strange (Call o args).

(** The variable x is an expression in which V.y occurs *)
Definition needs (f : functor) (x y : string) : Prop := exists e, lookup x f = Some (Quote e) /\ occurs "V" y e.
Definition reachable (f : functor) (x : string) : Prop := clos_refl_trans string (needs f) "returns" x.
Definition on_cycle (f : functor) (x : string) : Prop := clos_trans string (needs f) x x.
Definition acyclic (f : functor) : Prop := forall x, reachable f x -> ~ on_cycle f x.
Definition defined (f : functor) : Prop := forall x, reachable f x -> lookup x f <> None.
Definition plain (f : functor) : Prop := forall x e, reachable f x -> lookup x f = Some (Quote e) -> ~ strange e.

(** Every variable is preceded by those it needs *)
Definition after_what_it_needs (f : functor) (l : list string) : Prop :=
  forall l1 x l2, l = l1 ++ x :: l2 -> forall y, needs f x y -> In y l1.

(** The input n is used when f is called *)
Definition wants (f : functor) (n : string) : Prop :=
  exists x i, reachable f x /\ lookup x f = Some i /\
    match i with
    | Quote e => occurs "I" n e
    | Primitive _ => False
    | _ => n = "__bag"
    end.

(** The attribute is there and not missing *)
Definition has_attr (n : string) (f : functor) : Prop :=
  exists i, lookup n f = Some i /\ forall v, i <> Missing v.

Variable bag : Type.
Variable token : V.
Variable eval_op : op -> list (option V) -> option V.
Variable with_bag : bag -> V -> V.

(** The outcome of every variable follows from the outcomes of the variables it needs and
    the inputs: V.x stands for the outcome of x; items are themselves, with the bag of the
    functor *)
Definition denotes (b : bag) (f : functor) (inputs : string -> option V) (den : string -> option V) : Prop :=
  forall x i, reachable f x -> lookup x f = Some i ->
  den x = match i with
          | Quote e => eval token eval_op (fun c n => if String.eqb c "V" then den n else inputs n) e
          | Primitive v => Some v
          | Object v | Missing v | SignatureObject v _ => Some (with_bag b v)
          end.

(** The signature that a new functor gets: the one that is given, or else one with a
    keyword parameter for every input *)
Definition signature_for (self_default : V) (as_object : list (param V) -> V) (given : item V op) (values : list (item V op))
  (s : item V op) : Prop :=
  (exists v ps, given = SignatureObject v ps /\ valid_parameters ps /\ s = given)
  \/ (exists v named ps,
        given = Missing v
        /\ (forall e, In (Quote e) values -> ~ strange e)
        /\ ascending named
        /\ (forall n, In n named <-> n <> "self" /\ exists e, In (Quote e) values /\ occurs "I" n e)
        /\ ~ In "__extra_inputs__" named
        /\ ps = [mkParam "self" PositionalOnly (Some (0, self_default))]
               ++ map (fun n => mkParam n KeywordOnly None) named
               ++ [mkParam "__extra_inputs__" VarKeyword None]
        /\ s = SignatureObject (as_object ps) ps).

(** f is the functor made of the given items *)
Definition creates (self_default : V) (as_object : list (param V) -> V)
  (ret signature : slice V op) (vars : list (string * slice V op)) (f : functor) : Prop :=
  fst ret = 0 /\ (forall v, snd ret <> Missing v)
  /\ fst signature = 0 /\ (forall n rank i, In (n, (rank, i)) vars -> rank = 0)
  /\ (exists s, signature_for self_default as_object (snd signature) (snd ret :: map (fun x => snd (snd x)) vars) s
       /\ f = ("returns", snd ret) :: map (fun x => (fst x, snd (snd x))) vars ++ [("__signature__", s)])
  /\ acyclic f /\ plain f
  /\ (forall x, reachable f x -> x = "returns" \/ In x (map fst vars)).

Variable bag_value : bag -> V.
Variable tuple_value : list V -> V.
Variable named_value : list (string * V) -> V.

(** The inputs of a call whose parameters are bound to r *)
Definition inputs_of (b : bag) (ps : list (param V)) (r : list (bound V)) (n : string) : option V :=
  lookup n (combine (map p_name ps)
              (map (fun x => match x with Plain v => v | Tuple l => tuple_value l | NamedTuple l => named_value l end) r)
            ++ [("__bag", bag_value b)]).

(** Calling f, which lives in bag b, with the arguments pos and kw returns v *)
Definition calls (b : bag) (f : functor) (pos : list V) (kw : list (string * V)) (v : V) : Prop :=
  exists sv ps r den,
    has_attr "returns" f /\ lookup "__signature__" f = Some (SignatureObject sv ps) /\ valid_parameters ps
    /\ acyclic f /\ plain f /\ defined f
    /\ binds (with_bag b) ps pos kw r
    /\ (forall n, wants f n -> In n (map p_name ps) \/ n = "__bag")
    /\ (wants f "__bag" -> ~ In "__bag" (map p_name ps))
    /\ denotes b f (inputs_of b ps r) den
    /\ den "returns" = Some v.

(** What an error of a call means *)
Definition call_fails (b : bag) (f : functor) (pos : list V) (kw : list (string * V)) (e : fn_error) : Prop :=
  match e with
  | EFunctor => ~ (has_attr "returns" f /\ has_attr "__signature__" f)
  | ESignature => exists i, lookup "__signature__" f = Some i /\ forall v ps, i <> SignatureObject v ps
  | EParameters c => exists v ps, lookup "__signature__" f = Some (SignatureObject v ps) /\
      (~ valid_parameters ps \/
       complaint_holds ps pos kw c /\ forall r, ~ binds (with_bag b) ps pos kw r)
  | ECycle x => reachable f x /\ on_cycle f x
  | EExpr => exists x q, reachable f x /\ lookup x f = Some (Quote q) /\ strange q
  | EAttr x => reachable f x /\ lookup x f = None
  | EInputTwice n => n = "__bag" /\ wants f n /\
      exists v ps, lookup "__signature__" f = Some (SignatureObject v ps) /\ In n (map p_name ps)
  | EInputs => exists v ps n, lookup "__signature__" f = Some (SignatureObject v ps) /\ wants f n /\
      n <> "__bag" /\ ~ In n (map p_name ps)
  | EEval => exists v ps r den, lookup "__signature__" f = Some (SignatureObject v ps) /\ valid_parameters ps
      /\ binds (with_bag b) ps pos kw r /\ denotes b f (inputs_of b ps r) den /\ den "returns" = None
  | _ => False
  end.

(** Bags without a cache: whether they are mutable and their objects *)
Definition ref_world := list (bool * (nat -> option functor)).
Definition replace_nth {A} (k : nat) (x : A) (l : list A) : list A := firstn k l ++ x :: skipn (S k) l.

(** What happens to them, given what a call of a functor in the k-th bag returns *)
Definition ref_step (result : nat -> functor -> list V -> list string -> fn_result V) (w : ref_world) (e : event V op)
  : ref_world * option (fn_result V) :=
  match e with
  | NewBag => (w ++ [(true, fun _ => None)], None)
  | SetAttr k id name i =>
      match nth_error w k with
      | Some (true, objects) =>
          let f := match objects id with Some f => f | None => [] end in
          (replace_nth k (true, fun j => if j =? id then Some ((name, i) :: f) else objects j) w, None)
      | _ => (w, Some (Err EBag))
      end
  | MakeImmutable k =>
      match nth_error w k with
      | Some (_, objects) => (replace_nth k (false, objects) w, None)
      | None => (w, Some (Err EBag))
      end
  | Fork k immutable =>
      match nth_error w k with
      | Some (_, objects) => (w ++ [(negb immutable, objects)], None)
      | None => (w, Some (Err EBag))
      end
  | Fallbacks ks =>
      if forallb (fun k => match nth_error w k with Some (mutable, _) => negb mutable | None => false end) ks
      then (w ++ [(false, fun id =>
                     let found k := match nth_error w k with Some (_, objects) => objects id | None => None end in
                     if existsb (fun k => match found k with Some _ => true | None => false end) ks
                     then Some (flat_map (fun k => match found k with Some f => f | None => [] end) ks)
                     else None)], None)
      else (w, Some (Err EBag))
  | CallEvent k id args kwnames =>
      (w, Some match nth_error w k with
               | Some (_, objects) =>
                   match objects id with Some f => result k f args kwnames | None => Err EFunctor end
               | None => Err EBag
               end)
  end.
Fixpoint ref_steps result (w : ref_world) (l : list (event V op)) : list (option (fn_result V)) :=
  match l with
  | [] => []
  | e :: l => let '(w, r) := ref_step result w e in r :: ref_steps result w l
  end.
End Spec.
Arguments occurs {V op} c n e.
Arguments strange {V op} e.
Arguments needs {V op} f x y.
Arguments reachable {V op} f x.
Arguments on_cycle {V op} f x.
Arguments acyclic {V op} f.
Arguments defined {V op} f.
Arguments plain {V op} f.
Arguments after_what_it_needs {V op} f l.
Arguments wants {V op} f n.
Arguments has_attr {V op} n f.
Arguments denotes {V op bag} token eval_op with_bag b f inputs den.
Arguments signature_for {V op} self_default as_object given values s.
Arguments creates {V op} self_default as_object ret signature vars f.
Arguments inputs_of {V bag} bag_value tuple_value named_value b ps r n.
Arguments calls {V op bag} token eval_op with_bag bag_value tuple_value named_value b f pos kw v.
Arguments call_fails {V op bag} token eval_op with_bag bag_value tuple_value named_value b f pos kw e.
Arguments ref_step {V op} result w e.
Arguments ref_steps {V op} result w l.
