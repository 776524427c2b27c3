(** C54: automatic variables do not change what a functor computes. *)
From Coq Require Import String List Bool Arith Relations Permutation.
From Verif Require Import SignatureModel SignatureSpec FunctorModel FunctorSpec FunctorProofs FunctorCallProofs AutoVarModel AutoVarSpec AutoVarTopProofs AutoVarTidyProofs.
Import ListNotations.
Local Open Scope string_scope.
Local Open Scope nat_scope.
Local Open Scope list_scope.

(** The functor with the automatic variables returns for all arguments what the given one
    returns, and has a result only if that has one *)
Theorem C54_same_calls {V op bag} same kind is_slice is_simple is_unspecified text_of rank num implode op_explode op_with_bag
  (stored : V -> item V op) self_default as_object arrange token eval_op with_bag bag_value tuple_value named_value
  (b : bag) (f : functor V op) extra g pos kw v :
  (forall x y, same x y = true <-> x = y) ->
  (forall v, is_simple v = true -> rank v = 0) ->
  (forall l, Permutation l (arrange l)) ->
  (forall b v, eval_op op_with_bag [Some v; Some (bag_value b)] = Some (with_bag b v)) ->
  transparent kind is_unspecified eval_op ->
  valid f -> closed f -> located kind f -> named_well kind text_of f ->
  storable_literals is_slice rank num implode op_explode stored eval_op with_bag b f ->
  auto_variables V op same kind is_slice is_simple is_unspecified text_of rank num implode op_explode stored
    self_default as_object arrange f extra = Done g ->
  call op_with_bag token eval_op with_bag bag_value tuple_value named_value b g (pos ++ map snd kw) (map fst kw) = Ok v
  <-> call op_with_bag token eval_op with_bag bag_value tuple_value named_value b f (pos ++ map snd kw) (map fst kw) = Ok v.
Proof.
  intros S1 S2 S3 S4 S5 H1 H2 H3 H4 H5.
  exact (auto_call V op same kind is_slice is_simple is_unspecified text_of rank num implode op_explode op_with_bag stored
           self_default as_object arrange bag token eval_op with_bag bag_value tuple_value named_value b
           S1 S2 S3 S4 S5 f H1 H2 H3 H4 H5 extra g pos kw v).
Qed.

(** Its signature is the same, and so are the variables that are not expressions; those that
    are expressions still are *)
Theorem C54_same_attributes {V op bag} same kind is_slice is_simple is_unspecified text_of rank num implode op_explode
  (stored : V -> item V op) self_default as_object arrange eval_op with_bag
  (b : bag) (f : functor V op) extra g :
  (forall x y, same x y = true <-> x = y) ->
  (forall v, is_simple v = true -> rank v = 0) ->
  (forall l, Permutation l (arrange l)) ->
  valid f -> closed f -> located kind f -> named_well kind text_of f ->
  storable_literals is_slice rank num implode op_explode stored eval_op with_bag b f ->
  auto_variables V op same kind is_slice is_simple is_unspecified text_of rank num implode op_explode stored
    self_default as_object arrange f extra = Done g ->
  forall x i, lookup x f = Some i ->
    match i with Quote _ => x <> "__signature__" -> exists e, lookup x g = Some (Quote e) | _ => lookup x g = Some i end.
Proof.
  intros S1 S2 S3 H1 H2 H3 H4 H5.
  exact (auto_attributes V op same kind is_slice is_simple is_unspecified text_of rank num implode op_explode stored
           self_default as_object arrange bag eval_op with_bag b S1 S2 S3 f H1 H2 H3 H4 H5 extra g).
Qed.

(** No expression of the new functor, used or not, has an annotation of a name or a literal that
    is not simple *)
Theorem C54_tidy {V op bag} same kind is_slice is_simple is_unspecified text_of rank num implode op_explode
  (stored : V -> item V op) self_default as_object arrange eval_op with_bag
  (b : bag) (f : functor V op) extra g :
  (forall x y, same x y = true <-> x = y) ->
  (forall v, is_simple v = true -> rank v = 0) ->
  (forall l, Permutation l (arrange l)) ->
  valid f -> closed f -> located kind f -> named_well kind text_of f -> plain_names kind is_slice extra f ->
  storable_literals is_slice rank num implode op_explode stored eval_op with_bag b f ->
  kind op_explode <> KName -> (forall k, is_simple (num k) = true) ->
  (forall k, storable rank num implode op_explode stored eval_op with_bag b (num k)) ->
  auto_variables V op same kind is_slice is_simple is_unspecified text_of rank num implode op_explode stored
    self_default as_object arrange f extra = Done g ->
  forall x e, lookup x g = Some (Quote e) -> tidy kind is_slice is_simple e.
Proof.
  intros S1 S2 S3 H1 H2 H3 H4 H5 H6 H7 H8 H9 E.
  exact (proj1 (auto_fine V op same kind is_slice is_simple is_unspecified text_of rank num implode op_explode stored
           self_default as_object arrange bag eval_op with_bag b S1 S2 S3 f H1 H2 H3 H4 H6 extra H5 H7 H8 H9 g E)).
Qed.

(** Whatever is annotated as a name is a variable of it *)
Theorem C54_names {V op bag} same kind is_slice is_simple is_unspecified text_of rank num implode op_explode
  (stored : V -> item V op) self_default as_object arrange eval_op with_bag
  (b : bag) (f : functor V op) extra g :
  (forall x y, same x y = true <-> x = y) ->
  (forall v, is_simple v = true -> rank v = 0) ->
  (forall l, Permutation l (arrange l)) ->
  valid f -> closed f -> located kind f -> named_well kind text_of f -> plain_names kind is_slice extra f ->
  storable_literals is_slice rank num implode op_explode stored eval_op with_bag b f ->
  kind op_explode <> KName -> (forall k, is_simple (num k) = true) ->
  (forall k, storable rank num implode op_explode stored eval_op with_bag b (num k)) ->
  auto_variables V op same kind is_slice is_simple is_unspecified text_of rank num implode op_explode stored
    self_default as_object arrange f extra = Done g ->
  forall o x v, kind o = KName -> part_of (Call o [x; Lit v]) f -> lookup (text_of v) g <> None.
Proof.
  intros S1 S2 S3 H1 H2 H3 H4 H5 H6 H7 H8 H9 E.
  exact (proj2 (auto_fine V op same kind is_slice is_simple is_unspecified text_of rank num implode op_explode stored
           self_default as_object arrange bag eval_op with_bag b S1 S2 S3 f H1 H2 H3 H4 H6 extra H5 H7 H8 H9 g E)).
Qed.

(** ** Numbers, objects, slices and lists of numbers *)
Inductive ex_value := Num (n : nat) | Obj (n : nat) | Slc (l : list nat) | Lst (l : list nat) | Txt (s : string) | Unspec | Quo.
Inductive ex_op := Plus | SliceOp | LocationOp | NameOp | Explode | WithBag.
Definition ex_value_dec (a b : ex_value) : {a = b} + {a <> b}.
Proof. decide equality; try apply Nat.eq_dec; try apply String.string_dec; apply (list_eq_dec Nat.eq_dec). Defined.
Definition ex_op_dec (a b : ex_op) : {a = b} + {a <> b}.
Proof. decide equality. Defined.
Fixpoint ex_dec (a b : expr ex_value ex_op) {struct a} : {a = b} + {a <> b}.
Proof. decide equality; try apply String.string_dec; [apply ex_value_dec|apply (list_eq_dec ex_dec)|apply ex_op_dec]. Defined.
Definition ex_same a b := if ex_dec a b then true else false.
Definition ex_kind o := match o with SliceOp => KSlice | LocationOp => KLocation | NameOp => KName | _ => KOther end.
Definition ex_is_slice v := match v with Txt _ | Unspec => false | _ => true end.
Definition ex_is_simple v := match v with Num _ | Quo => true | _ => false end.
Definition ex_unspecified v := match v with Unspec => true | _ => false end.
Definition ex_text v := match v with Txt s => s | _ => "" end.
Definition ex_rank v := match v with Slc _ => 1 | _ => 0 end.
Definition ex_implode v := match v with Slc l => Lst l | _ => v end.
(** Quo is a quoted expression, the literal 1 *)
Definition ex_stored (v : ex_value) : item ex_value ex_op :=
  match v with Num _ => Primitive v | Quo => Quote (Lit (Num 1)) | _ => Object v end.
Definition ex_number v := match v with Num n | Obj n => Some n | Slc l => Some (list_sum l) | _ => None end.
Definition ex_eval (o : ex_op) (l : list (option ex_value)) : option ex_value :=
  match o, l with
  | Plus, [Some a; Some b] => match ex_number a, ex_number b with Some x, Some y => Some (Num (x + y)) | _, _ => None end
  | SliceOp, [x; Some Unspec] => x
  | LocationOp, x :: _ | NameOp, x :: _ => x
  | Explode, [Some (Lst l); Some (Num 1)] => Some (Slc l)
  | WithBag, [x; _] => x
  | _, _ => None
  end.
Definition ex_auto := auto_variables ex_value ex_op ex_same ex_kind ex_is_slice ex_is_simple ex_unspecified ex_text ex_rank Num
  ex_implode Explode ex_stored Unspec (fun _ => Unspec) (fun l => l).
Definition ex_call := call WithBag Unspec ex_eval (fun (_ : unit) v => v) (fun _ => Unspec) (fun _ => Unspec) (fun _ => Unspec) tt.
Definition ex_lit (v : ex_value) : expr ex_value ex_op := Lit v.
Definition plus a b : expr ex_value ex_op := Call Plus [a; b].
Definition slice_of a : expr ex_value ex_op := Call SliceOp [a; Lit Unspec].
Definition at_line a : expr ex_value ex_op := Call LocationOp [a; Lit (Txt "line")].
Definition named a n : expr ex_value ex_op := Call NameOp [a; Lit (Txt n)].
Definition ex_functor (names : list string) (vs : list (string * item ex_value ex_op)) : functor ex_value ex_op :=
  vs ++ [("__signature__", SignatureObject Unspec (map (fun n => mkParam n KeywordOnly None) names))].
Definition Vr n : expr ex_value ex_op := Input "V" n.
Definition In_ n : expr ex_value ex_op := Input "I" n.

(** A functor with named literals of all kinds, a shared part, a name that is taken and an object *)
Definition ex_f := ex_functor ["y"]
  [("returns", Quote (plus (named (slice_of (ex_lit (Slc [1; 2]))) "x") (plus (Vr "a") (at_line (ex_lit (Obj 5))))));
   ("a", Quote (plus (named (plus (In_ "y") (plus (ex_lit (Obj 7)) (ex_lit (Num 3)))) "z")
                (plus (named (ex_lit (Num 4)) "a") (plus (In_ "y") (plus (ex_lit (Obj 7)) (ex_lit (Num 3)))))));
   ("unused", Quote (plus (ex_lit (Obj 7)) (Vr "o"))); ("o", Object (Obj 9))].

(** What is named is shared with another use *)
Definition ex_shared := ex_functor [] [("returns", Quote (plus (named (slice_of (ex_lit (Obj 1))) "x") (slice_of (ex_lit (Obj 1)))))].
(** A named quote *)
Definition ex_quote := ex_functor [] [("returns", Quote (named (ex_lit Quo) "x"))].
(** A name of the form that the code uses *)
Definition ex_aux := ex_functor [] [("returns",
  Quote (plus (plus (named (slice_of (ex_lit (Obj 1))) "x") (named (ex_lit (Num 20)) "_aux_0")) (slice_of (ex_lit (Obj 1)))))].

(** *** That the examples are what they should be *)
Fixpoint parts (e : expr ex_value ex_op) : list (expr ex_value ex_op) :=
  e :: match e with Call _ args => flat_map parts args | _ => [] end.
Lemma part_parts d e : part d e -> In d (parts e).
Proof.
  induction 1 as [|o args a I P IH]; [destruct d; left; reflexivity|]. cbn. right. apply in_flat_map. eauto.
Qed.
Definition all_parts (f : functor ex_value ex_op) : list (expr ex_value ex_op) :=
  flat_map (fun x => match snd x with Quote e => parts e | _ => [] end) f.
Lemma part_of_parts d f : part_of d f -> In d (all_parts f).
Proof.
  intros (x & e & L & P). apply in_flat_map. exists (x, Quote e). split; [apply lookup_in; exact L|apply part_parts; exact P].
Qed.
Definition all_well (f : functor ex_value ex_op) (d : expr ex_value ex_op) : bool :=
  match d with
  | Input c y => negb (String.eqb c "V") || (negb (String.eqb y "__signature__") && match lookup y f with Some _ => true | None => false end)
  | Call LocationOp (_ :: l) => forallb (fun y => match y with Lit _ => true | _ => false end) l
  | Call NameOp l => match l with [_; Lit v] => negb (String.eqb (ex_text v) "__signature__") && negb (String.prefix "_aux" (ex_text v)) | _ => false end
  | _ => true
  end.
Lemma ex_well f : forallb (all_well f) (all_parts f) = true -> closed f /\ located ex_kind f /\ named_well ex_kind ex_text f.
Proof.
  intros H. rewrite forallb_forall in H.
  assert (A : forall d, part_of d f -> all_well f d = true) by (intros d P; apply H, part_of_parts, P).
  split; [|split].
  - intros y P. specialize (A _ P). cbn in A. apply andb_prop in A. destruct A as [A B]. split.
    + intros ->. discriminate.
    + destruct (lookup y f); discriminate.
  - intros o x l K P y I. specialize (A _ P). destruct o; try discriminate K. cbn in A. rewrite forallb_forall in A.
    specialize (A y I). destruct y; try discriminate. eauto.
  - intros o args K P. specialize (A _ P). destruct o; try discriminate K. cbn in A.
    destruct args as [|x [|y [|z args]]]; try discriminate. 2:{ destruct y; discriminate. }
    destruct y as [v| | | | |]; try discriminate. apply andb_prop in A. destruct A as [A B]. exists x, v. split; [reflexivity|]. split.
    + intros E. rewrite E in A. discriminate.
    + destruct (String.prefix "_aux" (ex_text v)); [discriminate|reflexivity].
Qed.
Lemma ex_valid names r vs : NoDup ("returns" :: map fst vs ++ ["__signature__"]) -> ~ In "__bag" names ->
  (exists f, create_functor Unspec (fun _ => Unspec) (0, r) (0, SignatureObject Unspec (map (fun n => mkParam n KeywordOnly None) names))
     (map (fun x => (fst x, (0, snd x))) vs) = Ok f) ->
  valid (ex_functor names (("returns", r) :: vs)).
Proof.
  intros ND NB (f & C). set (vars := map (fun x : string * item ex_value ex_op => (fst x, (0, snd x))) vs) in *.
  assert (N : map fst vars = map fst vs) by (unfold vars; rewrite map_map; reflexivity). rewrite <- N in ND.
  apply (create_iff _ _ _ _ _ _ _ f ND) in C. destruct (created_signature _ _ _ _ _ _ _ f ND C) as (CR & CA & CP & CD & sv & ps & L & VP & _).
  destruct C as (_ & _ & _ & _ & (sg & SF & EG) & _).
  assert (ES : sg = SignatureObject Unspec (map (fun n => mkParam n KeywordOnly None) names)).
  { destruct SF as [(v' & ps' & GV & _ & ->)|(v' & nm & ps' & GV & _)]; cbn in GV; [reflexivity|discriminate]. }
  assert (EF : f = ex_functor names (("returns", r) :: vs)).
  { rewrite EG, ES. unfold ex_functor. cbn. f_equal. f_equal. unfold vars. rewrite map_map. cbn.
    rewrite <- (map_id vs) at 2. apply map_ext. intros [? ?]. reflexivity. }
  rewrite <- EF. split; [exact CR|]. split; [exact CA|]. split; [exact CP|]. split; [exact CD|]. exists sv, ps. split; [exact L|]. split; [exact VP|].
  assert (ps = map (fun n => mkParam n KeywordOnly None) names) as ->.
  { rewrite EG in L. cbn [lookup] in L. change (String.eqb "__signature__" "returns") with false in L. cbn iota in L. rewrite lookup_app in L.
    destruct (lookup "__signature__" _) as [j|] eqn:LJ in L.
    - exfalso. inversion ND as [|? ? _ ND']; subst. apply lookup_in, (List.in_map fst) in LJ. rewrite map_map in LJ. cbn in LJ.
      apply (NoDup_remove_2 _ [] _) in ND'. rewrite app_nil_r in ND'. contradiction.
    - rewrite ES in L. cbn in L. congruence. }
  rewrite map_map. cbn. rewrite map_id. exact NB.
Qed.
Lemma ex_transparent : transparent ex_kind ex_unspecified ex_eval.
Proof.
  split.
  - intros o x u K U. destruct o; try discriminate. destruct u; try discriminate. reflexivity.
  - intros o x l [K|K]; destruct o; try discriminate; reflexivity.
Qed.
Lemma ex_same_iff x y : ex_same x y = true <-> x = y.
Proof. unfold ex_same. destruct (ex_dec x y); split; congruence. Qed.
Lemma ex_simple v : ex_is_simple v = true -> ex_rank v = 0.
Proof. destruct v; cbn; congruence. Qed.
Definition ex_storable := storable_literals ex_is_slice ex_rank Num ex_implode Explode ex_stored ex_eval (fun (_ : unit) v => v) tt.
Lemma ex_storable_all f : forallb (fun d => match d with Lit Quo => false | _ => true end) (all_parts f) = true -> ex_storable f.
Proof.
  intros H v I P. rewrite forallb_forall in H. specialize (H _ (part_of_parts _ _ P)). unfold storable.
  destruct v; cbn in *; try discriminate; try reflexivity. exists (Lst l). split; reflexivity.
Qed.
Ltac names := cbn; repeat (constructor; [cbn; intuition discriminate|]); constructor.
Lemma ex_f_valid : valid ex_f.
Proof. apply ex_valid; [names|cbn; intuition discriminate|eexists; vm_compute; reflexivity]. Qed.
Lemma ex_shared_valid : valid ex_shared.
Proof. apply ex_valid; [names|cbn; intuition discriminate|eexists; vm_compute; reflexivity]. Qed.
Lemma ex_quote_valid : valid ex_quote.
Proof. apply ex_valid; [names|cbn; intuition discriminate|eexists; vm_compute; reflexivity]. Qed.
Lemma ex_aux_valid : valid ex_aux.
Proof. apply ex_valid; [names|cbn; intuition discriminate|eexists; vm_compute; reflexivity]. Qed.

Example C54_hypotheses_met :
  (forall x y, ex_same x y = true <-> x = y)
  /\ (forall v, ex_is_simple v = true -> ex_rank v = 0)
  /\ transparent ex_kind ex_unspecified ex_eval
  /\ valid ex_f /\ closed ex_f /\ located ex_kind ex_f /\ named_well ex_kind ex_text ex_f /\ ex_storable ex_f
  /\ plain_names ex_kind ex_is_slice (fun _ => false) ex_f
  /\ plain_names ex_kind ex_is_slice (fun e => match e with Lit (Num 3) => true | _ => false end) ex_f
  /\ ex_kind Explode <> KName /\ (forall k, ex_is_simple (Num k) = true)
  /\ (forall k, storable ex_rank Num ex_implode Explode ex_stored ex_eval (fun (_ : unit) v => v) tt (Num k))
  /\ (exists g, ex_auto ex_f (fun _ => false) = Done g /\ ex_call g [Num 100] ["y"] = Ok (Num 232)
       /\ lookup "a" g = Some (Quote (plus (Vr "z") (plus (Vr "a_0") (Vr "_aux_1"))))
       /\ lookup "x" g = Some (Object (Lst [1; 2])) /\ lookup "a_0" g = Some (Primitive (Num 4))
       /\ lookup "z" g = Some (Quote (Vr "_aux_1")))
  (* the caller wants the literal 3 as a variable *)
  /\ (exists g, ex_auto ex_f (fun e => match e with Lit (Num 3) => true | _ => false end) = Done g /\ ex_call g [Num 100] ["y"] = Ok (Num 232)
       /\ lookup "_aux_1" g = Some (Quote (Lit (Num 3))))
  /\ ex_call ex_f [Num 100] ["y"] = Ok (Num 232).
Proof.
  split; [exact ex_same_iff|]. split; [exact ex_simple|]. split; [exact ex_transparent|]. split; [exact ex_f_valid|].
  destruct (ex_well ex_f) as (A & B & C); [vm_compute; reflexivity|]. split; [exact A|]. split; [exact B|]. split; [exact C|].
  split; [apply ex_storable_all; vm_compute; reflexivity|].
  assert (T : forall o x v, ex_kind o = KName -> part_of (Call o [x; Lit v]) ex_f -> exists t, v = Txt t).
  { intros o x v K P. apply part_of_parts in P. destruct o; try discriminate K. vm_compute in P.
    repeat (destruct P as [P|P]; [try discriminate P; injection P; intros; subst; eauto|]). destruct P. }
  split; [intros o x v K P; destruct (T o x v K P) as (t & ->); split; reflexivity|].
  split; [intros o x v K P; destruct (T o x v K P) as (t & ->); split; reflexivity|].
  split; [discriminate|]. split; [reflexivity|]. split; [reflexivity|].
  split; [|split; [|vm_compute; reflexivity]]; (eexists; split; [vm_compute; reflexivity|]); vm_compute; repeat split; reflexivity.
Qed.

(** It is not so that automatic variables can be made for all these functors: a literal that is
    named by one part and used by another as well loses its variable *)
Theorem C54_succeeds_refuted : exists f,
  valid f /\ closed f /\ located ex_kind f /\ named_well ex_kind ex_text f /\ ex_storable f
  /\ (exists v, ex_call f [] [] = Ok v)
  /\ ex_auto f (fun _ => false) = Refused (EUndefined ["_aux_0"]).
Proof.
  exists ex_shared. split; [exact ex_shared_valid|]. destruct (ex_well ex_shared) as (A & B & C); [vm_compute; reflexivity|].
  split; [exact A|]. split; [exact B|]. split; [exact C|]. split; [apply ex_storable_all; vm_compute; reflexivity|].
  split; [eexists; vm_compute; reflexivity|vm_compute; reflexivity].
Qed.

(** Without the condition that literals can be stored, calls change: a quoted expression with a
    name becomes a variable that is evaluated *)
Theorem C54_quoted_literal_refuted : exists f g v w,
  valid f /\ closed f /\ located ex_kind f /\ named_well ex_kind ex_text f
  /\ ex_auto f (fun _ => false) = Done g /\ ex_call f [] [] = Ok v /\ ex_call g [] [] = Ok w /\ v <> w.
Proof.
  exists ex_quote. do 3 eexists. split; [exact ex_quote_valid|]. destruct (ex_well ex_quote) as (A & B & C); [vm_compute; reflexivity|].
  split; [exact A|]. split; [exact B|]. split; [exact C|]. split; [vm_compute; reflexivity|].
  split; [vm_compute; reflexivity|]. split; [vm_compute; reflexivity|discriminate].
Qed.

(** And without the condition on names: 1 + 20 + 1 becomes 1 + 20 + 20 *)
Theorem C54_auxiliary_name_refuted : exists f g,
  valid f /\ closed f /\ located ex_kind f /\ ex_storable f
  /\ ex_auto f (fun _ => false) = Done g /\ ex_call f [] [] = Ok (Num 22) /\ ex_call g [] [] = Ok (Num 41).
Proof.
  exists ex_aux. eexists. split; [exact ex_aux_valid|].
  split; [|split; [|split; [apply ex_storable_all; vm_compute; reflexivity|]]].
  - intros y P. apply part_of_parts in P. vm_compute in P. intuition discriminate.
  - intros o x l K P y I. apply part_of_parts in P. vm_compute in P. destruct o; try discriminate K. intuition discriminate.
  - split; [vm_compute; reflexivity|]. split; vm_compute; reflexivity.
Qed.

(** What two variables have in common is computed once, and a variable that the caller wants as a
    variable stays as it is *)
Definition ex_common := plus (plus (In_ "s") (ex_lit (Num 1))) (ex_lit (Num 2)).
Definition ex_two := ex_functor ["s"]
  [("returns", Quote (plus (Vr "x") (Vr "y")));
   ("x", Quote (plus ex_common (ex_lit (Num 3)))); ("y", Quote (plus ex_common (ex_lit (Num 4))))].
Example C54_sharing : exists g, ex_auto ex_two (fun e => match e with Input "V" _ => true | _ => false end) = Done g
  /\ lookup "returns" g = Some (Quote (plus (Vr "x") (Vr "y")))
  /\ lookup "_aux_0" g = Some (Quote ex_common)
  /\ lookup "x" g = Some (Quote (plus (Vr "_aux_0") (ex_lit (Num 3))))
  /\ lookup "y" g = Some (Quote (plus (Vr "_aux_0") (ex_lit (Num 4))))
  /\ ex_call ex_two [Num 100] ["s"] = Ok (Num 213) /\ ex_call g [Num 100] ["s"] = Ok (Num 213).
Proof. eexists. split; [vm_compute; reflexivity |]. vm_compute. repeat split; reflexivity. Qed.

Print Assumptions C54_same_calls.
Print Assumptions C54_same_attributes.
Print Assumptions C54_tidy.
Print Assumptions C54_names.
Print Assumptions C54_succeeds_refuted.
Print Assumptions C54_quoted_literal_refuted.
Print Assumptions C54_auxiliary_name_refuted.
