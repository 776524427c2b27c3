(** The properties of schema graphs (C28). *)
From Coq Require Import String.
From Coq Require Import NArith ZArith List Bool PeanoNat Permutation Relations.
From Verif Require Import PathModel PathCodecModel PathSpec PathProofs PathGenProofs
  PathCodecProofs GraphModel GraphSpec GraphClosureProofs GraphProofs
  GraphAnalysisProofs GraphHelperProofs.
Import ListNotations.
Local Open Scope string_scope.
Local Open Scope list_scope.
Local Open Scope nat_scope.

(** * Closures of arbitrary relations *)

(** For every dict of sets, cyclic or not, and for every order in which sets
    hand out their elements, the search ends and finds exactly what is reachable
    in one step or more. *)
Theorem C28_closure_is_exact : forall pop r of_set,
  pop_ok pop ->
  exists l, closure_image pop (default_get r) (pairs r) of_set = Ok l
    /\ NoDup l
    /\ forall y, In y l <-> exists x, In x of_set /\ clos_trans _ (edge r) x y.
Proof.
  intros pop r of_set P.
  destruct (closure_image_ok pop P r (default_get r)) with
    (dom := fun n : text => True) (of_set := of_set) as [l [L1 [L2 L3]]].
  - intros n. unfold default_get. destruct (get r n); [reflexivity|now left].
  - intros n _. unfold default_get. destruct (get r n) as [ys|];
      (eexists; split; [reflexivity|]); now apply Forall_forall.
  - now apply Forall_forall.
  - exists l. split; [assumption|]. split; [assumption|]. intros y. rewrite L3.
    assert (IE : forall u v, image (default_get r) u v <-> edge r u v).
    { intros u v. unfold image, default_get, edge. split.
      - intros [ys [E I]]. destruct (get r u) as [zs|] eqn:G; [exists ys; split; congruence|].
        assert (ys = []) by congruence. now subst.
      - intros [ys [E I]]. rewrite E. now exists ys. }
    split; intros [n [I T]]; exists n; (split; [assumption|]); clear -T IE;
      (induction T as [u v E|u v w _ IH1 _ IH2]; [constructor; now apply IE|now apply t_trans with v]).
Qed.

(** The reversed graph has exactly the reversed edges. *)
Theorem C28_converse : forall r x y,
  NoDup (map fst r) -> (edge (converse_relation r) x y <-> edge r y x).
Proof. exact converse_edge. Qed.

(** * Names *)

(** A schema node has its documented name. *)
Theorem C28_documented_names : forall lx o y n,
  node_name lx o y = Ok n <-> names lx o y n.
Proof. exact node_name_iff. Qed.

(** Two places have the same name only if they are the same node. *)
Theorem C28_names_identify_nodes : forall lx b o x p1 o1 y1 p2 o2 y2 n,
  codec_ok lx -> (forall p y, leads b x p y -> plain y) -> plain_origin o ->
  arrives b o x p1 o1 y1 -> arrives b o x p2 o2 y2 ->
  names lx o1 y1 n -> names lx o2 y2 n -> same_node o1 y1 o2 y2.
Proof.
  intros lx b o x p1 o1 y1 p2 o2 y2 n C PL PO A1 A2 H1 H2.
  assert (PA : forall q u w, arrives b o x q u w -> plain_origin u).
  { intros q u w A. destruct A as [|q u w a z A L]; [assumption|]. cbn.
    apply (PL q). now apply (arrives_leads b o x q u). }
  apply (names_identify lx C o1 y1 o2 y2 n H1 H2).
  - apply (PL p1). now apply (arrives_leads b o x p1 o1).
  - apply (PL p2). now apply (arrives_leads b o x p2 o2).
  - exact (PA p1 o1 y1 A1).
  - exact (PA p2 o2 y2 A2).
Qed.

(** * The graph *)

(** The analysis of a schema always ends, and succeeds exactly if there is no
    OBJECT and no SCHEMA in it. *)
Theorem C28_supported_schemas : forall lx pop b x,
  graph_ok lx b x ->
  ((exists h, make_helper lx pop b x = Ok h) <-> supported b x)
  /\ (forall f, make_helper lx pop b x = Fail f ->
        (f = UnsupportedObject /\ exists p, leads b x p SObject)
        \/ (f = UnsupportedSchema /\ exists p, leads b x p SSchema)).
Proof.
  intros lx pop b x W. split; [now apply make_helper_iff|].
  intros f E. destruct (make_helper_cases lx pop b x W) as [[g [G H]]|[an [A _]]].
  - assert (g = f) by congruence. now subst.
  - unfold make_helper in E. rewrite A in E. discriminate.
Qed.

(** The nodes of the graph are the names of the valid paths, each once. *)
Theorem C28_nodes : forall lx pop b x h,
  graph_ok lx b x -> make_helper lx pop b x = Ok h ->
  NoDup (all_names h)
  /\ forall n, In n (all_names h) <-> exists p, named lx b x p n.
Proof.
  intros lx pop b x h W M. split; [now apply (h_nodup lx pop b x W h)|].
  intros n. now apply (valid_iff lx pop b x W h).
Qed.

(** Children and parents are the nodes one action further and one action back. *)
Theorem C28_children_and_parents : forall lx pop b x h n,
  graph_ok lx b x -> make_helper lx pop b x = Ok h -> In n (all_names h) ->
  (exists l, child_names h n = Ok l
     /\ forall c, In c l <-> exists p a, named lx b x p n /\ named lx b x (p ++ [a]) c)
  /\ (exists l, parent_names h n = Ok l
        /\ forall c, In c l <-> exists p a, named lx b x p c /\ named lx b x (p ++ [a]) n).
Proof.
  intros lx pop b x h n W M I. split.
  - now apply (children_ok lx pop b x W h M).
  - now apply (parents_ok lx pop b x W h M).
Qed.

(** Descendants and ancestors are exactly the nodes below and above. *)
Theorem C28_descendants : forall lx pop b x h ns,
  graph_ok lx b x -> pop_ok pop -> make_helper lx pop b x = Ok h ->
  Forall (fun n => In n (all_names h)) ns ->
  exists l, descendant_names h ns = Ok l /\ NoDup l
    /\ forall m, In m l <-> exists n, In n ns /\ below lx b x n m.
Proof. intros lx pop b x h ns W P M. exact (descendants_ok lx pop P b x W h M ns). Qed.

Theorem C28_ancestors : forall lx pop b x h ns,
  graph_ok lx b x -> pop_ok pop -> make_helper lx pop b x = Ok h ->
  Forall (fun n => In n (all_names h)) ns ->
  exists l, ancestor_names h ns = Ok l /\ NoDup l
    /\ forall m, In m l <-> exists n, In n ns /\ below lx b x m n.
Proof. intros lx pop b x h ns W P M. exact (ancestors_ok lx pop P b x W h M ns). Qed.

(** A name that is not in the graph is refused. *)
Theorem C28_unknown_names_are_refused : forall h ns,
  (exists n, In n ns /\ ~ In n (all_names h)) ->
  exists n, In n ns /\ ~ In n (all_names h)
    /\ descendant_names h ns = Fail (InvalidName n)
    /\ ancestor_names h ns = Fail (InvalidName n).
Proof. exact bad_names_fail. Qed.

(** Leaves are the nodes with nothing below them. *)
Theorem C28_leaves : forall lx pop b x h n,
  graph_ok lx b x -> make_helper lx pop b x = Ok h ->
  (In n (leaf_names h) <-> In n (all_names h) /\ ~ exists m, below lx b x n m)
  /\ (In n (non_leaf_names h) <-> In n (all_names h) /\ exists m, below lx b x n m)
  /\ (In n (all_names h) ->
      exists v, is_leaf_name h n = Ok v /\ (v = true <-> In n (leaf_names h))).
Proof.
  intros lx pop b x h n W M. split; [|split].
  - now apply (leaf_iff lx pop b x W h M).
  - now apply (non_leaf_iff lx pop b x W h M).
  - now apply (is_leaf_ok lx pop b x W h M).
Qed.

(** * Paths *)

(** A path exists exactly if it is valid, its name is in the graph, and the graph
    knows the schema there. *)
Theorem C28_paths : forall lx pop b x h p,
  graph_ok lx b x -> codec_ok lx -> make_helper lx pop b x = Ok h ->
  (path_exists h p = true <-> valid_path b x p)
  /\ (forall n, name_of_path h p = Ok n <-> named lx b x p n)
  /\ (forall n y, named lx b x p n -> leads b x p y -> subschema_at h n = Ok y).
Proof.
  intros lx pop b x h p W C M. split; [|split].
  - now apply (path_exists_iff lx pop b x W h M).
  - intros n. now apply (name_of_path_iff lx pop b x W h M).
  - intros n y [o [z [A H]]] L.
    assert (z = y).
    { apply (leads_unique b x p z y (proj1 W)); [|assumption].
      now apply (arrives_leads b None x p o). }
    subst z. now apply (subschema_at_ok lx pop b x W C h M p o y n).
Qed.

(** * What has to be loaded *)

(** To populate paths, one needs their nodes (with everything below, if asked
    for) and everything above these; and only these. *)
Theorem C28_needed_names : forall lx pop b x h ps ds,
  graph_ok lx b x -> pop_ok pop -> make_helper lx pop b x = Ok h ->
  Forall (valid_path b x) ps -> Forall (valid_path b x) ds ->
  exists l, names_needed_to h ps ds = Ok l
    /\ forall m, In m l <->
         requested lx b x ps ds m
         \/ exists n, requested lx b x ps ds n /\ below lx b x m n.
Proof. intros lx pop b x h ps ds W P M. exact (needed_ok lx pop P b x W h M ps ds). Qed.

(** In particular, the nodes of all prefixes of a requested path. *)
Theorem C28_needed_prefixes : forall lx pop b x h ps ds l p q n,
  graph_ok lx b x -> pop_ok pop -> make_helper lx pop b x = Ok h ->
  names_needed_to h ps ds = Ok l ->
  In (p ++ q) ps \/ In (p ++ q) ds -> named lx b x p n -> In n l.
Proof.
  intros lx pop b x h ps ds l p q n W P M E I N.
  destruct (Forall_dec (fun p => path_exists h p = true)) with (l := ps ++ ds) as [F|F].
  { intros u. destruct (path_exists h u); [now left|right; discriminate]. }
  - assert (F' : Forall (valid_path b x) (ps ++ ds)).
    { eapply Forall_impl; [|exact F]. intros u U. now apply (path_exists_iff lx pop b x W h M). }
    apply Forall_app in F' as [F1 F2].
    destruct (needed_ok lx pop P b x W h M ps ds F1 F2) as [l' [E' H]].
    assert (l' = l) by congruence. subst l'. apply H.
    assert (V : valid_path b x (p ++ q)).
    { destruct I as [I|I]; [exact (proj1 (Forall_forall _ _) F1 _ I)|
                            exact (proj1 (Forall_forall _ _) F2 _ I)]. }
    apply (valid_named lx pop b x W h M) in V as [m V].
    destruct q as [|a q].
    + rewrite app_nil_r in *. left. destruct I as [I|I]; [left; now exists p|].
      right. exists p, []. now rewrite app_nil_r.
    + right. exists m. split.
      * destruct I as [I|I]; [left; now exists (p ++ a :: q)|].
        right. exists (p ++ a :: q), []. now rewrite app_nil_r.
      * exists p, (a :: q). now split.
  - exfalso. apply F. destruct (check_paths h ps) as [[]|f] eqn:C1.
    + destruct (check_paths h ds) as [[]|f] eqn:C2.
      * apply (check_paths_ok lx pop b x W h M) in C1, C2.
        apply Forall_app. split; (eapply Forall_impl; [|eassumption]);
          intros u U; now apply (path_exists_iff lx pop b x W h M).
      * unfold names_needed_to in E. rewrite C1, C2 in E. discriminate.
    + unfold names_needed_to in E. rewrite C1 in E. discriminate.
Qed.

(** Only invalid paths are refused. *)
Theorem C28_needed_errors : forall lx pop b x h ps ds f,
  graph_ok lx b x -> pop_ok pop -> make_helper lx pop b x = Ok h ->
  names_needed_to h ps ds = Fail f ->
  exists p, f = InvalidArgument p /\ In p (ps ++ ds) /\ ~ valid_path b x p.
Proof. intros lx pop b x h ps ds f W P M. exact (needed_fail lx pop P b x W h M ps ds f). Qed.

(** The schema bag for some nodes has exactly the steps between them. *)
Theorem C28_schema_bag : forall lx pop b x h ns,
  graph_ok lx b x -> make_helper lx pop b x = Ok h ->
  Forall (fun n => In n (all_names h)) ns ->
  exists l, schema_bag_for h ns = Ok l
    /\ forall id a z, In (id, a, z) l <->
         exists p c, leads b x p (SNode id) /\ leads b (SNode id) [a] z
           /\ In id ns /\ named lx b x (p ++ [a]) c /\ In c ns.
Proof. intros lx pop b x h ns W M. exact (schema_bag_ok_facts lx pop b x W h M ns). Qed.

(** An update of an attribute affects the node of the attribute and the nodes
    below it in the schema of the value, and it is refused for OBJECT and SCHEMA. *)
Theorem C28_affected_names : forall lx pop b x h at_name attr vb v id attrs,
  graph_ok lx b x -> make_helper lx pop b x = Ok h ->
  subschema_at h at_name = Ok (SNode id) -> lookup b id = NEntity attrs ->
  graph_ok lx vb v -> printable lx (GetAttr attr) ->
  (exists f, affected_names h at_name attr vb v = Fail f
     /\ ((f = UnsupportedObject /\ exists p, leads vb v p SObject)
         \/ (f = UnsupportedSchema /\ exists p, leads vb v p SSchema)))
  \/ (supported vb v
      /\ exists l, affected_names h at_name attr vb v = Ok l
           /\ NoDup l
           /\ forall n, In n l <-> exists p o y,
                arrives vb (Some (SNode id, GetAttr attr)) v p o y /\ names lx o y n).
Proof.
  intros lx pop b x h at_name attr vb v id attrs W M.
  exact (affected_ok lx pop b x W h M at_name attr vb v id attrs).
Qed.

Theorem C28_updates_need_entities : forall lx pop b x h at_name attr vb v y,
  graph_ok lx b x -> make_helper lx pop b x = Ok h ->
  subschema_at h at_name = Ok y -> is_entity_schema b y = false ->
  affected_names h at_name attr vb v = Fail NotAnEntity.
Proof.
  intros lx pop b x h at_name attr vb v y W M.
  exact (affected_not_entity lx pop b x W h M at_name attr vb v y).
Qed.

(** * The hypotheses are met *)

Definition lx1 : lexicon := koda_lexicon (fun c => N.eqb c 233) (fun c => N.eqb c 233).

(** Sets that hand out their first element, and sets that hand out their last. *)
Definition pop_first (l : list text) : option (text * list text) :=
  match l with [] => None | x :: l => Some (x, l) end.
Definition pop_last (l : list text) : option (text * list text) :=
  match rev l with [] => None | x :: l => Some (x, rev l) end.

Lemma pop_first_ok : pop_ok pop_first.
Proof.
  split.
  - intros l; split; destruct l; cbn; easy.
  - intros [|y l] x k; cbn; [discriminate|]. intros E; injection E as <- <-. reflexivity.
Qed.

Lemma pop_last_ok : pop_ok pop_last.
Proof.
  split.
  - intros l. unfold pop_last. destruct (rev l) as [|y k] eqn:E.
    + split; [|reflexivity]. intros _. rewrite <- (rev_involutive l). now rewrite E.
    + split; [discriminate|]. intros ->. discriminate.
  - intros l x k. unfold pop_last. destruct (rev l) as [|y r] eqn:E; [discriminate|].
    intros F; injection F as <- <-. rewrite <- (rev_involutive l), E. cbn.
    symmetry. apply Permutation_cons_append.
Qed.

(** A recursive schema: a tree whose nodes have a value, a list of children, a
    dict of names, and an attribute whose name has to be encoded. *)
Definition forest : schema_bag :=
  [(str "tree", NEntity [(str "a.b", SPrimitive (str "INT32"));
                         (str "children", SNode (str "list"));
                         (str "names", SNode (str "dict"));
                         (str "value", SPrimitive (str "INT32"))]);
   (str "list", NList (SNode (str "tree")));
   (str "dict", NDict (SPrimitive (str "STRING")) (SNode (str "tree")));
   (str "top", NEntity [(str "tree", SNode (str "tree")); (str "version", SPrimitive (str "INT64"))])].

Definition forest_schemas : list schema :=
  [SNode (str "top"); SNode (str "tree"); SNode (str "list"); SNode (str "dict");
   SPrimitive (str "INT32"); SPrimitive (str "INT64"); SPrimitive (str "STRING")].

Lemma forest_closed p : forall x y,
  In x forest_schemas -> leads forest x p y ->
  In y forest_schemas /\ Forall (printable lx1) p.
Proof.
  induction p as [|a p IH]; intros x y I L.
  - inversion L; subst. split; [assumption|constructor].
  - apply leads_cons in L as [z [J L]].
    assert (K : In z forest_schemas /\ printable lx1 a).
    { cbn in I. repeat (destruct I as [I|I]; [subst x; cbn in J;
        repeat (destruct J as [J|J];
          [injection J as <- <-; split;
            [cbn; tauto| cbn; first [exact Logic.I | left; reflexivity | right; discriminate]]|]); easy|]).
      easy. }
    destruct (IH z y (proj1 K) L) as [H1 H2]. split; [assumption|]. constructor; [apply K|assumption].
Qed.

Lemma forest_ok : graph_ok lx1 forest (SNode (str "top")).
Proof.
  split; [|split].
  - intros id attrs. unfold forest. cbn [lookup].
    destruct (text_eqb (str "tree") id).
    { intros E; injection E as <-. cbn.
      repeat (constructor; [cbn; intuition discriminate|]). constructor. }
    destruct (text_eqb (str "list") id); [discriminate|].
    destruct (text_eqb (str "dict") id); [discriminate|].
    destruct (text_eqb (str "top") id).
    { intros E; injection E as <-. cbn.
      repeat (constructor; [cbn; intuition discriminate|]). constructor. }
    intros E; injection E as <-. constructor.
  - intros p y L. apply forest_closed in L as [I _]; [|cbn; tauto].
    cbn in I. repeat (destruct I as [I|I];
      [subst y; cbn; repeat constructor; cbv; intuition discriminate|]). easy.
  - intros p a y L. apply forest_closed in L as [_ F]; [|cbn; tauto].
    apply Forall_app in F as [_ F]. now inversion F.
Qed.

Definition is_ok {A} (r : result A) (P : A -> Prop) : Prop :=
  match r with Ok a => P a | Fail _ => False end.

Example C28_hypotheses_met :
  graph_ok lx1 forest (SNode (str "top")) /\ codec_ok lx1
  /\ pop_ok pop_first /\ pop_ok pop_last
  /\ is_ok (make_helper lx1 pop_first forest (SNode (str "top"))) (fun h =>
       all_names h
       = [str "top"; str "tree"; str "top.version:INT64";
          str "tree.get_attr(" ++ [34%N] ++ str "YS5i" ++ [34%N] ++ str "):INT32";
          str "list"; str "dict"; str "tree.value:INT32"; str "dict.get_key_schema():STRING"]
       /\ is_ok (ancestor_names h [str "tree"])
            (fun l => l = [str "top"; str "list"; str "dict"; str "tree"])
       /\ is_ok (names_needed_to h
                   [[GetAttr (str "tree"); GetAttr (str "children"); ListExplode;
                     GetAttr (str "value")]] [])
            (fun l => l = [str "tree.value:INT32"; str "tree"; str "top"; str "list"; str "dict"])
       /\ names_needed_to h [[GetAttr (str "leaf")]] [] = Fail (InvalidArgument [GetAttr (str "leaf")])
       /\ is_ok (schema_bag_for h [str "top"; str "tree"])
            (fun l => l = [(str "top", GetAttr (str "tree"), SNode (str "tree"))])
       /\ affected_names h (str "tree") (str "next") [] SObject = Fail UnsupportedObject
       /\ is_ok (affected_names h (str "tree") (str "next") forest (SNode (str "list")))
            (fun l => length l = 6))
  /\ is_ok (make_helper lx1 pop_last forest (SNode (str "top"))) (fun h =>
       is_ok (ancestor_names h [str "tree"])
         (fun l => l = [str "dict"; str "tree"; str "list"; str "top"]))
  /\ is_ok (closure_image pop_last (default_get [(str "a", [str "b"; str "c"]); (str "b", [str "a"])])
              3 [str "a"]) (fun l => l = [str "c"; str "b"; str "a"]).
Proof.
  split; [exact forest_ok|]. split; [apply koda_codec_ok|].
  split; [exact pop_first_ok|]. split; [exact pop_last_ok|].
  vm_compute. repeat split.
Qed.

Print Assumptions C28_closure_is_exact.
Print Assumptions C28_converse.
Print Assumptions C28_documented_names.
Print Assumptions C28_names_identify_nodes.
Print Assumptions C28_supported_schemas.
Print Assumptions C28_nodes.
Print Assumptions C28_children_and_parents.
Print Assumptions C28_descendants.
Print Assumptions C28_ancestors.
Print Assumptions C28_unknown_names_are_refused.
Print Assumptions C28_leaves.
Print Assumptions C28_paths.
Print Assumptions C28_needed_names.
Print Assumptions C28_needed_prefixes.
Print Assumptions C28_needed_errors.
Print Assumptions C28_schema_bag.
Print Assumptions C28_affected_names.
Print Assumptions C28_updates_need_entities.
