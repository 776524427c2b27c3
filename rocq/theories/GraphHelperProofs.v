(** Proofs about [SchemaHelper]. *)
From Coq Require Import String.
From Coq Require Import NArith ZArith List Bool PeanoNat Lia Permutation Relations.
From Verif Require Import PathModel PathSpec PathProofs PathGenProofs
  GraphModel GraphSpec GraphClosureProofs GraphProofs GraphAnalysisProofs.
Import ListNotations.
Local Open Scope list_scope.
Local Open Scope nat_scope.

(** * What a finished analysis says *)

Section Finished.
  Variable lx : lexicon.
  Variable b : schema_bag.
  Variable B : schema_bag_ok b.
  Variable o0 : origin.
  Variable x0 : schema.
  Variable only : bool.
  Variable PL : forall p y, leads b x0 p y -> plain y.
  Variable an : analysis.
  Variable V : inv lx b o0 x0 only an [].
  Variable RT : exists n, names lx o0 x0 n /\ In n (keys an).

  Lemma all_recorded p o y :
    arrives b o0 x0 p o y -> exists n, names lx o y n /\ In n (keys an).
  Proof.
    intros A. induction A as [|p o y a z A IH L]; [exact RT|].
    destruct (step_node _ _ _ _ L) as [id ->]. destruct IH as [n [H I]].
    inversion H; subst. destruct (inv_done _ _ _ _ _ _ _ V p o n A I a z L) as [[]|R].
    destruct R as [c [R1 [R2 [R3 R4]]]]. now exists c.
  Qed.

  Lemma names_unique o y n m : names lx o y n -> names lx o y m -> n = m.
  Proof.
    intros H1 H2. apply node_name_iff in H1, H2. congruence.
  Qed.

  Lemma key_iff n :
    In n (keys an) <-> exists p o y, arrives b o0 x0 p o y /\ names lx o y n.
  Proof.
    split.
    - intros I. destruct (inv_keys _ _ _ _ _ _ _ V n I) as [p [o [y [A [H _]]]]].
      now exists p, o, y.
    - intros [p [o [y [A H]]]]. destruct (all_recorded p o y A) as [m [M I]].
      now rewrite (names_unique _ _ _ _ H M).
  Qed.

  Lemma edge_iff n c :
    edge (schema_graph an) n c <->
    exists p o y a z, arrives b o0 x0 p o y /\ leads b y [a] z
      /\ names lx o y n /\ names lx (Some (y, a)) z c.
  Proof.
    split.
    - intros I. destruct (inv_edges _ _ _ _ _ _ _ V n c I)
        as [p [o [y [a [z [H1 [H2 [H3 [H4 _]]]]]]]]].
      now exists p, o, y, a, z.
    - intros [p [o [y [a [z [A [L [H1 H2]]]]]]]].
      destruct (step_node _ _ _ _ L) as [id ->].
      destruct (all_recorded p o _ A) as [m [M I]]. inversion M; subst. inversion H1; subst.
      destruct (inv_done _ _ _ _ _ _ _ V p o n A I a z L) as [[]|R].
      destruct R as [d [R1 [R2 [R3 R4]]]]. now rewrite (names_unique _ _ _ _ H2 R1).
  Qed.

  Lemma fact_iff q c f :
    only = false ->
    (has_fact an q c f <->
     exists p o id a z, q = Some id /\ f = (id, a, z) /\ arrives b o0 x0 p o (SNode id)
       /\ leads b (SNode id) [a] z /\ names lx (Some (SNode id, a)) z c).
  Proof.
    intros O. split.
    - intros F. pose proof (inv_facts _ _ _ _ _ _ _ V q c f F) as G.
      destruct q as [id|]; [|easy]. destruct G as [p [o [a [z G]]]].
      now exists p, o, id, a, z.
    - intros [p [o [id [a [z [-> [-> [A [L H]]]]]]]]].
      destruct (all_recorded p o _ A) as [m [M I]]. inversion M; subst.
      destruct (inv_done _ _ _ _ _ _ _ V p o m A I a z L) as [[]|R].
      destruct R as [d [R1 [R2 [R3 R4]]]]. rewrite (names_unique _ _ _ _ H R1). now apply R4.
  Qed.

  Lemma schema_iff (C : codec_ok lx) (PO : plain_origin o0) p o y n :
    only = false -> arrives b o0 x0 p o y -> names lx o y n ->
    find_schema (node_schemas an) n = Some y.
  Proof.
    intros O A H. assert (I : In n (keys an)) by (apply key_iff; now exists p, o, y).
    destruct (inv_keys _ _ _ _ _ _ _ V n I) as [p' [o' [y' [A' [H' F]]]]].
    rewrite (F O). f_equal.
    assert (PA : forall q u w, arrives b o0 x0 q u w -> plain_origin u).
    { intros q u w W. destruct W as [|q u w a z W L]; [assumption|]. cbn.
      apply (PL q). now apply (arrives_leads b o0 x0 q u). }
    assert (PW : forall q u w, arrives b o0 x0 q u w -> plain w).
    { intros q u w W. apply (PL q). now apply (arrives_leads b o0 x0 q u). }
    symmetry. refine (proj1 (names_identify lx C o y o' y' n H H' _ _ _ _)).
    - exact (PW p o y A).
    - exact (PW p' o' y' A').
    - exact (PA p o y A).
    - exact (PA p' o' y' A').
  Qed.
End Finished.

(** * Helpers *)

Section Helpers.
  Variable lx : lexicon.
  Variable pop : list text -> option (text * list text).
  Variable PO : pop_ok pop.
  Variable b : schema_bag.
  Variable x : schema.
  Variable W : graph_ok lx b x.

  Lemma w_bag : schema_bag_ok b. Proof. exact (proj1 W). Qed.
  Lemma w_plain : forall p y, leads b x p y -> plain y. Proof. exact (proj1 (proj2 W)). Qed.

  Lemma names_defined o p o' y :
    arrives b None x p o' y -> o' = o -> y <> SObject -> y <> SSchema ->
    exists n, names lx o y n.
  Proof.
    intros A -> N1 N2. destruct y as [id|t| |]; try easy.
    - exists id. constructor.
    - remember (SPrimitive t) as y eqn:Y. destruct A as [|p o y a z A L].
      + rewrite Y. eexists. apply names_root.
      + subst z. destruct (step_node _ _ _ _ L) as [id ->].
        assert (PR : printable lx a).
        { apply (proj2 (proj2 W) p a (SPrimitive t)). apply leads_app. exists (SNode id).
          split; [now apply (arrives_leads b None x p o)|assumption]. }
        apply operation_printable in PR as [op OP]. eexists. apply names_leaf. exact OP.
  Qed.

  Lemma failing_iff f :
    failing lx b None x f ->
    (f = UnsupportedObject /\ exists p, leads b x p SObject)
    \/ (f = UnsupportedSchema /\ exists p, leads b x p SSchema).
  Proof.
    intros [p [o [y [A E]]]]. pose proof (arrives_leads _ _ _ _ _ _ A) as L.
    destruct y as [id|t| |].
    - discriminate.
    - exfalso. destruct (names_defined o p o (SPrimitive t) A eq_refl) as [n N]; try easy.
      apply node_name_iff in N. congruence.
    - left. cbn in E. split; [congruence|]. now exists p.
    - right. cbn in E. split; [congruence|]. now exists p.
  Qed.

  Lemma make_helper_cases :
    (exists f, make_helper lx pop b x = Fail f
       /\ ((f = UnsupportedObject /\ exists p, leads b x p SObject)
           \/ (f = UnsupportedSchema /\ exists p, leads b x p SSchema)))
    \/ exists an, analyze_schema lx b x None false = Ok an
         /\ inv lx b None x false an []
         /\ (exists n, names lx None x n /\ In n (keys an)).
  Proof.
    unfold make_helper.
    destruct (analyze_ok lx b None x false w_plain Logic.I (fun _ => eq_refl))
      as [[f [E F]]|[an [E [V RT]]]].
    - left. exists f. rewrite E. split; [reflexivity|]. now apply failing_iff.
    - right. exists an. now split.
  Qed.

  Lemma make_helper_iff :
    (exists h, make_helper lx pop b x = Ok h) <-> supported b x.
  Proof.
    split.
    - intros [h E] p y L.
      destruct make_helper_cases as [[f [F _]]|[an [A [V RT]]]]; [congruence|].
      destruct (leads_arrives b None x p y L) as [o AR].
      destruct (all_recorded lx b None x false an V RT p o y AR) as [n [N _]].
      inversion N; subst; split; discriminate.
    - intros S. destruct make_helper_cases
        as [[f [_ [[_ [p L]]|[_ [p L]]]]]|[an [A [V RT]]]].
      + destruct (S p _ L). congruence.
      + destruct (S p _ L). congruence.
      + unfold make_helper. rewrite A. cbn. now eexists.
  Qed.

  Variable C : codec_ok lx.
  Variable h : helper.
  Variable M : make_helper lx pop b x = Ok h.

  Lemma helper_analysis :
    h_lexicon h = lx /\ h_pop h = pop /\ h_bag h = b /\ h_schema h = x
    /\ h_parents h = converse_relation (h_graph h)
    /\ inv lx b None x false (h_analysis h) []
    /\ (exists n, names lx None x n /\ In n (keys (h_analysis h))).
  Proof.
    destruct make_helper_cases as [[f [F _]]|[an [A [V RT]]]]; [congruence|].
    unfold make_helper in M. rewrite A in M. cbn in M.
    assert (E : h = Helper lx pop b x an (converse_relation (schema_graph an))) by congruence.
    subst h. repeat split; try assumption; try apply V.
  Qed.

  Lemma valid_iff n : In n (all_names h) <-> exists p, named lx b x p n.
  Proof.
    destruct helper_analysis as [_ [_ [_ [_ [_ [V RT]]]]]].
    unfold all_names, h_graph. fold (keys (h_analysis h)).
    rewrite (key_iff lx b None x false _ V RT). unfold named. clear. split.
    - intros [p [o [y [A H]]]]. now exists p, o, y.
    - intros [p [o [y [A H]]]]. now exists p, o, y.
  Qed.

  Lemma h_nodup : NoDup (all_names h).
  Proof.
    destruct helper_analysis as [_ [_ [_ [_ [_ [V RT]]]]]].
    exact (inv_nodup _ _ _ _ _ _ _ V).
  Qed.

  Lemma h_edge n c :
    edge (h_graph h) n c <->
    exists p a, named lx b x p n /\ named lx b x (p ++ [a]) c.
  Proof.
    destruct helper_analysis as [_ [_ [_ [_ [_ [V RT]]]]]].
    unfold h_graph. rewrite (edge_iff lx b None x false _ V RT). split.
    - intros [p [o [y [a [z [A [L [H1 H2]]]]]]]]. exists p, a. split.
      + now exists o, y.
      + exists (Some (y, a)), z. split; [|assumption]. now apply (arrives_step _ _ _ _ o).
    - intros [p [a [[o [y [A H1]]] [o' [z [A' H2]]]]]].
      apply arrives_snoc in A' as [o2 [y2 [A2 [L ->]]]].
      destruct (arrives_unique b None x p o y o2 y2 w_bag A A2) as [<- <-].
      now exists p, o, y, a, z.
  Qed.

  Lemma edge_valid n c : edge (h_graph h) n c -> In c (all_names h).
  Proof. intros E. apply h_edge in E as [p [a [_ H]]]. apply valid_iff. now exists (p ++ [a]). Qed.

  (** Names that are the same stay the same below. *)
  Lemma named_splice p p' n q m :
    named lx b x p n -> named lx b x p' n -> q <> [] -> named lx b x (p ++ q) m ->
    named lx b x (p' ++ q) m.
  Proof.
    intros [o [y [A H]]] [o' [y' [A' H']]].
    revert m. induction q as [|a q IH] using rev_ind; [easy|]. intros m _.
    rewrite !app_assoc. intros [o2 [z [A2 H2]]].
    apply arrives_snoc in A2 as [o3 [w [A3 [L ->]]]].
    destruct (step_node _ _ _ _ L) as [id ->].
    assert (A4 : exists o4, arrives b None x (p' ++ q) o4 (SNode id)).
    { destruct q as [|c q].
      - rewrite app_nil_r in *.
        destruct (arrives_unique b None x p o3 (SNode id) o y w_bag A3 A) as [-> <-].
        inversion H; subst. exists o'.
        assert (ND : ~ In 46%N n).
        { apply plain_no_dot. apply (w_plain p). now apply (arrives_leads b None x p o). }
        now rewrite (names_plain lx o' y' n H' ND) in A'.
      - destruct (IH id) as [o4 [u [A4 H4]]]; [discriminate|exists o3, (SNode id); split; [assumption|constructor]|].
        exists o4.
        assert (ND : ~ In 46%N id).
        { apply plain_no_dot. apply (w_plain (p ++ c :: q)). now apply (arrives_leads b None x _ o3). }
        now rewrite (names_plain lx o4 u id H4 ND) in A4. }
    destruct A4 as [o4 A4]. exists (Some (SNode id, a)), z. split; [|assumption].
    now apply (arrives_step _ _ _ _ o4).
  Qed.

  Lemma named_prefix p q m : named lx b x (p ++ q) m -> exists n, named lx b x p n.
  Proof.
    intros [o [y [A H]]]. pose proof (arrives_leads _ _ _ _ _ _ A) as L.
    apply leads_app in L as [z [L _]]. destruct (leads_arrives b None x p z L) as [o' A'].
    destruct helper_analysis as [_ [_ [_ [_ [_ [V RT]]]]]].
    destruct (all_recorded lx b None x false _ V RT p o' z A') as [n [N _]].
    now exists n, o', z.
  Qed.

  Lemma named_unique p n m : named lx b x p n -> named lx b x p m -> n = m.
  Proof.
    intros H1 H2. apply (path_node_name_iff lx b x p _ w_bag) in H1, H2. congruence.
  Qed.

  Lemma below_iff n m :
    below lx b x n m <-> clos_trans _ (edge (h_graph h)) n m.
  Proof.
    split.
    - intros [p [q [NE [H1 H2]]]]. revert m H2. induction q as [|a q IH] using rev_ind; [easy|].
      intros m H2. destruct q as [|c q].
      + constructor. apply h_edge. now exists p, a.
      + rewrite app_assoc in H2. destruct (named_prefix (p ++ c :: q) [a] m H2) as [u U].
        apply t_trans with u.
        * apply IH; [discriminate|assumption].
        * constructor. apply h_edge. now exists (p ++ c :: q), a.
    - intros H. apply clos_trans_tn1 in H. induction H as [m E|c m E _ IH].
      + apply h_edge in E as [p [a [H1 H2]]]. exists p, [a]. now split.
      + apply h_edge in E as [p' [a [H1 H2]]]. destruct IH as [p [q [NE [H3 H4]]]].
        exists p, (q ++ [a]). split; [now destruct q|]. split; [assumption|].
        rewrite app_assoc. now apply (named_splice p' (p ++ q) c).
  Qed.

  Lemma check_names_ok ns :
    Forall (fun n => In n (all_names h)) ns -> check_names h ns = Ok tt.
  Proof.
    intros F; induction F as [|n ns I F IH]; [reflexivity|].
    cbn. unfold check_name, is_valid_name. apply mem_in in I. now rewrite I.
  Qed.

  Lemma check_names_fail ns :
    (exists n, In n ns /\ ~ In n (all_names h)) ->
    exists n, check_names h ns = Fail (InvalidName n) /\ In n ns /\ ~ In n (all_names h).
  Proof.
    induction ns as [|n ns IH]; intros [m [I N]]; [easy|].
    cbn. unfold check_name, is_valid_name. destruct (mem n (all_names h)) eqn:E; cbn.
    - apply mem_in in E. destruct IH as [k [K1 [K2 K3]]].
      + destruct I as [->|I]; [easy|]. now exists m.
      + exists k. tauto.
    - apply mem_false in E. exists n. tauto.
  Qed.

  Lemma descendants_ok ns :
    Forall (fun n => In n (all_names h)) ns ->
    exists l, descendant_names h ns = Ok l /\ NoDup l
      /\ forall m, In m l <-> exists n, In n ns /\ below lx b x n m.
  Proof.
    intros F. unfold descendant_names. rewrite (check_names_ok ns F). cbn [bind].
    destruct helper_analysis as [_ [-> _]].
    destruct (closure_image_ok pop PO (h_graph h) (strict_get (h_graph h))) with
      (dom := fun n => In n (all_names h)) (of_set := ns) as [l [L1 [L2 L3]]].
    - intros n. unfold strict_get. destruct (get (h_graph h) n); [reflexivity|].
      right. now eexists.
    - intros n I. apply get_some in I as [ys Y]. unfold strict_get. rewrite Y.
      exists ys. split; [reflexivity|]. apply Forall_forall. intros c J.
      apply (edge_valid n). now exists ys.
    - assumption.
    - exists l. split; [assumption|]. split; [assumption|]. intros m. rewrite L3.
      assert (IE : forall u v, image (strict_get (h_graph h)) u v <-> edge (h_graph h) u v).
      { intros u v. unfold image, strict_get, edge. split.
        - intros [ys [E I]]. destruct (get (h_graph h) u) as [zs|] eqn:G; [|discriminate].
          exists ys. split; congruence.
        - intros [ys [E I]]. rewrite E. now exists ys. }
      split; intros [n [I T]]; exists n; (split; [assumption|]).
      + apply below_iff. clear -T IE. induction T as [u v E|u v w _ IH1 _ IH2].
        * constructor. now apply IE.
        * now apply t_trans with v.
      + apply below_iff in T. clear -T IE. induction T as [u v E|u v w _ IH1 _ IH2].
        * constructor. now apply IE.
        * now apply t_trans with v.
  Qed.

  Lemma parents_edge u v : edge (h_parents h) u v <-> edge (h_graph h) v u.
  Proof.
    destruct helper_analysis as [_ [_ [_ [_ [-> _]]]]]. apply converse_edge. exact h_nodup.
  Qed.

  Lemma image_default u v :
    image (default_get (h_parents h)) u v <-> edge (h_parents h) u v.
  Proof.
    unfold image, default_get, edge. split.
    - intros [ys [E I]]. destruct (get (h_parents h) u) as [zs|] eqn:G.
      + exists ys. split; congruence.
      + assert (ys = []) by congruence. now subst.
    - intros [ys [E I]]. rewrite E. now exists ys.
  Qed.

  Lemma ancestors_ok ns :
    Forall (fun n => In n (all_names h)) ns ->
    exists l, ancestor_names h ns = Ok l /\ NoDup l
      /\ forall m, In m l <-> exists n, In n ns /\ below lx b x m n.
  Proof.
    intros F. unfold ancestor_names. rewrite (check_names_ok ns F). cbn [bind].
    replace (h_pop h) with pop by (now destruct helper_analysis as [_ [-> _]]).
    destruct (closure_image_ok pop PO (h_parents h) (default_get (h_parents h))) with
      (dom := fun n : text => True) (of_set := ns) as [l [L1 [L2 L3]]].
    - intros n. unfold default_get. destruct (get (h_parents h) n); [reflexivity|now left].
    - intros n _. unfold default_get. destruct (get (h_parents h) n) as [ys|];
        (eexists; split; [reflexivity|]); now apply Forall_forall.
    - now apply Forall_forall.
    - exists l. split; [assumption|]. split; [assumption|]. intros m. rewrite L3.
      assert (IE : forall u v, image (default_get (h_parents h)) u v <-> edge (h_graph h) v u).
      { intros u v. now rewrite image_default, parents_edge. }
      split; intros [n [I T]]; exists n; (split; [assumption|]).
      + apply below_iff. clear -T IE. induction T as [u v E|u v w _ IH1 _ IH2].
        * constructor. now apply IE.
        * now apply t_trans with v.
      + apply below_iff in T. clear -T IE. induction T as [u v E|u v w _ IH1 _ IH2].
        * constructor. now apply IE.
        * now apply t_trans with v.
  Qed.

  Lemma bad_names_fail ns :
    (exists n, In n ns /\ ~ In n (all_names h)) ->
    exists n, In n ns /\ ~ In n (all_names h)
      /\ descendant_names h ns = Fail (InvalidName n)
      /\ ancestor_names h ns = Fail (InvalidName n).
  Proof.
    intros X. destruct (check_names_fail ns X) as [n [E [I N]]].
    exists n. unfold descendant_names, ancestor_names. rewrite E. now repeat split.
  Qed.

  Lemma children_ok n :
    In n (all_names h) ->
    exists l, child_names h n = Ok l
      /\ forall c, In c l <-> exists p a, named lx b x p n /\ named lx b x (p ++ [a]) c.
  Proof.
    intros I. unfold child_names, check_name, is_valid_name.
    rewrite (proj2 (mem_in n _) I). cbn [bind].
    apply get_some in I as [ys Y]. unfold strict_get. rewrite Y. exists ys.
    split; [reflexivity|]. intros c. rewrite <- h_edge. unfold edge. split.
    - intros J. now exists ys.
    - intros [zs [Z J]]. congruence.
  Qed.

  Lemma parents_ok n :
    In n (all_names h) ->
    exists l, parent_names h n = Ok l
      /\ forall c, In c l <-> exists p a, named lx b x p c /\ named lx b x (p ++ [a]) n.
  Proof.
    intros I. unfold parent_names, check_name, is_valid_name.
    rewrite (proj2 (mem_in n _) I). cbn [bind].
    pose proof (image_default n) as IE. unfold image, default_get in *.
    destruct (get (h_parents h) n) as [ys|] eqn:Y; (eexists; split; [reflexivity|]);
      intros c; rewrite <- h_edge, <- parents_edge, <- IE; split.
    - intros J. now exists ys.
    - intros [zs [Z J]]. congruence.
    - easy.
    - intros [zs [Z J]]. assert (zs = []) by congruence. now subst.
  Qed.

  Lemma leaf_iff n :
    In n (leaf_names h) <->
    In n (all_names h) /\ ~ exists m, below lx b x n m.
  Proof.
    assert (NE : (~ exists m, below lx b x n m) <-> ~ exists m, edge (h_graph h) n m).
    { split; intros X [m Y]; apply X.
      - exists m. apply below_iff. now constructor.
      - apply below_iff in Y. apply clos_trans_t1n in Y.
        destruct Y as [m Y|k m Y _]; [now exists m|now exists k]. }
    rewrite NE. unfold leaf_names, all_names. rewrite in_map_iff. split.
    - intros [[k ys] [<- I]]. apply filter_In in I as [I E]. cbn in E. cbn.
      split; [now apply (in_map fst) in I|]. intros [m [zs [G J]]].
      apply (in_get _ _ _ h_nodup) in I. rewrite I in G. destruct ys; [|discriminate].
      assert (zs = []) by congruence. now subst.
    - intros [I N]. apply get_some in I as [ys Y]. exists (n, ys). split; [reflexivity|].
      apply filter_In. split; [now apply get_in|]. cbn. destruct ys as [|m ys]; [reflexivity|].
      exfalso. apply N. exists m. exists (m :: ys). split; [assumption|now left].
  Qed.

  Lemma non_leaf_iff n :
    In n (non_leaf_names h) <->
    In n (all_names h) /\ exists m, below lx b x n m.
  Proof.
    assert (NE : (exists m, below lx b x n m) <-> exists m, edge (h_graph h) n m).
    { split; intros [m Y].
      - apply below_iff in Y. apply clos_trans_t1n in Y.
        destruct Y as [m Y|k m Y _]; [now exists m|now exists k].
      - exists m. apply below_iff. now constructor. }
    rewrite NE. unfold non_leaf_names, all_names. rewrite in_map_iff. split.
    - intros [[k ys] [<- I]]. apply filter_In in I as [I E]. cbn in E. cbn.
      split; [now apply (in_map fst) in I|].
      apply (in_get _ _ _ h_nodup) in I. destruct ys as [|m ys]; [discriminate|].
      exists m, (m :: ys). split; [assumption|now left].
    - intros [I [m [ys [Y J]]]]. exists (n, ys). split; [reflexivity|].
      apply filter_In. split; [now apply get_in|]. cbn. now destruct ys.
  Qed.

  Lemma is_leaf_ok n :
    In n (all_names h) ->
    exists v, is_leaf_name h n = Ok v /\ (v = true <-> In n (leaf_names h)).
  Proof.
    intros I. unfold is_leaf_name, check_name, is_valid_name.
    rewrite (proj2 (mem_in n _) I). cbn [bind].
    pose proof I as I'. apply get_some in I' as [ys Y]. unfold strict_get. rewrite Y. cbn [bind].
    eexists; split; [reflexivity|]. unfold leaf_names. rewrite in_map_iff. split.
    - intros E. exists (n, ys). split; [reflexivity|]. apply filter_In.
      split; [now apply get_in|assumption].
    - intros [[k zs] [E J]]. cbn in E. subst k. apply filter_In in J as [J E].
      apply (in_get _ _ _ h_nodup) in J. cbn in E. assert (zs = ys) by congruence. now subst.
  Qed.

  Lemma path_exists_iff p : path_exists h p = true <-> valid_path b x p.
  Proof.
    destruct helper_analysis as [EL [_ [EB [EX [_ [V RT]]]]]].
    unfold path_exists, name_of_path. rewrite EL, EB, EX. split.
    - destruct (path_node_name lx b x p) as [n|f] eqn:E; [|discriminate]. intros _.
      apply (path_node_name_iff lx b x p n w_bag) in E as [o [y [A H]]].
      exists y. now apply (arrives_leads b None x p o).
    - intros [y L]. destruct (leads_arrives b None x p y L) as [o A].
      destruct (all_recorded lx b None x false _ V RT p o y A) as [n [N _]].
      assert (NP : named lx b x p n) by (now exists o, y).
      apply (path_node_name_iff lx b x p n w_bag) in NP. now rewrite NP.
  Qed.

  Lemma name_of_path_iff p n : name_of_path h p = Ok n <-> named lx b x p n.
  Proof.
    destruct helper_analysis as [EL [_ [EB [EX [_ [V RT]]]]]].
    unfold name_of_path. rewrite EL, EB, EX. apply path_node_name_iff. exact w_bag.
  Qed.

  Lemma valid_named p : valid_path b x p <-> exists n, named lx b x p n.
  Proof.
    rewrite <- path_exists_iff. unfold path_exists.
    destruct (name_of_path h p) as [n|f] eqn:E.
    - split; [|reflexivity]. intros _. exists n. now apply name_of_path_iff.
    - split; [discriminate|]. intros [n N]. apply name_of_path_iff in N. congruence.
  Qed.

  Lemma subschema_at_ok p o y n :
    arrives b None x p o y -> names lx o y n -> subschema_at h n = Ok y.
  Proof.
    intros A H. destruct helper_analysis as [_ [_ [_ [_ [_ [V RT]]]]]].
    unfold subschema_at, check_name, is_valid_name.
    assert (I : In n (all_names h)) by (apply valid_iff; now exists p, o, y).
    rewrite (proj2 (mem_in n _) I). cbn [bind].
    now rewrite (schema_iff lx b None x false w_plain _ V RT C Logic.I p o y n eq_refl A H).
  Qed.

  Lemma check_paths_ok ps :
    check_paths h ps = Ok tt <-> Forall (valid_path b x) ps.
  Proof.
    induction ps as [|p ps IH]; cbn [check_paths].
    - split; [constructor|reflexivity].
    - destruct (path_exists h p) eqn:E.
      + rewrite IH. apply path_exists_iff in E. split; [now constructor|].
        intros F; now inversion F.
      + split; [discriminate|]. intros F. inversion F as [|? ? K ?]; subst.
        apply path_exists_iff in K. congruence.
  Qed.

  Lemma check_paths_fail ps f :
    check_paths h ps = Fail f ->
    exists p, f = InvalidArgument p /\ In p ps /\ ~ valid_path b x p.
  Proof.
    induction ps as [|p ps IH]; cbn [check_paths]; [discriminate|].
    destruct (path_exists h p) eqn:E.
    - intros F. destruct (IH F) as [q [E1 [I N]]]. exists q. split; [assumption|].
      split; [now right|assumption].
    - intros F. exists p. split; [congruence|]. split; [now left|].
      rewrite <- path_exists_iff. congruence.
  Qed.

  Lemma names_of_paths_ok ps : forall acc,
    Forall (valid_path b x) ps ->
    exists l, names_of_paths h acc ps = Ok l
      /\ forall n, In n l <-> In n acc \/ exists p, In p ps /\ named lx b x p n.
  Proof.
    induction ps as [|p ps IH]; intros acc F.
    - exists acc. split; [reflexivity|]. intros n. split; [tauto|].
      intros [I|[p [[] _]]]. exact I.
    - inversion F as [|? ? VP VR]; subst. apply valid_named in VP as [n N].
      cbn [names_of_paths]. rewrite (proj2 (name_of_path_iff p n) N). cbn [bind].
      destruct (IH (set_add n acc) VR) as [l [L1 L2]].
      exists l. split; [assumption|]. intros m. rewrite L2, set_add_in. split.
      + intros [[->|I]|[q [I Q]]]; [|tauto|].
        * right. exists p. split; [now left|assumption].
        * right. exists q. split; [now right|assumption].
      + intros [I|[q [[->|I] Q]]]; [tauto| |].
        * left. left. now apply (named_unique q).
        * right. now exists q.
  Qed.

  Lemma needed_ok ps ds :
    Forall (valid_path b x) ps -> Forall (valid_path b x) ds ->
    exists l, names_needed_to h ps ds = Ok l
      /\ forall m, In m l <->
           requested lx b x ps ds m \/ exists n, requested lx b x ps ds n /\ below lx b x m n.
  Proof.
    intros F1 F2. unfold names_needed_to.
    rewrite (proj2 (check_paths_ok ps) F1), (proj2 (check_paths_ok ds) F2). cbn [bind].
    destruct (names_of_paths_ok ds [] F2) as [l1 [L1 I1]]. rewrite L1. cbn [bind].
    assert (V1 : Forall (fun n => In n (all_names h)) l1).
    { apply Forall_forall. intros n I. apply I1 in I as [[]|[p [_ N]]]. apply valid_iff. now exists p. }
    destruct (descendants_ok l1 V1) as [l2 [L2 [_ I2]]]. rewrite L2. cbn [bind].
    destruct (names_of_paths_ok ps [] F1) as [l3 [L3 I3]]. rewrite L3. cbn [bind].
    set (nd := set_update (set_update l1 l2) l3).
    assert (IN : forall n, In n nd <-> requested lx b x ps ds n).
    { intros n. unfold nd. rewrite !set_update_in, I1, I2, I3. unfold requested. split.
      - intros [[[[]|[p [I N]]]|[k [K Bl]]]|[[]|[p [I N]]]].
        + right. exists p, []. now rewrite app_nil_r.
        + apply I1 in K as [[]|[p [I N]]]. right.
          destruct Bl as [p' [q [NE [H1 H2]]]]. exists p, q. split; [assumption|].
          now apply (named_splice p' p k).
        + left. now exists p.
      - intros [[p [I N]]|[p [q [I N]]]].
        + right. right. now exists p.
        + left. destruct q as [|a q].
          * rewrite app_nil_r in N. left. right. now exists p.
          * right. destruct (named_prefix p (a :: q) n N) as [k K]. exists k. split.
            -- apply I1. right. now exists p.
            -- exists p, (a :: q). now split. }
    assert (V2 : Forall (fun n => In n (all_names h)) nd).
    { apply Forall_forall. intros n I. apply IN in I as [[p [_ N]]|[p [q [_ N]]]];
        apply valid_iff; [now exists p|now exists (p ++ q)]. }
    destruct (ancestors_ok nd V2) as [l4 [L4 [_ I4]]]. fold nd. rewrite L4. cbn [bind].
    eexists. split; [reflexivity|]. intros m. rewrite set_update_in, I4, IN.
    split; (intros [I|[n [I K]]]; [now left|right; exists n; split; [now apply IN|assumption]]).
  Qed.

  Lemma needed_fail ps ds f :
    names_needed_to h ps ds = Fail f ->
    exists p, f = InvalidArgument p /\ In p (ps ++ ds) /\ ~ valid_path b x p.
  Proof.
    intros E. destruct (check_paths h ps) as [[]|g] eqn:C1.
    - destruct (check_paths h ds) as [[]|g] eqn:C2.
      + apply check_paths_ok in C1, C2. destruct (needed_ok ps ds C1 C2) as [l [L _]]. congruence.
      + unfold names_needed_to in E. rewrite C1, C2 in E. cbn [bind] in E.
        apply check_paths_fail in C2 as [p [E2 [I N]]]. exists p.
        split; [congruence|]. split; [apply in_or_app; now right|assumption].
    - unfold names_needed_to in E. rewrite C1 in E. cbn [bind] in E.
      apply check_paths_fail in C1 as [p [E2 [I N]]]. exists p.
      split; [congruence|]. split; [apply in_or_app; now left|assumption].
  Qed.

  Lemma schema_bag_ok_facts ns :
    Forall (fun n => In n (all_names h)) ns ->
    exists l, schema_bag_for h ns = Ok l
      /\ forall id a z, In (id, a, z) l <->
           exists p c, leads b x p (SNode id) /\ leads b (SNode id) [a] z
             /\ In id ns /\ named lx b x (p ++ [a]) c /\ In c ns.
  Proof.
    intros F. unfold schema_bag_for. rewrite (check_names_ok ns F). cbn [bind].
    eexists. split; [reflexivity|]. intros id a z. rewrite in_flat_map.
    destruct helper_analysis as [_ [_ [_ [_ [_ [V RT]]]]]].
    pose proof (fact_iff lx b None x false _ V RT) as FI. split.
    - intros [[[q c] bag] [I J]].
      destruct (mem c ns && match q with Some p => mem p ns | None => true end) eqn:E; [|easy].
      apply andb_true_iff in E as [E1 E2].
      destruct (proj1 (FI q c (id, a, z) eq_refl)) as [p [o [id' [a' [z' [-> [X [A [L N]]]]]]]]].
      { exists bag. now split. }
      injection X as <- <- <-. apply mem_in in E1, E2.
      exists p, c. split; [now apply (arrives_leads b None x p o)|]. split; [assumption|].
      split; [assumption|]. split; [|assumption].
      exists (Some (SNode id, a)), z. split; [|assumption]. now apply (arrives_step _ _ _ _ o).
    - intros [p [c [L1 [L2 [I1 [[o [y [A N]]] I2]]]]]].
      apply arrives_snoc in A as [o2 [w [A [L ->]]]].
      assert (w = SNode id).
      { apply (leads_unique b x p w (SNode id) w_bag); [|assumption].
        now apply (arrives_leads b None x p o2). }
      subst w. assert (y = z) by (now apply (leads_unique b (SNode id) [a] y z w_bag)). subst y.
      destruct (proj2 (FI (Some id) c (id, a, z) eq_refl)) as [bag [J K]].
      { now exists p, o2, id, a, z. }
      exists (Some id, c, bag). split; [assumption|].
      rewrite (proj2 (mem_in c ns) I2), (proj2 (mem_in id ns) I1). exact K.
  Qed.

  (** What an update can affect. *)
  Lemma affected_ok at_name attr vb v id attrs :
    subschema_at h at_name = Ok (SNode id) ->
    lookup b id = NEntity attrs -> graph_ok lx vb v -> printable lx (GetAttr attr) ->
    (exists f, affected_names h at_name attr vb v = Fail f
       /\ ((f = UnsupportedObject /\ exists p, leads vb v p SObject)
           \/ (f = UnsupportedSchema /\ exists p, leads vb v p SSchema)))
    \/ (supported vb v
        /\ exists l, affected_names h at_name attr vb v = Ok l
             /\ NoDup l
             /\ forall n, In n l <-> exists p o y,
                  arrives vb (Some (SNode id, GetAttr attr)) v p o y /\ names lx o y n).
  Proof.
    intros S L [VB [VP VN]] PR. unfold affected_names. rewrite S. cbn [bind].
    destruct helper_analysis as [-> [_ [-> _]]]. cbn [is_entity_schema]. rewrite L. cbn [negb].
    destruct (analyze_ok lx vb (Some (SNode id, GetAttr attr)) v true VP Logic.I)
      as [[f [E [p [o [y [A F]]]]]]|[an [E [V RT]]]]; [discriminate| |].
    - left. exists f. rewrite E. split; [reflexivity|].
      pose proof (arrives_leads _ _ _ _ _ _ A) as LY.
      destruct y as [id'|t| |]; cbn [node_name] in F.
      + discriminate.
      + exfalso. destruct A as [|p o y a z A LZ].
        * cbn [item_id_name bind] in F.
          apply operation_printable in PR as [op OP]. apply operation_iff in OP.
          now rewrite OP in F.
        * destruct (step_node _ _ _ _ LZ) as [id' ->]. cbn [item_id_name bind] in F.
          assert (PA : printable lx a) by (apply (VN p a z); assumption).
          apply operation_printable in PA as [op OP]. apply operation_iff in OP.
          rewrite OP in F. destruct z; try discriminate.
      + left. split; [congruence|now exists p].
      + right. split; [congruence|now exists p].
    - right. rewrite E. cbn [bind]. split.
      + intros p y LY. destruct (leads_arrives vb (Some (SNode id, GetAttr attr)) v p y LY) as [o A].
        destruct (all_recorded lx vb _ v true an V RT p o y A) as [n [N _]].
        inversion N; subst; split; discriminate.
      + eexists. split; [reflexivity|]. split; [exact (inv_nodup _ _ _ _ _ _ _ V)|].
        intros n. fold (keys an). apply (key_iff lx vb _ v true an V RT).
  Qed.

  Lemma affected_not_entity at_name attr vb v y :
    subschema_at h at_name = Ok y -> is_entity_schema b y = false ->
    affected_names h at_name attr vb v = Fail NotAnEntity.
  Proof.
    intros S E. unfold affected_names. rewrite S. cbn [bind].
    destruct helper_analysis as [_ [_ [-> _]]]. now rewrite E.
  Qed.
End Helpers.
