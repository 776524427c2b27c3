(** The invariant of a revision, and what it says about loading. *)
From Coq Require Import String.
From Coq Require Import NArith ZArith List Bool PeanoNat Lia Permutation.
From Verif Require Import PathModel PathSpec PathProofs PathGenProofs PathCodecModel
  GraphModel GraphSpec GraphProofs GraphAnalysisProofs GraphHelperProofs
  SliceManagerModel SliceManagerSpec SliceManagerDataProofs SliceManagerProcessProofs.
Import ListNotations.
Local Open Scope list_scope.
Local Open Scope nat_scope.

Definition bag_names (ix : index) (ns : list text) : list nat :=
  flat_map (fun n => match index_get ix n with Some l => l | None => [] end) ns.
Definition loaded (d : dir) (ix : index) (ns : list text) : list bag :=
  map snd (minimal (d_data d) (bag_names ix ns)).

Lemma memn_in n l : memn n l = true <-> In n l.
Proof.
  unfold memn. rewrite existsb_exists. split.
  - intros [x [I E]]. apply Nat.eqb_eq in E. now subst.
  - intros I. exists n. split; [exact I|apply Nat.eqb_refl].
Qed.

Lemma minimal_app {A} (l k : list (nat * A)) ns :
  minimal (l ++ k) ns = minimal l ns ++ minimal k ns.
Proof. unfold minimal. apply filter_app. Qed.

Lemma minimal_ext {A} (l : list (nat * A)) ns ns' :
  (forall n b, In (n, b) l -> (In n ns <-> In n ns')) -> minimal l ns = minimal l ns'.
Proof.
  unfold minimal. induction l as [|[n b] l IH]; intros H; [reflexivity|].
  cbn [filter fst].
  assert (memn n ns = memn n ns') as ->.
  { specialize (H n b (or_introl eq_refl)). rewrite <- !memn_in in H.
    destruct (memn n ns), (memn n ns'); try reflexivity; intuition congruence. }
  rewrite IH; [reflexivity|]. intros n' b' I. apply (H n' b'). now right.
Qed.

Lemma minimal_none {A} (l : list (nat * A)) ns :
  (forall n b, In (n, b) l -> ~ In n ns) -> minimal l ns = [].
Proof.
  unfold minimal. induction l as [|[n b] l IH]; intros H; [reflexivity|].
  cbn [filter fst]. destruct (memn n ns) eqn:E.
  - apply memn_in in E. now destruct (H n b (or_introl eq_refl)).
  - apply IH. intros n' b' I. apply (H n' b'). now right.
Qed.

Lemma minimal_all {A} (l : list (nat * A)) ns :
  (forall n b, In (n, b) l -> In n ns) -> minimal l ns = l.
Proof.
  unfold minimal. induction l as [|[n b] l IH]; intros H; [reflexivity|].
  cbn [filter fst]. rewrite (proj2 (memn_in n ns)) by now apply (H n b); left.
  f_equal. apply IH. intros n' b' I. apply (H n' b'). now right.
Qed.

Lemma in_minimal {A} (l : list (nat * A)) ns n b :
  In (n, b) (minimal l ns) <-> In (n, b) l /\ In n ns.
Proof. unfold minimal. rewrite filter_In. cbn [fst]. now rewrite memn_in. Qed.

Lemma index_get_app ix ix' n :
  index_get (ix ++ ix') n
  = match index_get ix n with Some l => Some l | None => index_get ix' n end.
Proof.
  induction ix as [|[m l] ix IH]; [reflexivity|]. cbn. destruct (text_eqb m n); [reflexivity|exact IH].
Qed.

Lemma schema_along_at b x p : schema_along (child b) x p = schema_at b x p.
Proof.
  revert x. induction p as [|a p IH]; intros x; [reflexivity|].
  cbn [schema_along schema_at]. destruct x as [id| | |]; try reflexivity.
  change (get_subschema b a (SNode id)) with (child b id a).
  destruct (child b id a); [apply IH|reflexivity].
Qed.

Lemma schema_along_ext f g x p :
  (forall id a, f id a = g id a) -> schema_along f x p = schema_along g x p.
Proof.
  intros H. revert x. induction p as [|a p IH]; intros x; [reflexivity|].
  cbn. destruct x; try reflexivity. rewrite H. destruct (g id a); [apply IH|reflexivity].
Qed.

Lemma fact_find_in l id a x : fact_find l id a = Some x -> In (id, a, x) l.
Proof.
  induction l as [|[[i a'] y] l IH]; cbn; [discriminate|].
  destruct (text_eqb i id && action_eqb a' a) eqn:E.
  - apply andb_true_iff in E as [E1 E2]. apply text_eqb_eq in E1. apply action_eqb_eq in E2.
    intros H. left. congruence.
  - intros H. right. now apply IH.
Qed.

Lemma in_fact_find l id a x : In (id, a, x) l -> exists y, fact_find l id a = Some y.
Proof.
  induction l as [|[[i a'] y] l IH]; cbn; [easy|]. intros H.
  destruct (text_eqb i id && action_eqb a' a) eqn:E; [now exists y|].
  destruct H as [H|H]; [|now apply IH]. exfalso.
  assert (i = id /\ a' = a) as [-> ->] by (split; congruence).
  now rewrite text_eqb_refl, (proj2 (action_eqb_eq a a) eq_refl) in E.
Qed.

(** The value of an attribute that was read. *)
Lemma attr_of_read data o s i : attr_of data (Some (Obj o)) s = Some i ->
  exists c, data (o, FAttr s) = Some c /\ In (Some i) (items_read (GetAttr s) c).
Proof.
  cbn. destruct (data (o, FAttr s)) as [[v|l|l]|]; try discriminate. intros ->.
  eexists. split; [reflexivity|now left].
Qed.
Lemma items_of_read data o i : In i (items_of data (Some (Obj o))) ->
  exists c, data (o, FItems) = Some c /\ In i (items_read ListExplode c).
Proof. cbn. destruct (data (o, FItems)) as [[v|l|l]|]; try easy. intros I. now eexists. Qed.
Lemma keys_of_read data o i : In i (keys_of data (Some (Obj o))) ->
  exists c, data (o, FEntries) = Some c /\ In i (items_read DictGetKeys c).
Proof.
  unfold keys_of. cbn. destruct (data (o, FEntries)) as [[v|l|l]|]; try easy.
  intros I. now eexists.
Qed.
Lemma values_of_read data o i : In i (values_of data (Some (Obj o))) ->
  exists c, data (o, FEntries) = Some c /\ In i (items_read DictGetValues c).
Proof.
  unfold values_of. cbn. destruct (data (o, FEntries)) as [[v|l|l]|]; try easy.
  intros I. now eexists.
Qed.

Section Revisions.
  Variable lx : lexicon.
  Variable pop : list text -> option (text * list text).
  Hypothesis C : codec_ok lx.
  Hypothesis P : pop_ok pop.
  Variable ty : N -> text.
  Variable struct : text -> option node.
  Hypothesis SO : struct_ok struct.
  Variable root : N.
  Variable root_schema : text.
  Hypothesis RT : ty root = root_schema.
  Hypothesis RP : plain (SNode root_schema).

  Local Notation full_index d revs := (full_index d revs).

  (** What the bags of a directory say about a revision agrees with [st]. *)
  Record rev_ok (d : dir) (revs : list revision) (b : schema_bag) (st : state) : Prop := {
    ro_schema : schema_of d revs = b;
    ro_child : forall id a, st_child st id a = child b id a;
    ro_bag : bag_ok struct lx b;
    ro_supported : forall id a x, child b id a = Some x -> x <> SObject /\ x <> SSchema;
    ro_root : node_ok struct b (SNode root_schema);
    ro_none : forall ns s, st_data st s = None ->
      composed (loaded d (full_index d revs) ns) s = None;
    ro_data : forall o a x n ns, child b (ty o) a = Some x ->
      names lx (Some (SNode (ty o), a)) x n -> In n ns ->
      composed (loaded d (full_index d revs) ns) (o, field_of a) = st_data st (o, field_of a);
    ro_names : forall id a x n, child b id a = Some x ->
      names lx (Some (SNode id, a)) x n -> index_get (full_index d revs) n <> None;
    ro_root_name : index_get (full_index d revs) root_schema <> None;
    ro_typed : typed ty (child b) (st_data st);
    ro_known : forall s c, st_data st s = Some c ->
      exists a x, child b (ty (fst s)) a = Some x /\ field_of a = snd s;
    ro_content : forall s c, st_data st s = Some c -> content_ok (snd s) c;
    ro_fresh : forall n, In n (flat_map r_data revs ++ flat_map r_schema revs
                                ++ flat_map r_index revs) -> n < d_fresh d;
    ro_index : forall n l, index_get (full_index d revs) n = Some l ->
      incl l (flat_map r_data revs) }.

  Section Load.
    Variables (d : dir) (revs : list revision) (b : schema_bag) (st : state).
    Hypothesis O : rev_ok d revs b st.
    Variable m : manager.
    Hypothesis M1 : m_revisions m = revs.
    Hypothesis M2 : m_schema m = b.

    Lemma rev_graph_ok : graph_ok lx b (SNode root_schema).
    Proof.
      apply (graph_ok_of lx struct); [apply (ro_bag _ _ _ _ O)|exact RP|
                                   apply (ro_root _ _ _ _ O)].
    Qed.

    Lemma rev_step p id a y : leads b (SNode root_schema) p (SNode id) ->
      leads b (SNode id) [a] y -> child b id a = Some y.
    Proof. intros _ L. apply child_leads; [apply (ro_bag _ _ _ _ O)|exact L]. Qed.

    Lemma rev_supported : supported b (SNode root_schema).
    Proof.
      intros p y L. destruct p as [|a p] using rev_ind.
      - inversion L; subst. now split.
      - apply leads_snoc in L as [z [L1 L2]].
        assert (exists id, z = SNode id) as [id ->].
        { destruct z; try (cbn in L2; easy). now eexists. }
        apply (ro_supported _ _ _ _ O id a y). apply child_leads; [apply (ro_bag _ _ _ _ O)|].
        now apply step_expand.
    Qed.

    Lemma rev_helper : exists h,
      helper_of lx pop root_schema m = Done h /\ make_helper lx pop b (SNode root_schema) = Ok h.
    Proof.
      destruct (proj2 (make_helper_iff lx pop b (SNode root_schema) rev_graph_ok)) as [h H].
      - exact rev_supported.
      - exists h. split; [|exact H]. unfold helper_of. rewrite M2, H. reflexivity.
    Qed.

    (** Every name of the graph has an entry in the index. *)
    Lemma rev_name_known p n : named lx b (SNode root_schema) p n ->
      index_get (full_index d revs) n <> None.
    Proof.
      intros (o & y & A & N). destruct A as [|p o y a z A L].
      - inversion N; subst. exact (ro_root_name _ _ _ _ O).
      - destruct (step_node _ _ _ _ L) as [id ->].
        apply (ro_names _ _ _ _ O id a z n); [|exact N].
        apply child_leads; [apply (ro_bag _ _ _ _ O)|exact L].
    Qed.

    Lemma needed_bags ns : (forall n, In n ns -> index_get (full_index d revs) n <> None) ->
      needed_bag_names d m ns = Done (bag_names (full_index d revs) ns).
    Proof.
      induction ns as [|n ns IH]; intros H; [reflexivity|].
      cbn [needed_bag_names]. unfold data_bag_names. rewrite M1.
      destruct (index_get (full_index d revs) n) as [l|] eqn:G;
        [|now destruct (H n (or_introl eq_refl))].
      rewrite IH by (intros n' I; apply H; now right). cbn [andthen].
      unfold bag_names. cbn [flat_map]. now rewrite G.
    Qed.

    (** Data that is right for the facts of a schema. *)
    Definition right_for (facts : list schema_fact) (data : slot -> option content) : Prop :=
      forall id a z o, fact_find facts id a = Some z -> ty o = id ->
        data (o, field_of a) = st_data st (o, field_of a)
        /\ (forall i c, st_data st (o, field_of a) = Some c -> In i (items_read a c) ->
              item_ok ty z i).

    Lemma loaded_right ns facts :
      (forall id a z, In (id, a, z) facts ->
        child b id a = Some z /\ exists n, names lx (Some (SNode id, a)) z n /\ In n ns) ->
      right_for facts (composed (loaded d (full_index d revs) ns)).
    Proof.
      intros F id a z o E T. apply fact_find_in in E. destruct (F id a z E) as [CH (n & N & I)].
      rewrite <- T in CH, N. split.
      - exact (ro_data _ _ _ _ O o a z n ns CH N I).
      - intros i c D J. exact (ro_typed _ _ _ _ O o a z c i CH D J).
    Qed.

    (** Evaluation on such data. *)
    Section Evaluation.
      Variable facts : list schema_fact.
      Variable data : slot -> option content.
      Hypothesis step_agrees : right_for facts data.

      Lemma evaluate_agrees p : forall x i y,
        item_ok ty x i -> slice_schema facts x p = Some y ->
        evaluate data p i = evaluate (st_data st) p i
        /\ flattened data p i = flattened (st_data st) p i
        /\ (forall j, In j (flattened (st_data st) p i) -> item_ok ty y j).
      Proof.
        induction p as [|a p IH]; intros x i y T E.
        - cbn in *. split; [reflexivity|]. split; [reflexivity|].
          intros j [<-|[]]. assert (x = y) by congruence. now subst.
        - cbn [slice_schema] in E. destruct x as [id| | |]; try discriminate.
          destruct (fact_find facts id a) as [z|] eqn:FF; [|discriminate].
          destruct i as [[o|v]|]; cbn [item_ok] in T; [|easy|].
          + destruct (step_agrees id a z o FF T) as [D K].
            destruct a as [| | |s]; cbn [field_of] in D, K.
            * assert (Q : keys_of data (Some (Obj o)) = keys_of (st_data st) (Some (Obj o)))
                by (unfold keys_of; cbn; now rewrite D).
              assert (W : forall j, In j (keys_of (st_data st) (Some (Obj o))) -> item_ok ty z j).
              { intros j J. apply keys_of_read in J as [c [J1 J2]]. now apply (K j c). }
              cbn [evaluate flattened]. rewrite Q. split; [|split].
              -- f_equal. apply map_ext_in. intros j J. now apply (IH z j y); [apply W|].
              -- revert W. generalize (keys_of (st_data st) (Some (Obj o))). intros l W.
                 induction l as [|j l IHl]; [reflexivity|]. cbn [flat_map]. f_equal.
                 ++ apply (IH z j y); [apply W; now left|exact E].
                 ++ apply IHl. intros j' J'. apply W. now right.
              -- intros j J. apply in_flat_map in J as [i [J1 J2]].
                 destruct (IH z i y (W i J1) E) as (_ & _ & H). now apply H.
            * assert (Q : values_of data (Some (Obj o)) = values_of (st_data st) (Some (Obj o)))
                by (unfold values_of; cbn; now rewrite D).
              assert (W : forall j, In j (values_of (st_data st) (Some (Obj o))) -> item_ok ty z j).
              { intros j J. apply values_of_read in J as [c [J1 J2]]. now apply (K j c). }
              cbn [evaluate flattened]. rewrite Q. split; [|split].
              -- f_equal. apply map_ext_in. intros j J. now apply (IH z j y); [apply W|].
              -- revert W. generalize (values_of (st_data st) (Some (Obj o))). intros l W.
                 induction l as [|j l IHl]; [reflexivity|]. cbn [flat_map]. f_equal.
                 ++ apply (IH z j y); [apply W; now left|exact E].
                 ++ apply IHl. intros j' J'. apply W. now right.
              -- intros j J. apply in_flat_map in J as [i [J1 J2]].
                 destruct (IH z i y (W i J1) E) as (_ & _ & H). now apply H.
            * assert (Q : items_of data (Some (Obj o)) = items_of (st_data st) (Some (Obj o)))
                by (cbn; now rewrite D).
              assert (W : forall j, In j (items_of (st_data st) (Some (Obj o))) -> item_ok ty z j).
              { intros j J. apply items_of_read in J as [c [J1 J2]]. now apply (K j c). }
              cbn [evaluate flattened]. rewrite Q. split; [|split].
              -- f_equal. apply map_ext_in. intros j J. now apply (IH z j y); [apply W|].
              -- revert W. generalize (items_of (st_data st) (Some (Obj o))). intros l W.
                 induction l as [|j l IHl]; [reflexivity|]. cbn [flat_map]. f_equal.
                 ++ apply (IH z j y); [apply W; now left|exact E].
                 ++ apply IHl. intros j' J'. apply W. now right.
              -- intros j J. apply in_flat_map in J as [i [J1 J2]].
                 destruct (IH z i y (W i J1) E) as (_ & _ & H). now apply H.
            * assert (Q : attr_of data (Some (Obj o)) s = attr_of (st_data st) (Some (Obj o)) s)
                by (cbn; now rewrite D).
              cbn [evaluate flattened]. rewrite Q. apply (IH z _ y); [|exact E].
              destruct (attr_of (st_data st) (Some (Obj o)) s) as [i|] eqn:AE; [|now destruct z].
              apply attr_of_read in AE as [c [J1 J2]]. now apply (K (Some i) c).
          + destruct a as [| | |s]; cbn [evaluate flattened];
              try (split; [reflexivity|split; [reflexivity|easy]]).
            cbn [attr_of]. apply (IH z None y); [now destruct z|exact E].
      Qed.
    End Evaluation.

    (** Loading for some paths, and for others with all that is below them. *)
    Lemma load_ok ps ds :
      Forall (fun p => schema_along (st_child st) (SNode root_schema) p <> None) (ps ++ ds) ->
      exists s ns, get_data_slice lx pop root_schema d m ps ds = Done s
        /\ s_bags s = loaded d (full_index d revs) ns
        /\ (forall id a z, In (id, a, z) (s_schema s) ->
              child b id a = Some z /\ exists n, names lx (Some (SNode id, a)) z n /\ In n ns)
        /\ (forall p y, slice_schema (s_schema s) (SNode root_schema) p = Some y ->
              schema_along (st_child st) (SNode root_schema) p = Some y
              /\ evaluate (composed (s_bags s)) p (Some (Obj root)) = at_path root st p
              /\ flattened (composed (s_bags s)) p (Some (Obj root)) = targets_of root st p
              /\ (forall j, In j (targets_of root st p) -> item_ok ty y j))
        /\ (forall p q, (In (p ++ q) ps \/ In (p ++ q) ds
                         \/ (exists r t, In r ds /\ p ++ q = r ++ t)) ->
              schema_along (st_child st) (SNode root_schema) (p ++ q) <> None ->
              slice_schema (s_schema s) (SNode root_schema) p <> None).
    Proof.
      intros V. destruct rev_helper as [h [H1 H2]].
      pose proof rev_graph_ok as W.
      assert (VP : forall p, schema_along (st_child st) (SNode root_schema) p <> None ->
                valid_path b (SNode root_schema) p).
      { intros p Q. rewrite (schema_along_ext _ (child b)) in Q by apply (ro_child _ _ _ _ O).
        rewrite schema_along_at in Q. destruct (schema_at b (SNode root_schema) p) as [y|] eqn:SA; [|easy].
        exists y. apply schema_at_leads; [apply W|exact SA]. }
      apply Forall_app in V as [V1 V2].
      destruct (needed_ok lx pop P b (SNode root_schema) W h H2 ps ds) as [ns [N1 N2]].
      { eapply Forall_impl; [|exact V1]. intros p. apply VP. }
      { eapply Forall_impl; [|exact V2]. intros p. apply VP. }
      assert (NK : forall n, In n ns -> exists p, named lx b (SNode root_schema) p n).
      { intros n I. apply N2 in I as [R|(n' & R & (p & q & _ & Q & _))]; [|now exists p].
        destruct R as [(p & _ & Q)|(p & q & _ & Q)]; [now exists p|now exists (p ++ q)]. }
      assert (NI : forall n, In n ns -> In n (all_names h)).
      { intros n I. apply (valid_iff lx pop b (SNode root_schema) W h H2). now apply NK. }
      destruct (schema_bag_ok_facts lx pop b (SNode root_schema) W h H2 ns) as [facts [F1 F2]].
      { now apply Forall_forall. }
      assert (NB : needed_bag_names d m ns = Done (bag_names (full_index d revs) ns)).
      { apply needed_bags. intros n I. destruct (NK n I) as [p Q]. exact (rev_name_known p n Q). }
      exists (Slice facts (loaded d (full_index d revs) ns)), ns.
      split.
      { unfold get_data_slice. rewrite H1. cbn [andthen]. rewrite N1. cbn [andthen of_result].
        rewrite NB. cbn [andthen]. rewrite F1. reflexivity. }
      split; [reflexivity|]. cbn [s_schema s_bags].
      assert (F : forall id a z, In (id, a, z) facts ->
                child b id a = Some z /\ exists n, names lx (Some (SNode id, a)) z n /\ In n ns).
      { intros id a z I. apply F2 in I as (p & c & L1 & L2 & I1 & NM & I2).
        split; [apply child_leads; [apply W|exact L2]|].
        destruct NM as (o & y & A & NM). exists c. split; [|exact I2].
        apply arrives_snoc in A as (o' & x' & A & L & EO).
        assert (x' = SNode id).
        { apply (leads_unique b (SNode root_schema) p); [apply W| |exact L1].
          exact (arrives_leads _ _ _ _ _ _ A). }
        subst x' o.
        assert (y = z) by (apply (leads_unique b (SNode id) [a]); [apply W|exact L|exact L2]).
        now subst y. }
      split; [exact F|].
      assert (SS : forall p x y, slice_schema facts x p = Some y -> schema_along (st_child st) x p = Some y).
      { induction p as [|a p IH]; intros x y E; [exact E|]. cbn in E |- *.
        destruct x as [id| | |]; try discriminate. destruct (fact_find facts id a) as [z|] eqn:FF; [|discriminate].
        apply fact_find_in in FF. destruct (F id a z FF) as [CH _].
        rewrite (ro_child _ _ _ _ O), CH. now apply IH. }
      split.
      { intros p y E. split; [now apply SS|].
        exact (evaluate_agrees facts _ (loaded_right ns facts F) p (SNode root_schema) (Some (Obj root)) y RT E). }
      intros p q R VQ. specialize (VP _ VQ). destruct VP as [y LQ].
      (* all prefixes of p ++ q have needed names *)
      assert (NP : forall p1 p2 n, p ++ q = p1 ++ p2 -> named lx b (SNode root_schema) p1 n -> In n ns).
      { intros p1 p2 n EQ NM. apply N2.
        destruct (proj1 (valid_named lx pop b (SNode root_schema) W h H2 (p ++ q))) as [n' NM'].
        { now exists y. }
        assert (RQ : requested lx b (SNode root_schema) ps ds n').
        { destruct R as [R|[R|(r & t & R1 & R2)]].
          - left. now exists (p ++ q).
          - right. exists (p ++ q), []. rewrite app_nil_r. now split.
          - right. exists r, t. rewrite <- R2. now split. }
        destruct p2 as [|a2 p2].
        - rewrite app_nil_r in EQ. left.
          assert (n = n').
          { rewrite EQ in NM'. exact (named_unique lx b (SNode root_schema) W p1 n n' NM NM'). }
          now subst.
        - right. exists n'. split; [exact RQ|]. exists p1, (a2 :: p2).
          split; [discriminate|]. split; [exact NM|]. now rewrite <- EQ. }
      (* walk along p *)
      assert (WK : forall p2 p1 x, p = p1 ++ p2 -> leads b (SNode root_schema) p1 x ->
                slice_schema facts x p2 <> None).
      { clear R V1 V2 N1 N2. induction p2 as [|a p2 IH]; intros p1 x EP L1; [cbn; discriminate|].
        assert (LL : exists z, leads b x [a] z /\ leads b (SNode root_schema) (p1 ++ [a]) z).
        { rewrite EP in LQ. rewrite <- app_assoc in LQ. apply leads_app in LQ as [x' [L2 L3]].
          assert (x' = x) by (apply (leads_unique b (SNode root_schema) p1); [apply W|exact L2|exact L1]).
          subst x'. cbn [app] in L3. apply leads_cons in L3 as [z [L3 _]]. exists z.
          split; [now apply step_expand|]. apply leads_snoc. now exists x. }
        destruct LL as [z [L2 L3]]. destruct (step_node _ _ _ _ L2) as [id ->].
        cbn [slice_schema].
        destruct (proj1 (valid_named lx pop b (SNode root_schema) W h H2 (p1 ++ [a]))) as [c NM].
        { now exists z. }
        destruct (in_fact_find facts id a z) as [z' FF].
        { apply F2. exists p1, c. split; [exact L1|]. split; [exact L2|]. split.
          - apply (NP p1 ((a :: p2) ++ q)); [now rewrite EP, app_assoc|].
            destruct (leads_arrives b None (SNode root_schema) p1 (SNode id) L1) as [o A].
            exists o, (SNode id). split; [exact A|constructor].
          - split; [exact NM|]. apply (NP (p1 ++ [a]) (p2 ++ q)); [|exact NM].
            rewrite EP. rewrite <- !app_assoc. reflexivity. }
        rewrite FF. apply (IH (p1 ++ [a])); [now rewrite <- app_assoc|].
        apply fact_find_in in FF. destruct (F id a z' FF) as [CH _].
        apply child_leads in CH; [|apply W].
        assert (z' = z) by (apply (leads_unique b (SNode id) [a]); [apply W|exact CH|exact L2]).
        now subst z'. }
      apply (WK p [] (SNode root_schema) eq_refl). constructor.
    Qed.
  End Load.
End Revisions.
