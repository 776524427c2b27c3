(** An update of a revision that satisfies the invariant gives one that does. *)
From Coq Require Import String.
From Coq Require Import NArith ZArith List Bool PeanoNat Lia Permutation.
From Verif Require Import PathModel PathSpec PathProofs PathGenProofs PathCodecModel
  GraphModel GraphSpec GraphProofs GraphAnalysisProofs GraphHelperProofs
  SliceManagerModel SliceManagerSpec SliceManagerDataProofs SliceManagerProcessProofs
  SliceManagerLoadProofs.
Import ListNotations.
Local Open Scope list_scope.
Local Open Scope nat_scope.

(** * Names of merged bags *)

Lemma ids_eqb_eq a : forall b, ids_eqb a b = true <-> a = b.
Proof.
  induction a as [|x a IH]; intros [|y b]; cbn; try easy.
  rewrite andb_true_iff, Nat.eqb_eq, IH. split; [intros [-> ->]; reflexivity|].
  intros H. split; congruence.
Qed.

Lemma insert_ids_in x y l : In x (insert_ids y l) <-> x = y \/ In x l.
Proof.
  induction l as [|z l IH]; cbn; [intuition congruence|].
  destruct (ids_leb y z); cbn; [intuition congruence|]. rewrite IH. tauto.
Qed.

Lemma sort_ids_in x l : In x (sort_ids l) <-> In x l.
Proof.
  induction l as [|y l IH]; [easy|]. cbn. rewrite insert_ids_in, IH. intuition congruence.
Qed.

Lemma merged_name_in l ids n : merged_name l ids = Some n -> In (ids, n) l.
Proof.
  induction l as [|[k m] l IH]; cbn; [discriminate|].
  destruct (ids_eqb k ids) eqn:E.
  - apply ids_eqb_eq in E. intros H. left. congruence.
  - intros H. right. now apply IH.
Qed.

Lemma merged_name_app l k ids :
  merged_name (l ++ k) ids
  = match merged_name l ids with Some n => Some n | None => merged_name k ids end.
Proof.
  induction l as [|[i m] l IH]; [reflexivity|]. cbn. destruct (ids_eqb i ids); [reflexivity|exact IH].
Qed.

Lemma merge_names_cons ids l known fresh : ids <> [] ->
  merge_names (ids :: l) known fresh
  = match merged_name known ids with
    | Some _ => merge_names l known fresh
    | None => merge_names l (known ++ [(ids, fresh)]) (S fresh)
    end.
Proof. now destruct ids. Qed.

Lemma merge_names_ok l : forall known fresh names fresh',
  merge_names l known fresh = (names, fresh') ->
  fresh <= fresh'
  /\ (exists k, names = known ++ k
        /\ forall ids n, In (ids, n) k -> fresh <= n < fresh' /\ In ids l /\ ids <> [])
  /\ (forall ids, In ids l -> ids <> [] -> exists n, merged_name names ids = Some n).
Proof.
  induction l as [|ids l IH]; intros known fresh names fresh' E.
  - cbn in E. assert (known = names /\ fresh = fresh') as [-> ->] by (split; congruence).
    split; [lia|]. split; [|easy]. exists []. rewrite app_nil_r. now split.
  - destruct (list_eq_dec Nat.eq_dec ids []) as [->|NE].
    + cbn [merge_names] in E. destruct (IH _ _ _ _ E) as (H1 & (k & H2 & H3) & H4).
      split; [exact H1|]. split.
      * exists k. split; [exact H2|]. intros ids n I. destruct (H3 ids n I) as (Q1 & Q2 & Q3).
        split; [exact Q1|]. split; [now right|exact Q3].
      * intros ids [<-|I] NE; [easy|]. now apply H4.
    + rewrite merge_names_cons in E by exact NE. destruct (merged_name known ids) as [n0|] eqn:M.
      * destruct (IH _ _ _ _ E) as (H1 & (k & H2 & H3) & H4). split; [exact H1|]. split.
        -- exists k. split; [exact H2|]. intros ids' n I. destruct (H3 ids' n I) as (Q1 & Q2 & Q3).
           split; [exact Q1|]. split; [now right|exact Q3].
        -- intros ids' [<-|I] NE'; [|now apply H4]. exists n0. now rewrite H2, merged_name_app, M.
      * destruct (IH _ _ _ _ E) as (H1 & (k & H2 & H3) & H4). split; [lia|]. split.
        -- exists ((ids, fresh) :: k). split; [now rewrite H2, <- app_assoc|].
           intros ids' n [EQ|I].
           ++ assert (ids' = ids /\ n = fresh) as [-> ->] by (split; congruence).
              split; [lia|]. split; [now left|exact NE].
           ++ destruct (H3 ids' n I) as (Q1 & Q2 & Q3).
              split; [lia|]. split; [now right|exact Q3].
        -- intros ids' [<-|I] NE'; [|now apply H4]. exists fresh.
           rewrite H2, !merged_name_app, M. cbn [merged_name].
           now rewrite (proj2 (ids_eqb_eq ids ids) eq_refl).
Qed.

Lemma merge_names_unique l : forall known fresh names fresh',
  merge_names l known fresh = (names, fresh') ->
  (forall ids n, In (ids, n) known -> n < fresh) -> NoDup (map snd known) ->
  NoDup (map snd names).
Proof.
  induction l as [|ids l IH]; intros known fresh names fresh' E LT ND.
  - cbn in E. now assert (known = names) as -> by congruence.
  - destruct (list_eq_dec Nat.eq_dec ids []) as [->|NE]; [exact (IH _ _ _ _ E LT ND)|].
    rewrite merge_names_cons in E by exact NE. destruct (merged_name known ids) as [n0|].
    + exact (IH _ _ _ _ E LT ND).
    + apply (IH _ _ _ _ E).
      * intros ids' n I. apply in_app_or in I as [I|[I|[]]].
        -- specialize (LT _ _ I). lia.
        -- assert (fresh = n) by congruence. lia.
      * rewrite map_app. cbn. apply Permutation_NoDup with (fresh :: map snd known).
        -- apply Permutation_cons_append.
        -- constructor; [|exact ND]. intros I. apply in_map_iff in I as [[i n] [Q I]].
           cbn in Q. specialize (LT _ _ I). lia.
Qed.

Lemma nodup_snd_same {A B} (l : list (A * B)) x y k :
  NoDup (map snd l) -> In (x, k) l -> In (y, k) l -> x = y.
Proof.
  induction l as [|[z j] l IH]; [easy|]. cbn [map snd]. intros ND.
  inversion ND as [|? ? N1 N2]; subst. intros [E|I] [F|J].
  - congruence.
  - assert (j = k) by congruence. subst j. destruct N1. apply in_map_iff. now exists (y, k).
  - assert (j = k) by congruence. subst j. destruct N1. apply in_map_iff. now exists (x, k).
  - now apply IH.
Qed.

Lemma index_get_map (f : text * list nat -> list nat) ix n :
  index_get (map (fun nids => (fst nids, f nids)) ix) n
  = match index_get ix n with
    | Some ids => Some (f (n, ids))
    | None => None
    end.
Proof.
  induction ix as [|[m ids] ix IH]; [reflexivity|]. cbn [map index_get fst].
  destruct (text_eqb m n) eqn:E; [|exact IH]. apply text_eqb_eq in E. now subst.
Qed.

Lemma index_get_in ix n ids : index_get ix n = Some ids -> In (n, ids) ix.
Proof.
  induction ix as [|[m l] ix IH]; cbn; [discriminate|]. destruct (text_eqb m n) eqn:E.
  - apply text_eqb_eq in E. intros H. left. congruence.
  - intros H. right. now apply IH.
Qed.

Lemma index_get_key ix n : In n (map fst ix) -> index_get ix n <> None.
Proof.
  induction ix as [|[m l] ix IH]; cbn; [easy|]. intros [->|I].
  - now rewrite text_eqb_refl.
  - destruct (text_eqb m n); [discriminate|now apply IH].
Qed.

Lemma in_bag_names ix ns k :
  In k (bag_names ix ns) <-> exists n l, In n ns /\ index_get ix n = Some l /\ In k l.
Proof.
  unfold bag_names. rewrite in_flat_map. split.
  - intros [n [I J]]. destruct (index_get ix n) as [l|] eqn:G; [|easy]. now exists n, l.
  - intros (n & l & I & G & J). exists n. split; [exact I|]. now rewrite G.
Qed.

Lemma schema_eq_dec (x y : schema) : {x = y} + {x <> y}.
Proof. decide equality; apply (list_eq_dec N.eq_dec). Qed.

(** * Directories *)

Record dir_ok (d : dir) : Prop := {
  do_data : forall n b, In (n, b) (d_data d) -> n < d_fresh d;
  do_schema : forall n b, In (n, b) (d_schema d) -> n < d_fresh d;
  do_index : forall n b, In (n, b) (d_index d) -> n < d_fresh d;
  do_wf : forall n b s c, In (n, b) (d_data d) -> In (s, c) b -> content_wf c }.

(** Bags with new names were added. *)
Record extends (d d' : dir) : Prop := {
  ex_initial : d_initial_index d' = d_initial_index d;
  ex_data : exists l, d_data d' = d_data d ++ l /\ forall n b, In (n, b) l -> d_fresh d <= n;
  ex_schema : exists l, d_schema d' = d_schema d ++ l
    /\ forall n b, In (n, b) l -> d_fresh d <= n;
  ex_index : exists l, d_index d' = d_index d ++ l
    /\ forall n b, In (n, b) l -> d_fresh d <= n;
  ex_fresh : d_fresh d <= d_fresh d' }.

Lemma extends_refl d : extends d d.
Proof. split; try (exists []; rewrite app_nil_r; now split); try reflexivity. Qed.

Lemma extends_trans d1 d2 d3 : extends d1 d2 -> extends d2 d3 -> extends d1 d3.
Proof.
  intros [A1 [a2 [A2 A2']] [a3 [A3 A3']] [a4 [A4 A4']] A5]
         [B1 [b2 [B2 B2']] [b3 [B3 B3']] [b4 [B4 B4']] B5].
  split; [congruence| | | |lia].
  - exists (a2 ++ b2). split; [now rewrite B2, A2, app_assoc|].
    intros n b I. apply in_app_or in I as [I|I]; [now apply (A2' n b)|]. specialize (B2' n b I). lia.
  - exists (a3 ++ b3). split; [now rewrite B3, A3, app_assoc|].
    intros n b I. apply in_app_or in I as [I|I]; [now apply (A3' n b)|]. specialize (B3' n b I). lia.
  - exists (a4 ++ b4). split; [now rewrite B4, A4, app_assoc|].
    intros n b I. apply in_app_or in I as [I|I]; [now apply (A4' n b)|]. specialize (B4' n b I). lia.
Qed.

Lemma minimal_old {A} (l k : list (nat * A)) ns fresh :
  (forall n b, In (n, b) k -> fresh <= n) -> (forall n, In n ns -> n < fresh) ->
  minimal (l ++ k) ns = minimal l ns.
Proof.
  intros H K. rewrite minimal_app, (minimal_none k), app_nil_r; [reflexivity|].
  intros n b I J. specialize (H n b I). specialize (K n J). lia.
Qed.

(** The new bag is the last one that is loaded. *)
Lemma minimal_new {A} (l : list (nat * A)) n b ns fresh :
  (forall n b, In (n, b) l -> n < fresh) -> fresh <= n ->
  minimal (l ++ [(n, b)]) (ns ++ [n]) = minimal l ns ++ [(n, b)].
Proof.
  intros H K. rewrite minimal_app. f_equal.
  - apply minimal_ext. intros n' b' I. rewrite in_app_iff. cbn. specialize (H n' b' I).
    split; [|tauto]. intros [J|[J|[]]]; [exact J|lia].
  - apply minimal_all. intros n' b' [E|[]]. apply in_or_app. right. left. congruence.
Qed.

Lemma flat_map_snoc {A B} (f : A -> list B) l x : flat_map f (l ++ [x]) = flat_map f l ++ f x.
Proof. rewrite flat_map_app. cbn. now rewrite app_nil_r. Qed.

Lemma composed_wf d ix ns s : dir_ok d -> content_wf_opt (composed (loaded d ix ns) s).
Proof.
  intros D. rewrite composed_fold.
  assert (Q : forall l acc, content_wf_opt acc ->
            (forall b s c, In b l -> In (s, c) b -> content_wf c) ->
            content_wf_opt (fold_left (over_bag s) l acc)).
  { induction l as [|b l IH]; intros acc W H; [exact W|]. cbn [fold_left]. apply IH.
    - unfold over_bag. destruct (bag_get b s) as [c|] eqn:G; [|exact W].
      cbn. apply over_wf; [exact W|]. apply (H b s c); [now left|]. now apply bag_get_in.
    - intros b' s' c' I. apply (H b'). now right. }
  apply Q; [exact I|]. intros b s' c I J. unfold loaded in I. apply in_map_iff in I as [[n b'] [E I]].
  cbn in E. subst b'. apply in_minimal in I as [I _]. exact (do_wf d D n b s' c I J).
Qed.

Section Updates.
  Variable lx : lexicon.
  Variable pop : list text -> option (text * list text).
  Hypothesis C : codec_ok lx.
  Hypothesis P : pop_ok pop.
  Variable ty : N -> text.
  Variable struct : text -> option node.
  Hypothesis SO : struct_ok struct.
  Variable root : N.
  Variable root_schema : text.
  Hypothesis RT : ty root = root_schema.
  Hypothesis RP : plain (SNode root_schema).

  Local Notation rev_ok := (rev_ok lx ty struct root_schema).
  Local Notation bag_ok := (bag_ok struct lx).
  Local Notation node_ok := (node_ok struct).

  Lemma extends_same d d' revs b st : rev_ok d revs b st -> extends d d' ->
    schema_of d' revs = schema_of d revs
    /\ full_index d' revs = full_index d revs
    /\ forall ns, loaded d' (full_index d' revs) ns = loaded d (full_index d revs) ns.
  Proof.
    intros O [E1 [l2 [E2 E2']] [l3 [E3 E3']] [l4 [E4 E4']] E5].
    assert (FR := ro_fresh _ _ _ _ _ _ _ _ O).
    assert (FS : schema_of d' revs = schema_of d revs).
    { unfold schema_of. rewrite E3, (minimal_old _ _ _ (d_fresh d)); [reflexivity|exact E3'|].
      intros n I. apply FR. rewrite !in_app_iff. tauto. }
    assert (FI : full_index d' revs = full_index d revs).
    { unfold full_index. rewrite E4, E1, (minimal_old _ _ _ (d_fresh d)); [reflexivity|exact E4'|].
      intros n I. apply FR. rewrite !in_app_iff. tauto. }
    assert (FL : forall ns, loaded d' (full_index d' revs) ns = loaded d (full_index d revs) ns).
    { intros ns. unfold loaded. rewrite FI, E2, (minimal_old _ _ _ (d_fresh d)); [reflexivity|exact E2'|].
      intros n I. apply in_bag_names in I as (m & l & _ & G & J). apply FR.
      apply in_or_app. left. exact (ro_index _ _ _ _ _ _ _ _ O m l G n J). }
    now split; [|split].
  Qed.

  Lemma rev_ok_extends d d' revs b st : rev_ok d revs b st -> extends d d' ->
    rev_ok d' revs b st.
  Proof.
    intros O E. destruct (extends_same d d' revs b st O E) as (FS & FI & FL).
    destruct E as [E1 _ _ _ E5].
    destruct O. constructor; try assumption.
    - congruence.
    - intros ns s E. rewrite FL. now apply ro_none.
    - intros o a x n ns H1 H2 H3. rewrite FL. now apply (ro_data o a x n ns).
    - intros id a x n H1 H2. rewrite FI. now apply (ro_names id a x n).
    - now rewrite FI.
    - intros n I. specialize (ro_fresh n I). lia.
    - intros n l. rewrite FI. apply ro_index.
  Qed.

  (** * The schema of an update *)

  Section Stub.
    Variables (u : change) (at_id : text).
    Hypothesis UB : bag_ok (u_schemas u).
    Hypothesis UX : plain (u_schema u).
    Hypothesis UN : node_ok (u_schemas u) (u_schema u).
    Hypothesis UP : printable lx (GetAttr (u_attr u)).
    Hypothesis AE : struct at_id = None.
    Hypothesis AP : plain (SNode at_id).

    Lemma at_lookup : exists xs, lookup (u_schemas u) at_id = NEntity xs.
    Proof.
      destruct (lookup (u_schemas u) at_id) as [x|k v|xs] eqn:L.
      - rewrite (bag_ok_list lx struct _ _ _ UB L) in AE. discriminate.
      - rewrite (bag_ok_dict lx struct _ _ _ _ UB L) in AE. discriminate.
      - now exists xs.
    Qed.

    Lemma stub_lookup_at xs : lookup (u_schemas u) at_id = NEntity xs ->
      lookup (stub_schemas u at_id) at_id = NEntity (put_attr xs (u_attr u) (u_schema u)).
    Proof.
      intros L. unfold stub_schemas. rewrite lookup_updated.
      - rewrite L. cbn [lookup]. now rewrite text_eqb_refl.
      - intros id attrs E. cbn [lookup] in E. destruct (text_eqb at_id id).
        + assert (attrs = [(u_attr u, u_schema u)]) as -> by congruence. cbn.
          constructor; [easy|constructor].
        + assert (attrs = []) as -> by congruence. constructor.
    Qed.

    Lemma stub_lookup_other id : id <> at_id ->
      lookup (stub_schemas u at_id) id = lookup (u_schemas u) id.
    Proof.
      intros NE. unfold stub_schemas. rewrite lookup_updated.
      - cbn [lookup]. destruct (text_eqb at_id id) eqn:E; [apply text_eqb_eq in E; now subst|].
        destruct (lookup (u_schemas u) id); reflexivity.
      - intros id' attrs E. cbn [lookup] in E. destruct (text_eqb at_id id').
        + assert (attrs = [(u_attr u, u_schema u)]) as -> by congruence. cbn.
          constructor; [easy|constructor].
        + assert (attrs = []) as -> by congruence. constructor.
    Qed.

    Lemma stub_child id a : child (stub_schemas u at_id) id a = update_child u at_id id a.
    Proof.
      unfold child, update_child. cbn [get_subschema].
      destruct (text_eqb id at_id) eqn:E; cbn [andb].
      - apply text_eqb_eq in E. subst id. destruct at_lookup as [xs L].
        rewrite (stub_lookup_at xs L), L. destruct a as [| | |s]; cbn [action_eqb]; try reflexivity.
        rewrite attr_put. destruct (text_eqb s (u_attr u)) eqn:F.
        + apply text_eqb_eq in F. subst s. now rewrite text_eqb_refl.
        + destruct (text_eqb (u_attr u) s) eqn:G; [|reflexivity].
          apply text_eqb_eq in G. subst s. now rewrite text_eqb_refl in F.
      - rewrite stub_lookup_other; [reflexivity|]. intros ->. now rewrite text_eqb_refl in E.
    Qed.

    Lemma stub_node_ok x : node_ok (u_schemas u) x -> node_ok (stub_schemas u at_id) x.
    Proof.
      destruct x as [id| | |]; cbn; try easy. destruct (list_eq_dec N.eq_dec id at_id) as [->|NE].
      - rewrite AE. intros [xs L]. eexists. exact (stub_lookup_at xs L).
      - now rewrite stub_lookup_other.
    Qed.

    Lemma stub_bag_ok : bag_ok (stub_schemas u at_id).
    Proof.
      split.
      - intros id attrs L. destruct (list_eq_dec N.eq_dec id at_id) as [->|NE].
        + destruct at_lookup as [xs LX]. rewrite (stub_lookup_at xs LX) in L.
          assert (attrs = put_attr xs (u_attr u) (u_schema u)) as -> by congruence.
          apply put_attr_nodup. exact (proj1 UB _ _ LX).
        + rewrite stub_lookup_other in L by exact NE. exact (proj1 UB _ _ L).
      - intros id a x E. change (child (stub_schemas u at_id) id a = Some x) in E.
        rewrite stub_child in E. unfold update_child in E.
        destruct (text_eqb id at_id && action_eqb a (GetAttr (u_attr u))) eqn:Q.
        + apply andb_true_iff in Q as [Q1 Q2]. apply text_eqb_eq in Q1. apply action_eqb_eq in Q2.
          subst id a. assert (x = u_schema u) as -> by congruence.
          split; [exact AP|]. split; [exact UX|]. split; [exact UP|]. split.
          * cbn. rewrite AE. destruct at_lookup as [xs L]. eexists. exact (stub_lookup_at xs L).
          * now apply stub_node_ok.
        + destruct (proj2 UB id a x E) as (H1 & H2 & H3 & H4 & H5).
          split; [exact H1|]. split; [exact H2|]. split; [exact H3|].
          split; now apply stub_node_ok.
    Qed.
  End Stub.

  (** * What a plan contains *)

  Lemma stub_in u ts s c : In (s, c) (stub_data u ts) ->
    (exists o v, s = (o, FAttr (u_attr u)) /\ c = CValue v) \/ In (s, c) (u_data u).
  Proof.
    unfold stub_data. intros I. apply in_app_or in I as [I|I]; [|now right]. left.
    apply in_rev in I. apply in_flat_map in I as [[[[o|q]|] v] [_ J]]; cbn in J; try easy.
    destruct J as [J|[]]. exists o, v. split; congruence.
  Qed.

  Section Plan.
    Variables (d : dir) (revs : list revision) (b : schema_bag) (st : state).
    Hypothesis O : rev_ok d revs b st.
    Hypothesis D : dir_ok d.
    Variable m : manager.
    Hypothesis M1 : m_revisions m = revs.
    Hypothesis M2 : m_schema m = b.
    Variable u : change.
    Variable at_id : text.
    Hypothesis AT : schema_along (st_child st) (SNode root_schema) (u_path u) = Some (SNode at_id).
    Hypothesis U : change_ok ty struct root lx st u at_id.

    Lemma UB : bag_ok (u_schemas u). Proof. exact (proj1 U). Qed.
    Let targets := targets_of root st (u_path u).
    Let data := stub_data u targets.
    Let b' := stub_schemas u at_id.

    Lemma at_leads : leads b (SNode root_schema) (u_path u) (SNode at_id).
    Proof.
      apply schema_at_leads; [apply (ro_bag _ _ _ _ _ _ _ _ O)|].
      rewrite <- schema_along_at, <- AT. apply schema_along_ext. intros id a.
      symmetry. apply (ro_child _ _ _ _ _ _ _ _ O).
    Qed.

    Lemma at_ok : plain (SNode at_id) /\ node_ok b (SNode at_id).
    Proof.
      apply (leads_ok lx struct b (SNode root_schema) (u_path u)); [apply O|exact RP|apply O|exact at_leads].
    Qed.

    Record plan_parts (p : plan) (affected : list text) (st1 : progress)
        (names : list (list nat * nat)) (fresh : nat) : Prop := {
      pp_writable : m_read_only m = false;
      pp_entity : exists attrs, lookup b at_id = NEntity attrs;
      pp_supported : supported (u_schemas u) (u_schema u);
      pp_affected : forall n, In n affected <-> exists q o y,
        arrives (u_schemas u) (Some (SNode at_id, GetAttr (u_attr u))) (u_schema u) q o y
        /\ GraphSpec.names lx o y n;
      pp_length : length targets = length (u_values u);
      pp_typed : forall o, In o (objects targets) -> ty o = at_id;
      pp_process : process lx data b' (S (length (objects targets ++ bag_objects data)))
        (Progress [] [] (map (fun n => (n, [])) affected)) at_id (objects targets) = Done st1;
      pp_names : merge_names (sort_ids (map snd (assigned st1))) [] (d_fresh d)
                 = (names, fresh);
      pp_plan : p = Plan
        (map (fun idsn => (snd idsn, merged_bag (made st1) (fst idsn))) names)
        (fresh, b')
        (S fresh,
         map (fun nids =>
                (fst nids,
                 match index_get (full_index d revs) (fst nids) with
                 | Some l => l
                 | None => []
                 end ++ merged_names_of names (snd nids)))
           (assigned st1))
        (S (S fresh)) }.

    Lemma plan_split p : plan_update lx pop root root_schema d m u = Done p ->
      exists affected st1 names fresh, plan_parts p affected st1 names fresh.
    Proof.
      intros E. unfold plan_update in E.
      destruct (m_read_only m) eqn:RO; [discriminate|].
      destruct (rev_helper lx pop ty struct root_schema RP d revs b st O m M1 M2)
        as [h [H1 H2]].
      rewrite H1 in E. cbn [andthen] in E.
      pose proof (rev_graph_ok lx ty struct root_schema RP d revs b st O) as W.
      destruct (leads_arrives b None _ _ _ at_leads) as [o A].
      rewrite (proj2 (name_of_path_iff lx pop b _ W h H2 (u_path u) at_id)) in E.
      2: { exists o, (SNode at_id). split; [exact A|constructor]. }
      cbn [andthen of_result] in E.
      assert (SA : subschema_at h at_id = Ok (SNode at_id)).
      { apply (subschema_at_ok lx pop b _ W C h H2 (u_path u) o); [exact A|constructor]. }
      rewrite SA in E. cbn [andthen of_result] in E. rewrite M2 in E.
      destruct (is_entity_schema b (SNode at_id)) eqn:ES; [|discriminate]. cbn [negb] in E.
      cbn [is_entity_schema] in ES. destruct (lookup b at_id) as [| |attrs] eqn:LA; try discriminate.
      destruct U as (_ & U2 & U3 & U4 & U5 & U6 & U7).
      destruct (affected_ok lx pop b _ W h H2 at_id (u_attr u) (u_schemas u) (u_schema u) at_id attrs
                  SA LA (graph_ok_of lx struct _ _ UB U2 U3) U4)
        as [[f [AF _]]|[SUP [affected [AF [ND AFF]]]]]; rewrite AF in E; cbn [andthen of_result] in E; [discriminate|].
      destruct (load_ok lx pop P ty struct root root_schema RT RP d revs b st O m M1 M2 [u_path u] [])
        as (s & ns & L1 & L2 & L3 & L4 & L5).
      { constructor; [|constructor]. rewrite AT. discriminate. }
      rewrite L1 in E. cbn [andthen] in E. unfold flattened_slice in E.
      destruct (slice_schema (s_schema s) (SNode root_schema) (u_path u)) as [y|] eqn:SS.
      2: { exfalso. apply (L5 (u_path u) []); [left; rewrite app_nil_r; now left| |exact SS].
           rewrite app_nil_r, AT. discriminate. }
      destruct (L4 _ _ SS) as (Q1 & Q2 & Q3 & Q4). rewrite Q3 in E. cbn [andthen] in E.
      fold targets in E, Q4.
      destruct (Nat.eqb (length targets) (length (u_values u))) eqn:LE; [|discriminate].
      apply Nat.eqb_eq in LE. cbn [negb] in E. cbv zeta in E. fold data b' in E.
      destruct (make_helper lx pop b' (SNode at_id)) as [h'|] eqn:H3; [|discriminate].
      cbn [andthen of_result] in E.
      match type of E with andthen ?t _ = _ => destruct t as [st1|] eqn:PR; [|discriminate] end.
      cbn [andthen] in E.
      destruct (merge_names (sort_ids (map snd (assigned st1))) [] (d_fresh d)) as [names fresh] eqn:MN.
      cbn [fst snd] in E. unfold data_bag_names in E. rewrite M1 in E.
      exists affected, st1, names, fresh. constructor.
      - exact RO.
      - now exists attrs.
      - exact SUP.
      - exact AFF.
      - exact LE.
      - intros o' I. apply objects_in in I. specialize (Q4 _ I).
        assert (y = SNode at_id) by congruence. now subst y.
      - exact PR.
      - exact MN.
      - congruence.
    Qed.

    (** ** The effect of a plan *)

    Section Effect.
      Variables (p : plan) (affected : list text) (st1 : progress)
        (names : list (list nat * nat)) (fresh : nat).
      Hypothesis PP : plan_parts p affected st1 names fresh.

      Let d3 := write_index (write_schema (write_data d p) p) p.
      Let revs' := next_revisions m u p.
      Let ix := full_index d revs.
      Let ix' := full_index d3 revs'.

      Lemma at_struct : struct at_id = None.
      Proof.
        destruct at_ok as [_ H]. cbn in H. destruct (pp_entity _ _ _ _ _ PP) as [attrs L].
        destruct (struct at_id) as [n|] eqn:E; [|reflexivity]. pose proof (SO at_id n E) as Q.
        rewrite L in H. now subst n.
      Qed.

      Lemma b'_ok : bag_ok b'.
      Proof.
        destruct U as (U1 & U2 & U3 & U4 & _).
        apply stub_bag_ok; [exact U1|exact U2|exact U3|exact U4|exact at_struct|apply at_ok].
      Qed.

      Lemma b'_child id a : child b' id a = update_child u at_id id a.
      Proof. apply stub_child; first [exact UB|exact at_struct|apply at_ok|apply U]. Qed.

      Lemma nb_child id a : child (schema_updated b b') id a
        = match update_child u at_id id a with Some x => Some x | None => child b id a end.
      Proof.
        rewrite (child_updated lx struct SO b b' id a (ro_bag _ _ _ _ _ _ _ _ O) b'_ok).
        now rewrite b'_child.
      Qed.

      Lemma b'_typed : typed ty (child b') (bag_get data).
      Proof.
        destruct U as (_ & _ & _ & _ & _ & _ & T). intros o a x c i E. rewrite b'_child in E.
        now apply T.
      Qed.

      Lemma writes_iff s c :
        writes ty (child b') (bag_get data) (objects targets) s c <-> written ty root st u at_id s c.
      Proof.
        unfold written, update_data. fold targets. fold data.
        assert (Q : forall o, reached ty (child b') (bag_get data) (objects targets) o <->
                  reached ty (update_child u at_id) (bag_get data) (objects targets) o).
        { intros o. split; intros R; induction R as [o I|o a id c0 o' R IH CH DA I];
            try (now apply reached_target).
          - rewrite b'_child in CH. now apply (reached_step _ _ _ _ o a id c0 o').
          - rewrite <- b'_child in CH. now apply (reached_step _ _ _ _ o a id c0 o'). }
        unfold writes. rewrite Q. split; intros (H1 & H2 & a & x & H3 & H4);
          (split; [exact H1|]); (split; [exact H2|]); exists a, x; (split; [|exact H4]).
        - now rewrite <- b'_child.
        - now rewrite b'_child.
      Qed.

      Lemma fresh_le : d_fresh d <= fresh.
      Proof. apply (merge_names_ok _ _ _ _ _ (pp_names _ _ _ _ _ PP)). Qed.

      Lemma names_in ids n : In (ids, n) names ->
        d_fresh d <= n < fresh /\ In ids (map snd (assigned st1)).
      Proof.
        intros I. destruct (merge_names_ok _ _ _ _ _ (pp_names _ _ _ _ _ PP)) as (_ & (k & E & H) & _).
        cbn in E. subst k. destruct (H ids n I) as (Q1 & Q2 & _). split; [exact Q1|].
        now apply sort_ids_in.
      Qed.

      Lemma p_data_in n g : In (n, g) (p_data p) <->
        exists ids, In (ids, n) names /\ g = merged_bag (made st1) ids.
      Proof.
        rewrite (pp_plan _ _ _ _ _ PP). cbn [p_data]. rewrite in_map_iff. split.
        - intros [[ids n'] [E I]]. cbn [fst snd] in E. exists ids.
          assert (n' = n /\ g = merged_bag (made st1) ids) as [-> ->] by (split; congruence). now split.
        - intros [ids [I ->]]. now exists (ids, n).
      Qed.

      Lemma revs'_data : flat_map r_data revs' = flat_map r_data revs ++ map fst (p_data p).
      Proof. unfold revs', next_revisions. now rewrite M1, flat_map_snoc. Qed.
      Lemma revs'_schema : flat_map r_schema revs' = flat_map r_schema revs ++ [fresh].
      Proof.
        unfold revs', next_revisions. rewrite M1, flat_map_snoc, (pp_plan _ _ _ _ _ PP). reflexivity.
      Qed.
      Lemma revs'_index : flat_map r_index revs' = flat_map r_index revs ++ [S fresh].
      Proof.
        unfold revs', next_revisions. rewrite M1, flat_map_snoc, (pp_plan _ _ _ _ _ PP). reflexivity.
      Qed.

      Lemma new_schema : schema_of d3 revs' = schema_updated b b'.
      Proof.
        unfold schema_of. rewrite revs'_schema. unfold d3. cbn [d_schema write_index write_schema write_data].
        assert (p_schema p = (fresh, b')) as -> by now rewrite (pp_plan _ _ _ _ _ PP).
        rewrite (minimal_new _ _ _ _ (d_fresh d)); [|exact (do_schema d D)|exact fresh_le].
        rewrite fold_left_app. cbn [fold_left snd].
        change (fold_left _ (minimal (d_schema d) (flat_map r_schema revs)) []) with (schema_of d revs).
        now rewrite (ro_schema _ _ _ _ _ _ _ _ O).
      Qed.

      Lemma new_index_app : ix' = snd (p_index p) ++ ix.
      Proof.
        unfold ix', full_index. rewrite revs'_index. unfold d3.
        cbn [d_index d_initial_index write_index write_schema write_data].
        assert (exists i, p_index p = (S fresh, i)) as [i ->]
          by (rewrite (pp_plan _ _ _ _ _ PP); cbn [p_index]; now eexists).
        rewrite (minimal_new _ _ _ _ (d_fresh d)); [|exact (do_index d D)|pose proof fresh_le; lia].
        now rewrite fold_left_app.
      Qed.

      Lemma new_index n : index_get ix' n
        = match index_get (assigned st1) n with
          | Some ids => Some (match index_get ix n with Some l => l | None => [] end
                              ++ merged_names_of names ids)
          | None => index_get ix n
          end.
      Proof.
        rewrite new_index_app, index_get_app, (pp_plan _ _ _ _ _ PP). cbn [p_index snd].
        rewrite (index_get_map (fun nids =>
          match index_get (full_index d revs) (fst nids) with Some l => l | None => [] end
          ++ merged_names_of names (snd nids))).
        fold ix. cbn [fst snd]. now destruct (index_get (assigned st1) n).
      Qed.

      Lemma merged_names_of_in k ids : In k (merged_names_of names ids) ->
        merged_name names ids = Some k.
      Proof.
        unfold merged_names_of. destruct ids as [|i ids]; [easy|].
        destruct (merged_name names (i :: ids)) as [n|]; [|easy]. intros [->|[]]. reflexivity.
      Qed.

      (** The bags that are loaded: the old ones and then some new ones. *)
      Definition news (ns : list text) : list bag :=
        map snd (minimal (p_data p) (bag_names ix' ns)).

      Lemma loaded_new ns : loaded d3 ix' ns = loaded d ix ns ++ news ns.
      Proof.
        unfold loaded, news, d3. cbn [d_data write_index write_schema write_data].
        rewrite minimal_app, map_app. f_equal. f_equal. apply minimal_ext.
        intros k g I. pose proof (do_data d D k g I) as LT. rewrite !in_bag_names. split.
        - intros (n & l & I1 & G & J). rewrite new_index in G.
          destruct (index_get (assigned st1) n) as [ids|].
          + assert (l = match index_get ix n with Some l => l | None => [] end
                        ++ merged_names_of names ids) as -> by congruence.
            apply in_app_or in J as [J|J].
            * destruct (index_get ix n) as [l|] eqn:GI; [|easy]. now exists n, l.
            * apply merged_names_of_in, merged_name_in, names_in in J. lia.
          + now exists n, l.
        - intros (n & l & I1 & G & J). rewrite <- new_index_app || idtac.
          destruct (index_get (assigned st1) n) as [ids|] eqn:A.
          + exists n, (l ++ merged_names_of names ids). split; [exact I1|].
            split; [now rewrite new_index, A, G|]. apply in_or_app. now left.
          + exists n, l. split; [exact I1|]. split; [now rewrite new_index, A|exact J].
      Qed.

      Lemma no_ids (l : list text) n ids :
        index_get (map (fun n => (n, @nil nat)) l) n = Some ids -> ids = [].
      Proof.
        induction l as [|k l IH]; [discriminate|]. cbn. destruct (text_eqb k n); [congruence|exact IH].
      Qed.

      Let PC := process_complete lx ty data b' (proj1 b'_ok) b'_typed (objects targets) _ _ _ _
                  (pp_process _ _ _ _ _ PP) (pp_typed _ _ _ _ _ PP) (no_ids affected).

      Lemma merged_bag_in ids s c : In (s, c) (merged_bag (made st1) ids) <->
        exists j facts, In j ids /\ nth_error (made st1) j = Some facts /\ In (s, c) facts.
      Proof.
        unfold merged_bag. rewrite in_flat_map. split.
        - intros [j [I J]]. apply in_rev in I.
          destruct (nth_error (made st1) j) as [facts|] eqn:NE.
          + exists j, facts. split; [exact I|]. split; [exact NE|].
            now rewrite (nth_error_nth _ _ _ NE) in J.
          + apply nth_error_None in NE. now rewrite (nth_overflow _ _ NE) in J.
        - intros (j & facts & I & NE & J). exists j. split; [now apply -> in_rev|].
          now rewrite (nth_error_nth _ _ _ NE).
      Qed.

      Lemma news_written ns g s c : In g (news ns) -> In (s, c) g ->
        written ty root st u at_id s c.
      Proof.
        intros I J. unfold news in I. apply in_map_iff in I as [[k g'] [E I]]. cbn in E. subst g'.
        apply in_minimal in I as [I _]. apply p_data_in in I as [ids [_ ->]].
        apply merged_bag_in in J as (j & facts & _ & NE & J). apply writes_iff.
        destruct PC as (_ & _ & H & _). apply (H facts); [|exact J]. now apply nth_error_In in NE.
      Qed.

      (** New bags are loaded for the names that their facts belong to. *)
      Lemma news_belong ns g s c : In g (news ns) -> In (s, c) g ->
        exists n a x, In n ns /\ update_child u at_id (ty (fst s)) a = Some x
          /\ field_of a = snd s /\ GraphSpec.names lx (Some (SNode (ty (fst s)), a)) x n.
      Proof.
        intros I J. unfold news in I. apply in_map_iff in I as [[k g'] [E I]]. cbn in E. subst g'.
        apply in_minimal in I as [I K]. apply p_data_in in I as [ids [I ->]].
        apply in_bag_names in K as (n & l & N1 & G & K). rewrite new_index in G.
        pose proof (names_in ids k I) as [KL _].
        assert (OLD : forall l, index_get ix n = Some l -> ~ In k l).
        { intros l0 G0 I0. pose proof (ro_index _ _ _ _ _ _ _ _ O n l0 G0 k I0) as Q.
          assert (k < d_fresh d); [|lia]. apply (ro_fresh _ _ _ _ _ _ _ _ O), in_or_app. now left. }
        destruct (index_get (assigned st1) n) as [ids'|] eqn:A; [|now destruct (OLD l G)].
        assert (l = match index_get ix n with Some l => l | None => [] end
                    ++ merged_names_of names ids') as -> by congruence.
        apply in_app_or in K as [K|K].
        { destruct (index_get ix n) as [l|] eqn:G0; [now destruct (OLD l eq_refl)|easy]. }
        apply merged_names_of_in, merged_name_in in K.
        assert (ids = ids').
        { apply (nodup_snd_same names ids ids' k); [|exact I|exact K].
          apply (merge_names_unique _ _ _ _ _ (pp_names _ _ _ _ _ PP)); [easy|constructor]. }
        subst ids'. apply merged_bag_in in J as (j & facts & J1 & NE & J).
        destruct PC as (_ & _ & _ & _ & H).
        destruct (H n ids j A J1) as (facts' & NE' & H').
        assert (facts' = facts) by congruence. subst facts'.
        destruct (H' s c J) as (a & x & CH & F & NM). exists n, a, x.
        rewrite <- b'_child. now repeat split.
      Qed.

      Lemma written_unique s c c' : written ty root st u at_id s c ->
        written ty root st u at_id s c' -> c = c'.
      Proof. intros (_ & H & _) (_ & H' & _). congruence. Qed.

      Lemma written_news ns s c a x n : written ty root st u at_id s c ->
        update_child u at_id (ty (fst s)) a = Some x -> field_of a = snd s ->
        GraphSpec.names lx (Some (SNode (ty (fst s)), a)) x n -> In n ns ->
        exists g, In g (news ns) /\ bag_get g s <> None.
      Proof.
        intros W CH F NM I. apply writes_iff in W. rewrite <- b'_child in CH.
        destruct PC as (_ & _ & _ & H & _).
        destruct (H s c a x W CH F) as (n' & ids & j & facts & NM' & G & J & NE & K).
        assert (n' = n) by (apply (names_unique lx (Some (SNode (ty (fst s)), a)) x); assumption).
        subst n'.
        assert (NI : ids <> []) by (intros ->; easy).
        destruct (merge_names_ok _ _ _ _ _ (pp_names _ _ _ _ _ PP)) as (_ & _ & MN).
        destruct (MN ids) as [k MK]; [|exact NI|].
        { apply sort_ids_in. apply in_map_iff. exists (n, ids). split; [reflexivity|].
          now apply index_get_in. }
        exists (merged_bag (made st1) ids). split.
        - unfold news. apply in_map_iff. exists (k, merged_bag (made st1) ids). split; [reflexivity|].
          apply in_minimal. split.
          + apply p_data_in. exists ids. split; [now apply merged_name_in|reflexivity].
          + apply in_bag_names. exists n.
            exists (match index_get ix n with Some l => l | None => [] end
                    ++ merged_names_of names ids).
            split; [exact I|]. split; [now rewrite new_index, G|].
            apply in_or_app. right. unfold merged_names_of. destruct ids; [easy|].
            rewrite MK. now left.
        - assert (Q : In (s, c) (merged_bag (made st1) ids)).
          { apply merged_bag_in. now exists j, facts. }
          apply in_bag_get in Q as [c' Q]. congruence.
      Qed.

      Lemma written_dec s : (exists c, written ty root st u at_id s c)
        \/ (forall c, ~ written ty root st u at_id s c).
      Proof.
        destruct (existsb (fun facts => match bag_get facts s with Some _ => true | None => false end)
                    (made st1)) eqn:E.
        - left. apply existsb_exists in E as [facts [I G]].
          destruct (bag_get facts s) as [c|] eqn:B; [|discriminate]. exists c.
          apply writes_iff. destruct PC as (_ & _ & H & _). apply (H facts); [exact I|].
          now apply bag_get_in.
        - right. intros c W. apply writes_iff in W. pose proof W as (_ & _ & a & x & CH & F).
          destruct PC as (_ & _ & _ & H & _).
          destruct (H s c a x W CH F) as (n & ids & j & facts & _ & _ & _ & NE & K).
          apply in_bag_get in K as [c' K].
          assert (Q : existsb (fun facts => match bag_get facts s with Some _ => true | None => false end)
                        (made st1) = true).
          { apply existsb_exists. exists facts. split; [now apply nth_error_In in NE|now rewrite K]. }
          congruence.
      Qed.

      Lemma written_content s c : written ty root st u at_id s c -> content_ok (snd s) c.
      Proof.
        intros (_ & G & _). apply bag_get_in, stub_in in G as [(o & v & -> & ->)|G]; [easy|].
        destruct U as (_ & _ & _ & _ & _ & H & _). now apply (H s c).
      Qed.

      Lemma content_ok_wf f c : content_ok f c -> content_wf c.
      Proof. destruct f, c; cbn; tauto. Qed.

      (** What is read after the update. *)
      Lemma read_unwritten ns s : (forall c, ~ written ty root st u at_id s c) ->
        composed (loaded d3 ix' ns) s = composed (loaded d ix ns) s.
      Proof.
        intros NW. rewrite loaded_new, composed_app. apply fold_absent.
        intros g I. destruct (bag_get g s) as [c|] eqn:G; [|reflexivity].
        apply bag_get_in in G. destruct (NW c). now apply (news_written ns g).
      Qed.

      Lemma read_written ns s c a x n : written ty root st u at_id s c ->
        update_child u at_id (ty (fst s)) a = Some x -> field_of a = snd s ->
        GraphSpec.names lx (Some (SNode (ty (fst s)), a)) x n -> In n ns ->
        composed (loaded d3 ix' ns) s = Some (over (composed (loaded d ix ns) s) c).
      Proof.
        intros W CH F NM I. rewrite loaded_new, composed_app. apply fold_same.
        - apply composed_wf. exact D.
        - apply (content_ok_wf (snd s)). now apply written_content.
        - intros g c' J G. apply (written_unique s); [|exact W].
          apply (news_written ns g); [exact J|now apply bag_get_in].
        - now apply (written_news ns s c a x n).
      Qed.

      Lemma update_known o a x : update_child u at_id (ty o) a = Some x ->
        exists n, GraphSpec.names lx (Some (SNode (ty o), a)) x n.
      Proof.
        intros CH. rewrite <- b'_child in CH.
        destruct (proj2 b'_ok (ty o) a x CH) as (_ & _ & PR & _).
        destruct (pp_supported _ _ _ _ _ PP [] (u_schema u)) as [S1 S2]; [constructor|].
        assert (x <> SObject /\ x <> SSchema) as [N1 N2].
        { rewrite b'_child in CH. unfold update_child in CH.
          destruct (text_eqb (ty o) at_id && action_eqb a (GetAttr (u_attr u))).
          - assert (x = u_schema u) as -> by congruence. now split.
          - destruct U as (_ & _ & _ & _ & U5 & _). destruct (U5 _ _ _ CH) as [q L].
            apply (pp_supported _ _ _ _ _ PP (q ++ [a])). apply leads_app.
            exists (SNode (ty o)). split; [exact L|]. apply child_leads; [apply UB|exact CH]. }
        destruct x as [id|t| |]; try easy.
        - exists id. constructor.
        - apply operation_printable in PR as [op OP]. eexists. exact (names_leaf lx _ _ op _ OP).
      Qed.

      (** Some schema node that the old state has for a field. *)
      Lemma old_child o a c : st_data st (o, field_of a) = Some c ->
        exists x, child b (ty o) a = Some x.
      Proof.
        intros G. destruct (ro_known _ _ _ _ _ _ _ _ O _ _ G) as (a' & x & CH & F). cbn in CH, F.
        apply (child_same_field b (ty o) a' a x); [exact F|exact CH].
      Qed.

      Lemma new_child_written s c a : written ty root st u at_id s c -> field_of a = snd s ->
        exists x, update_child u at_id (ty (fst s)) a = Some x.
      Proof.
        intros W F. apply writes_iff in W as (_ & _ & a' & x & CH & F').
        destruct (child_same_field b' (ty (fst s)) a' a x) as [y CY]; [congruence|exact CH|].
        exists y. now rewrite <- b'_child.
      Qed.

      Section After.
        Variable st' : state.
        Hypothesis A1 : forall id a, st_child st' id a
          = match update_child u at_id id a with Some x => Some x | None => st_child st id a end.
        Hypothesis A2 : forall s c, written ty root st u at_id s c ->
          st_data st' s = Some (over (st_data st s) c).
        Hypothesis A3 : forall s, (forall c, ~ written ty root st u at_id s c) ->
          st_data st' s = st_data st s.
        Hypothesis R : replaces ty root st u at_id.

        Lemma retyped o a x y : child b (ty o) a = Some x ->
          update_child u at_id (ty o) a = Some y ->
          (forall c, ~ written ty root st u at_id (o, field_of a) c) ->
          st_data st (o, field_of a) <> None -> x = y.
        Proof.
          intros CX CY NW ND. destruct a as [| | |s].
          - apply (child_struct lx struct b b' (ty o) DictGetKeys); [apply O|exact b'_ok|discriminate|exact CX|].
            now rewrite b'_child.
          - apply (child_struct lx struct b b' (ty o) DictGetValues); [apply O|exact b'_ok|discriminate|exact CX|].
            now rewrite b'_child.
          - apply (child_struct lx struct b b' (ty o) ListExplode); [apply O|exact b'_ok|discriminate|exact CX|].
            now rewrite b'_child.
          - destruct (schema_eq_dec x y) as [E|NE]; [exact E|]. exfalso.
            destruct (R o s x y) as [c W]; [now rewrite (ro_child _ _ _ _ _ _ _ _ O)|exact CY|exact NE|exact ND|].
            exact (NW c W).
        Qed.

        Lemma same_struct o a x y : field_of a = FEntries \/ field_of a = FItems ->
          child b (ty o) a = Some x -> update_child u at_id (ty o) a = Some y -> x = y.
        Proof.
          intros F CX CY. apply (child_struct lx struct b b' (ty o) a); [apply O|exact b'_ok| |exact CX|].
          - intros s ->. destruct F; discriminate.
          - now rewrite b'_child.
        Qed.

        Lemma step_ok : rev_ok d3 revs' (schema_updated b b') st'.
        Proof.
          assert (NB : forall id a x, child (schema_updated b b') id a = Some x ->
                    update_child u at_id id a = Some x
                    \/ (update_child u at_id id a = None /\ child b id a = Some x)).
          { intros id a x E. rewrite nb_child in E. destruct (update_child u at_id id a); [left|right]; now try split. }
          constructor.
          - exact new_schema.
          - intros id a. rewrite A1, nb_child. now rewrite (ro_child _ _ _ _ _ _ _ _ O).
          - apply (bag_ok_updated lx struct SO); [apply O|exact b'_ok].
          - intros id a x E. destruct (NB _ _ _ E) as [CH|[_ CH]].
            + unfold update_child in CH.
              destruct (text_eqb id at_id && action_eqb a (GetAttr (u_attr u))).
              * assert (x = u_schema u) as -> by congruence.
                apply (pp_supported _ _ _ _ _ PP []). constructor.
              * destruct U as (_ & _ & _ & _ & U5 & _). destruct (U5 _ _ _ CH) as [q L].
                apply (pp_supported _ _ _ _ _ PP (q ++ [a])). apply leads_app.
                exists (SNode id). split; [exact L|]. apply child_leads; [apply UB|exact CH].
            + now apply (ro_supported _ _ _ _ _ _ _ _ O id a).
          - apply (node_ok_left lx struct SO); [apply O|exact b'_ok|apply O].
          - intros ns s E. fold ix'. destruct (written_dec s) as [[c W]|NW].
            + rewrite (A2 s c W) in E. discriminate.
            + rewrite (A3 s NW) in E. rewrite read_unwritten by exact NW.
              now apply (ro_none _ _ _ _ _ _ _ _ O).
          - intros o a x n ns E NM I. fold ix'.
            destruct (written_dec (o, field_of a)) as [[c W]|NW].
            + destruct (new_child_written _ c a W eq_refl) as [y CY]. cbn [fst] in CY.
              assert (CX : update_child u at_id (ty o) a = Some x).
              { destruct (NB _ _ _ E) as [CX|[CX _]]; [exact CX|congruence]. }
              rewrite (A2 _ c W), (read_written ns (o, field_of a) c a x n W CX eq_refl NM I).
              f_equal. pose proof (written_content _ c W) as CO. cbn [snd] in CO.
              destruct (st_data st (o, field_of a)) as [c0|] eqn:G.
              * destruct (old_child o a c0 G) as [z CZ].
                destruct (field_of a) eqn:F; destruct c as [v|l|l]; try easy;
                  try (destruct (composed (loaded d ix ns) _) as [[]|]; destruct c0; reflexivity).
                assert (z = x) by (apply (same_struct o a); [left; exact F|exact CZ|exact CX]).
                subst z. pose proof (ro_data _ _ _ _ _ _ _ _ O o a x n ns CZ NM I) as Q.
                fold ix in Q. rewrite F, G in Q. now rewrite Q.
              * pose proof (ro_none _ _ _ _ _ _ _ _ O ns _ G) as Q. fold ix in Q.
                now rewrite Q.
            + rewrite (A3 _ NW), read_unwritten by exact NW.
              destruct (st_data st (o, field_of a)) as [c0|] eqn:G.
              * destruct (old_child o a c0 G) as [z CZ].
                assert (z = x).
                { destruct (NB _ _ _ E) as [CX|[_ CX]]; [|congruence].
                  apply (retyped o a z x CZ CX NW). congruence. }
                subst z. rewrite <- G. exact (ro_data _ _ _ _ _ _ _ _ O o a x n ns CZ NM I).
              * exact (ro_none _ _ _ _ _ _ _ _ O ns _ G).
          - intros id a x n E NM. fold ix'. rewrite new_index.
            destruct (NB _ _ _ E) as [CH|[_ CH]].
            + assert (K : index_get (assigned st1) n <> None).
              { apply index_get_key. destruct PC as (-> & _). rewrite map_map. cbn [fst].
                rewrite map_id. apply (pp_affected _ _ _ _ _ PP). unfold update_child in CH.
                destruct (text_eqb id at_id && action_eqb a (GetAttr (u_attr u))) eqn:Q.
                - apply andb_true_iff in Q as [Q1 Q2]. apply text_eqb_eq in Q1.
                  apply action_eqb_eq in Q2. subst id a.
                  assert (x = u_schema u) as -> by congruence.
                  exists [], (Some (SNode at_id, GetAttr (u_attr u))), (u_schema u).
                  split; [constructor|exact NM].
                - destruct U as (_ & _ & _ & _ & U5 & _). destruct (U5 _ _ _ CH) as [q L].
                  destruct (leads_arrives (u_schemas u) (Some (SNode at_id, GetAttr (u_attr u)))
                              (u_schema u) q (SNode id) L) as [o A].
                  exists (q ++ [a]), (Some (SNode id, a)), x. split; [|exact NM].
                  apply (arrives_step _ _ _ q o (SNode id) a x A).
                  apply child_leads; [apply UB|exact CH]. }
              destruct (index_get (assigned st1) n); [discriminate|easy].
            + destruct (index_get (assigned st1) n); [discriminate|].
              now apply (ro_names _ _ _ _ _ _ _ _ O id a x n).
          - fold ix'. rewrite new_index. destruct (index_get (assigned st1) root_schema); [discriminate|].
            exact (ro_root_name _ _ _ _ _ _ _ _ O).
          - intros o a x c' i E G I. destruct (written_dec (o, field_of a)) as [[c W]|NW].
            + destruct (new_child_written _ c a W eq_refl) as [y CY]. cbn [fst] in CY.
              assert (CX : update_child u at_id (ty o) a = Some x).
              { destruct (NB _ _ _ E) as [CX|[CX _]]; [exact CX|congruence]. }
              rewrite (A2 _ c W) in G.
              assert (c' = over (st_data st (o, field_of a)) c) as -> by congruence.
              assert (TC : forall j, In j (items_read a c) -> item_ok ty x j).
              { intros j J. destruct U as (_ & _ & _ & _ & _ & _ & T).
                apply (T o a x c j CX); [|exact J]. exact (proj1 (proj2 W)). }
              destruct (st_data st (o, field_of a)) as [[v|l|l]|] eqn:G0; try (now apply TC).
              destruct c as [v|k|k]; try (now apply TC). cbn [over] in I.
              assert (F : field_of a = FEntries).
              { pose proof (ro_content _ _ _ _ _ _ _ _ O _ _ G0) as CO. cbn in CO.
                destruct (field_of a); easy. }
              destruct (old_child o a _ G0) as [z CZ].
              assert (z = x) by (apply (same_struct o a); [left; exact F|exact CZ|exact CX]).
              subst z.
              assert (TL : forall j, In j (items_read a (CEntries l)) -> item_ok ty x j).
              { intros j J. exact (ro_typed _ _ _ _ _ _ _ _ O o a x _ j CZ G0 J). }
              destruct a as [| | |s]; cbn in F, I; try easy;
                apply in_map_iff in I as [[kk vv] [<- I]];
                apply put_all_in in I as [I|I];
                [apply TL|apply TC|apply TL|apply TC]; apply in_map_iff; now exists (kk, vv).
            + rewrite (A3 _ NW) in G. destruct (old_child o a c' G) as [z CZ].
              assert (z = x).
              { destruct (NB _ _ _ E) as [CX|[_ CX]]; [|congruence].
                apply (retyped o a z x CZ CX NW). congruence. }
              subst z. exact (ro_typed _ _ _ _ _ _ _ _ O o a x c' i CZ G I).
          - intros s c' G. destruct (written_dec s) as [[c W]|NW].
            + pose proof (proj2 (writes_iff s c) W) as (_ & _ & a & x & CH & F).
              exists a, x. split; [|exact F]. rewrite nb_child, <- b'_child, CH. reflexivity.
            + rewrite (A3 _ NW) in G. destruct (ro_known _ _ _ _ _ _ _ _ O _ _ G) as (a & x & CH & F).
              rewrite <- F.
              destruct (update_child u at_id (ty (fst s)) a) as [y|] eqn:CY.
              * exists a, y. split; [now rewrite nb_child, CY|reflexivity].
              * exists a, x. split; [now rewrite nb_child, CY|reflexivity].
          - intros s c' G. destruct (written_dec s) as [[c W]|NW].
            + rewrite (A2 _ c W) in G. assert (c' = over (st_data st s) c) as -> by congruence.
              pose proof (written_content _ c W) as CO.
              destruct (st_data st s) as [[v|l|l]|] eqn:G0; try exact CO.
              destruct c as [v|k|k]; try exact CO.
              pose proof (ro_content _ _ _ _ _ _ _ _ O _ _ G0) as CO'. cbn [over].
              destruct (snd s); try easy. cbn in CO, CO' |- *. split.
              * intros E. destruct k as [|[kk vv] k]; [easy|].
                assert (In kk (map fst (put_all l ((kk, vv) :: k)))).
                { rewrite put_all_cons.
                  destruct CO' as [_ N1].
                  assert (In (kk, vv) (put l kk vv)) by now apply put_in_self.
                  destruct CO as [_ N2]. inversion N2 as [|? ? N3 N4]; subst.
                  apply in_map_iff. exists (kk, vv). split; [reflexivity|].
                  apply put_all_keep; assumption. }
                rewrite E in H. easy.
              * now apply put_all_nodup.
            + rewrite (A3 _ NW) in G. exact (ro_content _ _ _ _ _ _ _ _ O _ _ G).
          - intros n I. unfold d3. cbn [d_fresh write_index].
            assert (p_fresh p = S (S fresh)) as -> by now rewrite (pp_plan _ _ _ _ _ PP).
            pose proof fresh_le as FL. pose proof (ro_fresh _ _ _ _ _ _ _ _ O) as FR.
            rewrite revs'_data, revs'_schema, revs'_index in I. rewrite !in_app_iff in I.
            assert (Q : In n (flat_map r_data revs ++ flat_map r_schema revs ++ flat_map r_index revs)
                        \/ In n (map fst (p_data p)) \/ n = fresh \/ n = S fresh).
            { rewrite !in_app_iff. cbn in I. intuition. }
            destruct Q as [Q|[Q|[->| ->]]]; try lia.
            + specialize (FR n Q). lia.
            + apply in_map_iff in Q as [[n' g] [<- Q]]. apply p_data_in in Q as [ids [Q _]].
              apply names_in in Q. cbn. lia.
          - intros n l E k I. fold ix' in E. rewrite new_index in E. rewrite revs'_data.
            assert (OLD : forall l, index_get ix n = Some l -> In k l -> In k (flat_map r_data revs)).
            { intros l0 G J. exact (ro_index _ _ _ _ _ _ _ _ O n l0 G k J). }
            apply in_or_app. destruct (index_get (assigned st1) n) as [ids|].
            + assert (l = match index_get ix n with Some l => l | None => [] end
                          ++ merged_names_of names ids) as -> by congruence.
              apply in_app_or in I as [I|I].
              * left. destruct (index_get ix n) as [l0|] eqn:G; [|easy]. now apply (OLD l0).
              * right. apply merged_names_of_in, merged_name_in in I. apply in_map_iff.
                exists (k, merged_bag (made st1) ids). split; [reflexivity|]. apply p_data_in.
                now exists ids.
            + left. now apply (OLD l).
        Qed.
      End After.

      (** A state after the update exists. *)
      Lemma after_exists : exists st', after ty root root_schema st u st'.
      Proof.
        exists (State
          (fun id a => match update_child u at_id id a with Some x => Some x | None => st_child st id a end)
          (fun s => if existsb (fun facts => match bag_get facts s with Some _ => true | None => false end)
                         (made st1)
                    then match bag_get data s with
                         | Some c => Some (over (st_data st s) c)
                         | None => None
                         end
                    else st_data st s)).
        exists at_id. split; [exact AT|]. split; [reflexivity|]. cbn [st_data].
        assert (Q : forall s, existsb (fun facts => match bag_get facts s with Some _ => true | None => false end)
                      (made st1) = true <-> exists c, written ty root st u at_id s c).
        { intros s. split.
          - intros E. apply existsb_exists in E as [facts [I G]].
            destruct (bag_get facts s) as [c|] eqn:B; [|discriminate]. exists c.
            apply writes_iff. destruct PC as (_ & _ & H & _). apply (H facts); [exact I|].
            now apply bag_get_in.
          - intros [c W]. apply writes_iff in W. pose proof W as (_ & _ & a & x & CH & F).
            destruct PC as (_ & _ & _ & H & _).
            destruct (H s c a x W CH F) as (n & ids & j & facts & _ & _ & _ & NE & K).
            apply in_bag_get in K as [c' K]. apply existsb_exists. exists facts.
            split; [now apply nth_error_In in NE|now rewrite K]. }
        split.
        - intros s c W. rewrite (proj2 (Q s)) by now exists c.
          destruct W as (_ & G & _). unfold update_data in G. fold targets in G. fold data in G.
          now rewrite G.
        - intros s NW. destruct (existsb _ (made st1)) eqn:E; [|reflexivity].
          apply Q in E as [c W]. now destruct (NW c).
      Qed.

      Lemma plan_extends :
        extends d (write_data d p) /\ extends d (write_schema (write_data d p) p) /\ extends d d3.
      Proof.
        pose proof fresh_le as FL.
        assert (p_fresh p = S (S fresh)) as F1 by now rewrite (pp_plan _ _ _ _ _ PP).
        assert (fst (p_schema p) = fresh) as F2 by now rewrite (pp_plan _ _ _ _ _ PP).
        assert (fst (p_index p) = S fresh) as F3 by now rewrite (pp_plan _ _ _ _ _ PP).
        assert (DA : forall n g, In (n, g) (p_data p) -> d_fresh d <= n).
        { intros n g I. apply p_data_in in I as [ids [I _]]. apply names_in in I. lia. }
        unfold d3. split; [|split]; constructor; cbn; try reflexivity; try lia;
          try (exists []; rewrite app_nil_r; now split);
          try (exists (p_data p); split; [reflexivity|exact DA]);
          eexists; (split; [reflexivity|]); intros n g [I|[]];
          [assert (n = fresh) by (rewrite <- F2; now rewrite I)|
           assert (n = fresh) by (rewrite <- F2; now rewrite I)|
           assert (n = S fresh) by (rewrite <- F3; now rewrite I)]; lia.
      Qed.

      Lemma plan_dir_ok :
        dir_ok (write_data d p) /\ dir_ok (write_schema (write_data d p) p) /\ dir_ok d3.
      Proof.
        pose proof fresh_le as FL.
        assert (p_fresh p = S (S fresh)) as F1 by now rewrite (pp_plan _ _ _ _ _ PP).
        assert (fst (p_schema p) = fresh) as F2 by now rewrite (pp_plan _ _ _ _ _ PP).
        assert (fst (p_index p) = S fresh) as F3 by now rewrite (pp_plan _ _ _ _ _ PP).
        assert (DA : forall n g, In (n, g) (d_data d ++ p_data p) -> n < S (S fresh)).
        { intros n g I. apply in_app_or in I as [I|I]; [pose proof (do_data d D n g I); lia|].
          apply p_data_in in I as [ids [I _]]. apply names_in in I. lia. }
        assert (DW : forall n g s c, In (n, g) (d_data d ++ p_data p) -> In (s, c) g -> content_wf c).
        { intros n g s c I J. apply in_app_or in I as [I|I]; [exact (do_wf d D n g s c I J)|].
          apply p_data_in in I as [ids [I ->]]. apply merged_bag_in in J as (j & facts & _ & NE & J).
          apply (content_ok_wf (snd s)), written_content, writes_iff.
          destruct PC as (_ & _ & H & _). apply (H facts); [|exact J]. now apply nth_error_In in NE. }
        assert (DS : forall n g, In (n, g) (d_schema d) -> n < S (S fresh)).
        { intros n g I. pose proof (do_schema d D n g I). lia. }
        assert (DI : forall n g, In (n, g) (d_index d) -> n < S (S fresh)).
        { intros n g I. pose proof (do_index d D n g I). lia. }
        assert (DS' : forall n g, In (n, g) (d_schema d ++ [p_schema p]) -> n < S (S fresh)).
        { intros n g I. apply in_app_or in I as [I|[I|[]]]; [now apply (DS n g)|].
          rewrite I in F2. cbn in F2. lia. }
        assert (DI' : forall n g, In (n, g) (d_index d ++ [p_index p]) -> n < S (S fresh)).
        { intros n g I. apply in_app_or in I as [I|[I|[]]]; [now apply (DI n g)|].
          rewrite I in F3. cbn in F3. lia. }
        unfold d3. split; [|split]; constructor;
          cbn [d_data d_schema d_index d_fresh write_data write_schema write_index]; rewrite ?F1;
          assumption.
      Qed.
    End Effect.
  End Plan.
End Updates.
