(** An acceptable update has a plan: the traversal of the new data finishes and
    knows all names. *)
From Coq Require Import String.
From Coq Require Import NArith ZArith List Bool PeanoNat Lia Permutation.
From Verif Require Import PathModel PathSpec PathProofs PathGenProofs PathCodecModel
  GraphModel GraphSpec GraphProofs GraphAnalysisProofs GraphHelperProofs
  SliceManagerModel SliceManagerSpec SliceManagerDataProofs SliceManagerProcessProofs
  SliceManagerLoadProofs SliceManagerUpdateProofs.
Import ListNotations.
Local Open Scope list_scope.
Local Open Scope nat_scope.

Definition unseen (univ seen : list N) : nat :=
  length (filter (fun o => negb (memN o seen)) univ).

Lemma unseen_le univ seen seen' : incl seen seen' -> unseen univ seen' <= unseen univ seen.
Proof.
  intros H. unfold unseen. induction univ as [|o univ IH]; [easy|]. cbn [filter].
  destruct (memN o seen) eqn:E1, (memN o seen') eqn:E2; cbn; try lia.
  apply memN_in in E1. apply H, memN_in in E1. congruence.
Qed.

Lemma unseen_lt univ seen seen' o : incl seen seen' -> In o univ -> ~ In o seen ->
  In o seen' -> unseen univ seen' < unseen univ seen.
Proof.
  intros H I N J. induction univ as [|x univ IH]; [easy|].
  unfold unseen in *. cbn [filter]. destruct I as [->|I].
  - assert (memN o seen = false) as ->.
    { destruct (memN o seen) eqn:E; [|reflexivity]. now apply memN_in in E. }
    rewrite (proj2 (memN_in o seen') J). cbn.
    pose proof (unseen_le univ seen seen' H) as Q. unfold unseen in Q. lia.
  - specialize (IH I). destruct (memN x seen) eqn:E1, (memN x seen') eqn:E2; cbn; try lia.
    apply memN_in in E1. apply H, memN_in in E1. congruence.
Qed.

Lemma assign_known l n j : In n (map fst l) ->
  exists l', assign l n j = Some l' /\ map fst l' = map fst l.
Proof.
  induction l as [|[m ids] l IH]; [easy|]. cbn. intros I. destruct (text_eqb m n) eqn:E.
  - eexists. split; [reflexivity|reflexivity].
  - destruct I as [->|I]; [now rewrite text_eqb_refl in E|].
    destruct (IH I) as [l' [-> K]]. eexists. split; [reflexivity|]. cbn. now rewrite K.
Qed.

Section Total.
  Variable lx : lexicon.
  Variable data : bag.
  Variable b : schema_bag.
  Variable known : list text.
  Hypothesis K : forall id a x, child b id a = Some x ->
    exists n, names lx (Some (SNode id, a)) x n /\ In n known.
  Variable univ : list N.
  Hypothesis UN : incl (bag_objects data) univ.

  Definition total_at (f : progress -> text -> list N -> outcome progress) (bound : nat) : Prop :=
    forall st id os, incl os univ -> map fst (assigned st) = known ->
      unseen univ (seen st) < bound ->
      exists st', f st id os = Done st' /\ incl (seen st) (seen st')
        /\ map fst (assigned st') = known.

  Lemma assign_name_total l id a x j : map fst l = known -> child b id a = Some x ->
    exists l', assign_name lx l (Some (SNode id, a)) x j = Done l' /\ map fst l' = known.
  Proof.
    intros M CH. destruct (K id a x CH) as (n & NM & I). unfold assign_name.
    apply node_name_iff in NM. rewrite NM. cbn [andthen of_result]. rewrite <- M in I.
    destruct (assign_known l n j I) as [l' [-> Q]]. exists l'. split; [reflexivity|congruence].
  Qed.

  Lemma objects_app l k : objects (l ++ k) = objects l ++ objects k.
  Proof. unfold objects. apply flat_map_app. Qed.

  Lemma read_in_univ o f c i : bag_get data (o, f) = Some c -> In i (objects (content_items c)) ->
    In i univ.
  Proof.
    intros G I. apply UN. unfold bag_objects. apply in_flat_map.
    exists ((o, f), c). split; [now apply bag_get_in|exact I].
  Qed.

  Lemma attr_objects os s :
    incl (objects (map (fun o => attr_of (bag_get data) (Some (Obj o)) s) os)) univ.
  Proof.
    intros i I. apply objects_in in I. apply in_map_iff in I as [o [E _]].
    apply attr_of_read in E as [c [G J]]. apply (read_in_univ o (FAttr s) c i G).
    apply objects_in. destruct c; cbn in *; tauto.
  Qed.
  Lemma items_objects os :
    incl (objects (flat_map (fun o => items_of (bag_get data) (Some (Obj o))) os)) univ.
  Proof.
    intros i I. apply objects_in in I. apply in_flat_map in I as [o [_ E]].
    apply items_of_read in E as [c [G J]]. apply (read_in_univ o FItems c i G).
    apply objects_in. destruct c; cbn in *; tauto.
  Qed.
  Lemma keys_objects os :
    incl (objects (flat_map (fun o => keys_of (bag_get data) (Some (Obj o))) os)) univ.
  Proof.
    intros i I. apply objects_in in I. apply in_flat_map in I as [o [_ E]].
    apply keys_of_read in E as [c [G J]]. apply (read_in_univ o FEntries c i G).
    apply objects_in. destruct c; cbn in *; try tauto. apply in_or_app. now left.
  Qed.
  Lemma values_objects os :
    incl (objects (flat_map (fun o => values_of (bag_get data) (Some (Obj o))) os)) univ.
  Proof.
    intros i I. apply objects_in in I. apply in_flat_map in I as [o [_ E]].
    apply values_of_read in E as [c [G J]]. apply (read_in_univ o FEntries c i G).
    apply objects_in. destruct c; cbn in *; try tauto. apply in_or_app. now right.
  Qed.

  Section Step.
    Variable f : progress -> text -> list N -> outcome progress.
    Variable bound : nat.
    Hypothesis F : total_at f bound.

    Lemma descend_total st x l : incl (objects l) univ -> map fst (assigned st) = known ->
      unseen univ (seen st) < bound ->
      exists st', descend b f st x l = Done st' /\ incl (seen st) (seen st')
        /\ map fst (assigned st') = known.
    Proof.
      intros I M L. unfold descend. destruct (non_leaf b x) as [id|].
      - now apply F.
      - exists st. split; [reflexivity|]. split; [apply incl_refl|exact M].
    Qed.

    Lemma attrs_total id os attrs : forall st,
      (forall s x, In (s, x) attrs -> child b id (GetAttr s) = Some x) ->
      map fst (assigned st) = known -> unseen univ (seen st) < bound ->
      exists st', process_attrs lx data b f st id os attrs = Done st'
        /\ incl (seen st) (seen st') /\ map fst (assigned st') = known.
    Proof.
      induction attrs as [|[s x] attrs IH]; intros st A M L.
      - exists st. split; [reflexivity|]. split; [apply incl_refl|exact M].
      - cbn [process_attrs].
        assert (A' : forall s x, In (s, x) attrs -> child b id (GetAttr s) = Some x)
          by (intros s' x' I; apply A; now right).
        destruct (minimal_bag data os (FAttr s)) as [|fc facts]; [now apply IH|].
        destruct (assign_name_total (assigned st) id (GetAttr s) x (length (made st)) M)
          as [l' [-> M']]; [apply A; now left|]. cbn [andthen].
        destruct (descend_total (Progress (seen st) (made st ++ [fc :: facts]) l') x
                    (map (fun o => attr_of (bag_get data) (Some (Obj o)) s) os))
          as (st1 & -> & I1 & M1); [apply attr_objects|exact M'|exact L|]. cbn [andthen].
        cbn [seen] in I1. destruct (IH st1 A' M1) as (st2 & -> & I2 & M2).
        { pose proof (unseen_le univ _ _ I1). lia. }
        exists st2. split; [reflexivity|]. split; [|exact M2]. eapply incl_tran; eassumption.
    Qed.

    Lemma list_total id os x st : child b id ListExplode = Some x ->
      map fst (assigned st) = known -> unseen univ (seen st) < bound ->
      exists st', process_list lx data b f st id os x = Done st'
        /\ incl (seen st) (seen st') /\ map fst (assigned st') = known.
    Proof.
      intros CH M L. unfold process_list.
      destruct (minimal_bag data os FItems) as [|fc facts].
      - exists st. split; [reflexivity|]. split; [apply incl_refl|exact M].
      - destruct (assign_name_total (assigned st) id ListExplode x (length (made st)) M CH)
          as [l' [-> M']]. cbn [andthen].
        apply (descend_total (Progress (seen st) (made st ++ [fc :: facts]) l'));
          [apply items_objects|exact M'|exact L].
    Qed.

    Lemma dict_total id os k v st : child b id DictGetKeys = Some k ->
      child b id DictGetValues = Some v ->
      map fst (assigned st) = known -> unseen univ (seen st) < bound ->
      exists st', process_dict lx data b f st id os k v = Done st'
        /\ incl (seen st) (seen st') /\ map fst (assigned st') = known.
    Proof.
      intros CK CV M L. unfold process_dict.
      destruct (minimal_bag data os FEntries) as [|fc facts].
      - exists st. split; [reflexivity|]. split; [apply incl_refl|exact M].
      - destruct (assign_name_total (assigned st) id DictGetKeys k (length (made st)) M CK)
          as [l1 [-> M1]]. cbn [andthen].
        destruct (assign_name_total l1 id DictGetValues v (length (made st)) M1 CV)
          as [l2 [-> M2]]. cbn [andthen].
        destruct (descend_total (Progress (seen st) (made st ++ [fc :: facts]) l2) k
                    (flat_map (fun o => keys_of (bag_get data) (Some (Obj o))) os))
          as (st1 & -> & I1 & M3); [apply keys_objects|exact M2|exact L|]. cbn [andthen].
        cbn [seen] in I1.
        destruct (descend_total st1 v
                    (flat_map (fun o => values_of (bag_get data) (Some (Obj o))) os))
          as (st2 & -> & I2 & M4); [apply values_objects|exact M3| |].
        { pose proof (unseen_le univ _ _ I1). lia. }
        exists st2. split; [reflexivity|]. split; [|exact M4]. eapply incl_tran; eassumption.
    Qed.
  End Step.

  Lemma process_total (B : schema_bag_ok b) fuel : total_at (process lx data b fuel) fuel.
  Proof.
    induction fuel as [|fuel IH]; intros st id os I M L; [lia|].
    cbn [process]. cbv zeta.
    destruct (filter (fun o => negb (memN o (seen st))) os) as [|o new] eqn:FN.
    - exists st. split; [reflexivity|]. split; [apply incl_refl|exact M].
    - assert (IO : In o os /\ ~ In o (seen st)).
      { assert (Q : In o (filter (fun o => negb (memN o (seen st))) os)) by (rewrite FN; now left).
        apply filter_In in Q as [Q1 Q2]. split; [exact Q1|]. intros J. apply memN_in in J.
        now rewrite J in Q2. }
      destruct IO as [IO NO].
      assert (LT : unseen univ (seen st ++ os) < fuel).
      { assert (unseen univ (seen st ++ os) < unseen univ (seen st)); [|lia].
        apply (unseen_lt univ (seen st) (seen st ++ os) o);
          [apply incl_appl, incl_refl|now apply I|exact NO|apply in_or_app; now right]. }
      assert (Q : forall st', incl (seen st ++ os) (seen st') -> incl (seen st) (seen st')).
      { intros st' J. eapply incl_tran; [|exact J]. apply incl_appl, incl_refl. }
      destruct (lookup b id) as [x|k v|attrs] eqn:LK.
      + destruct (list_total (process lx data b fuel) fuel IH id (o :: new) x
                    (Progress (seen st ++ os) (made st) (assigned st)))
          as (st' & -> & J & M'); [unfold child; cbn; now rewrite LK|exact M|exact LT|].
        exists st'. split; [reflexivity|]. split; [now apply Q|exact M'].
      + destruct (dict_total (process lx data b fuel) fuel IH id (o :: new) k v
                    (Progress (seen st ++ os) (made st) (assigned st)))
          as (st' & -> & J & M');
          [unfold child; cbn; now rewrite LK|unfold child; cbn; now rewrite LK|exact M|exact LT|].
        exists st'. split; [reflexivity|]. split; [now apply Q|exact M'].
      + destruct (attrs_total (process lx data b fuel) fuel IH id (o :: new) attrs
                    (Progress (seen st ++ os) (made st) (assigned st)))
          as (st' & -> & J & M'); [|exact M|exact LT|].
        { intros s x J. unfold child. cbn. rewrite LK. apply in_attr_schema; [exact (B _ _ LK)|exact J]. }
        exists st'. split; [reflexivity|]. split; [now apply Q|exact M'].
  Qed.
End Total.

Section PlanTotal.
  Variable lx : lexicon.
  Variable pop : list text -> option (text * list text).
  Hypothesis C : codec_ok lx.
  Hypothesis P : pop_ok pop.
  Variable ty : N -> text.
  Variable struct : text -> option node.
  Hypothesis SO : struct_ok struct.
  Variable root : N.
  Variable root_schema : text.
  Hypothesis RT : ty root = root_schema.
  Hypothesis RP : plain (SNode root_schema).
  Variables (d : dir) (revs : list revision) (b : schema_bag) (st : state).
  Hypothesis O : rev_ok lx ty struct root_schema d revs b st.
  Variable m : manager.
  Hypothesis M1 : m_revisions m = revs.
  Hypothesis M2 : m_schema m = b.
  Hypothesis M3 : m_read_only m = false.
  Variable u : change.
  Variable at_id : text.
  Hypothesis AT : schema_along (st_child st) (SNode root_schema) (u_path u) = Some (SNode at_id).
  Hypothesis U : change_ok ty struct root lx st u at_id.
  Hypothesis AE : struct at_id = None.
  Hypothesis US : supported (u_schemas u) (u_schema u).
  Hypothesis UL : length (targets_of root st (u_path u)) = length (u_values u).

  Lemma plan_total : exists p, plan_update lx pop root root_schema d m u = Done p.
  Proof.
    unfold plan_update. rewrite M3.
    destruct (rev_helper lx pop ty struct root_schema RP d revs b st O m M1 M2) as [h [H1 H2]].
    rewrite H1. cbn [andthen].
    pose proof (rev_graph_ok lx ty struct root_schema RP d revs b st O) as W.
    pose proof (at_leads lx ty struct root_schema d revs b st O u at_id AT) as AL.
    destruct (leads_arrives b None _ _ _ AL) as [o A].
    rewrite (proj2 (name_of_path_iff lx pop b _ W h H2 (u_path u) at_id)).
    2: { exists o, (SNode at_id). split; [exact A|constructor]. }
    cbn [andthen of_result].
    assert (SA : subschema_at h at_id = Ok (SNode at_id)).
    { apply (subschema_at_ok lx pop b _ W C h H2 (u_path u) o); [exact A|constructor]. }
    rewrite SA. cbn [andthen of_result]. rewrite M2.
    destruct (leads_ok lx struct b _ _ _ (ro_bag _ _ _ _ _ _ _ _ O) RP (ro_root _ _ _ _ _ _ _ _ O) AL)
      as [AP AN].
    cbn in AN. rewrite AE in AN. destruct AN as [attrs LA].
    cbn [is_entity_schema]. rewrite LA. cbn [negb].
    pose proof U as (U1 & U2 & U3 & U4 & U5 & U6 & U7).
    destruct (affected_ok lx pop b _ W h H2 at_id (u_attr u) (u_schemas u) (u_schema u) at_id attrs
                SA LA (graph_ok_of lx struct _ _ U1 U2 U3) U4)
      as [[f [AF FF]]|[SUP [affected [AF [ND AFF]]]]].
    { exfalso. destruct FF as [[_ [q L]]|[_ [q L]]]; destruct (US q _ L); congruence. }
    rewrite AF. cbn [andthen of_result].
    destruct (load_ok lx pop P ty struct root root_schema RT RP d revs b st O m M1 M2 [u_path u] [])
      as (s & ns & L1 & L2 & L3 & L4 & L5).
    { constructor; [|constructor]. rewrite AT. discriminate. }
    rewrite L1. cbn [andthen]. unfold flattened_slice.
    destruct (slice_schema (s_schema s) (SNode root_schema) (u_path u)) as [y|] eqn:SS.
    2: { exfalso. apply (L5 (u_path u) []); [left; rewrite app_nil_r; now left| |exact SS].
         rewrite app_nil_r, AT. discriminate. }
    destruct (L4 _ _ SS) as (Q1 & Q2 & Q3 & Q4). rewrite Q3. cbn [andthen].
    rewrite UL, Nat.eqb_refl. cbn [negb]. cbv zeta.
    set (targets := targets_of root st (u_path u)) in *.
    set (data := stub_data u targets) in *. set (b' := stub_schemas u at_id) in *.
    assert (B' : bag_ok struct lx b') by (now apply (stub_bag_ok lx ty struct root root_schema)).
    assert (CH' : forall id a, child b' id a = update_child u at_id id a).
    { intros id a. unfold b'. apply (stub_child lx ty struct root root_schema); assumption. }
    assert (SUP' : forall id a x, child b' id a = Some x -> x <> SObject /\ x <> SSchema).
    { intros id a x E. rewrite CH' in E. unfold update_child in E.
      destruct (text_eqb id at_id && action_eqb a (GetAttr (u_attr u))).
      - assert (x = u_schema u) as -> by congruence. apply (US []). constructor.
      - destruct (U5 _ _ _ E) as [q L]. apply (US (q ++ [a])). apply leads_app.
        exists (SNode id). split; [exact L|]. apply child_leads; [apply U1|exact E]. }
    assert (N' : node_ok struct b' (SNode at_id)).
    { cbn. rewrite AE. destruct (at_lookup lx struct u at_id U1 AE) as [xs LX].
      eexists. exact (stub_lookup_at u at_id xs LX). }
    destruct (proj2 (make_helper_iff lx pop b' (SNode at_id)
                (graph_ok_of lx struct _ _ B' AP N'))) as [h' H3].
    { intros q y' L. destruct q as [|a q _] using rev_ind.
      - inversion L; subst. now split.
      - apply leads_snoc in L as [z [L' I]].
        assert (exists id, z = SNode id) as [id ->].
        { destruct z; try (cbn in I; easy). now eexists. }
        apply (SUP' id a). apply child_leads; [apply B'|]. now apply step_expand. }
    rewrite H3. cbn [andthen of_result].
    destruct (process_total lx data b' affected) with
      (univ := objects targets ++ bag_objects data)
      (fuel := S (length (objects targets ++ bag_objects data)))
      (st := Progress [] [] (map (fun n => (n, @nil nat)) affected)) (id := at_id) (os := objects targets)
      as (st1 & PR & _).
    - intros id a x E.
      destruct (SUP' id a x E) as [X1 X2].
      assert (exists n, names lx (Some (SNode id, a)) x n) as [n NM].
      { destruct (proj2 B' id a x E) as (_ & _ & PR & _).
        destruct x as [id'|t| |]; try easy.
        - exists id'. constructor.
        - apply operation_printable in PR as [op OP]. eexists. exact (names_leaf lx _ _ op _ OP). }
      exists n. split; [exact NM|]. apply AFF. rewrite CH' in E. unfold update_child in E.
      destruct (text_eqb id at_id && action_eqb a (GetAttr (u_attr u))) eqn:Q.
      + apply andb_true_iff in Q as [E1 E2]. apply text_eqb_eq in E1. apply action_eqb_eq in E2.
        subst id a. assert (x = u_schema u) as -> by congruence.
        exists [], (Some (SNode at_id, GetAttr (u_attr u))), (u_schema u).
        split; [constructor|exact NM].
      + destruct (U5 _ _ _ E) as [q L].
        destruct (leads_arrives (u_schemas u) (Some (SNode at_id, GetAttr (u_attr u)))
                    (u_schema u) q (SNode id) L) as [o' A'].
        exists (q ++ [a]), (Some (SNode id, a)), x. split; [|exact NM].
        apply (arrives_step _ _ _ q o' (SNode id) a x A').
        apply child_leads; [apply U1|exact E].
    - apply incl_appr, incl_refl.
    - apply B'.
    - apply incl_appl, incl_refl.
    - cbn [assigned]. rewrite map_map. cbn [fst]. apply map_id.
    - cbn [seen]. unfold unseen. apply Nat.lt_succ_r. clear. induction (objects targets ++ bag_objects data) as [|x l IH]; [easy|].
      cbn in IH |- *. lia.
    - rewrite PR. cbn [andthen]. eexists. reflexivity.
  Qed.
End PlanTotal.
