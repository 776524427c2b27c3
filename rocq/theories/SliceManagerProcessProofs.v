(** The traversal of an update finds all that it should write, and files it under
    the right names. *)
From Coq Require Import String.
From Coq Require Import NArith ZArith List Bool PeanoNat Lia.
From Verif Require Import PathModel PathSpec PathProofs PathGenProofs GraphModel
  GraphSpec GraphProofs SliceManagerModel SliceManagerSpec SliceManagerDataProofs.
Import ListNotations.
Local Open Scope list_scope.
Local Open Scope nat_scope.

Lemma memN_in o l : memN o l = true <-> In o l.
Proof.
  unfold memN. rewrite existsb_exists. split.
  - intros [x [I E]]. apply N.eqb_eq in E. now subst.
  - intros I. exists o. split; [exact I|apply N.eqb_refl].
Qed.

Lemma unique_in l o : In o (unique l) <-> In o l.
Proof.
  unfold unique.
  assert (Q : forall l k, In o (fold_left (fun l o => if memN o l then l else l ++ [o]) l k)
            <-> In o k \/ In o l).
  { clear l. induction l as [|x l IH]; intros k; cbn [fold_left]; [cbn; tauto|].
    rewrite IH. destruct (memN x k) eqn:M.
    - apply memN_in in M. cbn. intuition congruence.
    - rewrite in_app_iff. cbn. tauto. }
  rewrite Q. cbn. tauto.
Qed.

Lemma objects_in l o : In o (objects l) <-> In (Some (Obj o)) l.
Proof.
  unfold objects. rewrite in_flat_map. split.
  - intros [[[x|x]|] [I H]]; cbn in H; try easy. destruct H as [->|[]]. exact I.
  - intros I. exists (Some (Obj o)). split; [exact I|now left].
Qed.

Lemma minimal_bag_in data os f s c :
  In (s, c) (minimal_bag data os f)
  <-> In (fst s) os /\ snd s = f /\ bag_get data s = Some c.
Proof.
  unfold minimal_bag. rewrite in_flat_map. split.
  - intros [o [I H]]. rewrite unique_in in I. destruct (bag_get data (o, f)) as [c'|] eqn:G; [|easy].
    destruct H as [H|[]]. assert ((o, f) = s /\ c' = c) as [<- <-] by (split; congruence).
    split; [exact I|]. split; [reflexivity|exact G].
  - destruct s as [o g]. cbn [fst snd]. intros (I & -> & G). exists o.
    split; [now rewrite unique_in|]. rewrite G. now left.
Qed.

Lemma assign_get l n id l' : assign l n id = Some l' ->
  map fst l' = map fst l
  /\ (exists ids, index_get l n = Some ids /\ index_get l' n = Some (ids ++ [id]))
  /\ forall m, m <> n -> index_get l' m = index_get l m.
Proof.
  revert l'. induction l as [|[m ids] l IH]; intros l'; cbn; [discriminate|].
  destruct (text_eqb m n) eqn:E.
  - intros H; injection H as <-. apply text_eqb_eq in E. subst m. cbn.
    rewrite text_eqb_refl. split; [reflexivity|]. split; [now exists ids|].
    intros m D. destruct (text_eqb n m) eqn:F; [|reflexivity].
    apply text_eqb_eq in F. congruence.
  - destruct (assign l n id) as [k|] eqn:A; [|discriminate].
    intros H; injection H as <-. destruct (IH k eq_refl) as (H1 & H2 & H3). cbn.
    rewrite E. split; [now rewrite H1|]. split; [exact H2|].
    intros m' D. now destruct (text_eqb m m'); [|apply H3].
Qed.

Section Process.
  Variable lx : lexicon.
  Variable ty : N -> text.
  Variable data : bag.
  Variable b : schema_bag.
  Hypothesis B : schema_bag_ok b.
  Hypothesis TY : typed ty (child b) (bag_get data).
  Variable targets : list N.

  Local Notation reached := (reached ty (child b) (bag_get data) targets).
  Local Notation writes := (writes ty (child b) (bag_get data) targets).

  Definition kept (st st' : progress) : Prop :=
    incl (seen st) (seen st')
    /\ (exists k, made st' = made st ++ k)
    /\ map fst (assigned st') = map fst (assigned st)
    /\ (forall n ids, index_get (assigned st) n = Some ids ->
          exists ids', index_get (assigned st') n = Some (ids ++ ids')).

  Lemma kept_refl st : kept st st.
  Proof.
    split; [apply incl_refl|]. split; [exists []; now rewrite app_nil_r|].
    split; [reflexivity|]. intros n ids H. exists []. now rewrite app_nil_r.
  Qed.

  Lemma kept_trans st1 st2 st3 : kept st1 st2 -> kept st2 st3 -> kept st1 st3.
  Proof.
    intros (A1 & [k1 A2] & A3 & A4) (B1 & [k2 B2] & B3 & B4).
    split; [now apply incl_tran with (seen st2)|].
    split; [exists (k1 ++ k2); rewrite B2, A2; now rewrite app_assoc|].
    split; [congruence|]. intros n ids H. destruct (A4 n ids H) as [ids1 H1].
    destruct (B4 n _ H1) as [ids2 H2]. exists (ids1 ++ ids2). now rewrite app_assoc.
  Qed.

  (** What is known about a field of an item id was written under the name of the
      child, and the values there were visited. *)
  Definition done_at (st : progress) (o : N) (a : action) (x : schema) : Prop :=
    forall c, bag_get data (o, field_of a) = Some c ->
      (exists n ids j facts,
         names lx (Some (SNode (ty o), a)) x n /\ index_get (assigned st) n = Some ids
         /\ In j ids /\ nth_error (made st) j = Some facts
         /\ In ((o, field_of a), c) facts)
      /\ (forall o' id, In (Some (Obj o')) (items_read a c) ->
            non_leaf b x = Some id -> In o' (seen st)).

  Definition done (st : progress) (o : N) : Prop :=
    forall a x, child b (ty o) a = Some x -> done_at st o a x.

  Lemma done_at_mono st st' o a x : kept st st' -> done_at st o a x -> done_at st' o a x.
  Proof.
    intros (A1 & [k A2] & A3 & A4) D c G. destruct (D c G) as [(n & ids & j & facts & H1 & H2 & H3 & H4 & H5) D2].
    split.
    - destruct (A4 n ids H2) as [ids' H6]. exists n, (ids ++ ids'), j, facts.
      split; [exact H1|]. split; [exact H6|]. split; [apply in_or_app; now left|].
      split; [|exact H5]. rewrite A2. rewrite nth_error_app1; [exact H4|].
      apply nth_error_Some. congruence.
    - intros o' id I NL. apply A1. now apply (D2 o' id).
  Qed.

  Lemma done_mono st st' o : kept st st' -> done st o -> done st' o.
  Proof. intros K D a x C. apply (done_at_mono st st' o a x K). now apply D. Qed.

  (** A field of an item id belongs to a name. *)
  Definition belongs (s : slot) (n : text) : Prop :=
    exists a x, child b (ty (fst s)) a = Some x /\ field_of a = snd s
      /\ names lx (Some (SNode (ty (fst s)), a)) x n.

  Definition sound (st : progress) : Prop :=
    (forall o, In o (seen st) -> reached o)
    /\ (forall facts s c, In facts (made st) -> In (s, c) facts -> writes s c)
    /\ (forall n ids j, index_get (assigned st) n = Some ids -> In j ids ->
          exists facts, nth_error (made st) j = Some facts
            /\ forall s c, In (s, c) facts -> belongs s n).

  (** All that was seen since [st] is done. *)
  Definition since (st st' : progress) : Prop :=
    forall o, In o (seen st') -> In o (seen st) \/ done st' o.

  Lemma since_trans st1 st2 st3 :
    kept st2 st3 -> since st1 st2 -> since st2 st3 -> since st1 st3.
  Proof.
    intros K S1 S2 o I. destruct (S2 o I) as [J|D]; [|now right].
    destruct (S1 o J) as [|D]; [now left|]. right. now apply (done_mono st2).
  Qed.

  Definition proper (id : text) (os : list N) : Prop :=
    forall o, In o os -> ty o = id /\ reached o.

  Definition result_ok (st : progress) (os : list N) (st' : progress) : Prop :=
    sound st' /\ kept st st' /\ since st st' /\ incl os (seen st').

  Definition process_ok (process : progress -> text -> list N -> outcome progress) : Prop :=
    forall st id os st', process st id os = Done st' -> proper id os -> sound st ->
      result_ok st os st'.

  Section Body.
    Variable rec : progress -> text -> list N -> outcome progress.
    Hypothesis R : process_ok rec.

    Lemma descend_ok st x l st' :
      descend b rec st x l = Done st' -> sound st ->
      (forall o id, In (Some (Obj o)) l -> x = SNode id -> ty o = id /\ reached o) ->
      sound st' /\ kept st st' /\ since st st'
      /\ (forall o id, In (Some (Obj o)) l -> non_leaf b x = Some id -> In o (seen st')).
    Proof.
      unfold descend. intros E S P. destruct (non_leaf b x) as [id|] eqn:NL.
      - assert (x = SNode id).
        { unfold non_leaf in NL. destruct x; try discriminate.
          destruct (expand_schema b (SNode id0)); congruence. }
        destruct (R _ _ _ _ E) as (H1 & H2 & H3 & H4).
        + intros o I. apply objects_in in I. now apply P.
        + exact S.
        + repeat (split; [assumption|]). intros o id' I _. apply H4. now apply objects_in.
      - assert (st = st') by congruence. subst st'.
        split; [exact S|]. split; [apply kept_refl|]. split; [intros o I; now left|].
        discriminate.
    Qed.

    (** Adding a bag for one field. *)
    Lemma assign_kept st o x l facts :
      assign_name lx (assigned st) o x (length (made st)) = Done l ->
      kept st (Progress (seen st) (made st ++ [facts]) l)
      /\ exists n ids, names lx o x n
           /\ index_get l n = Some (ids ++ [length (made st)]).
    Proof.
      unfold assign_name. destruct (node_name lx o x) as [n|f] eqn:NN; [|discriminate].
      cbn. destruct (assign (assigned st) n (length (made st))) as [l'|] eqn:A; [|discriminate].
      intros E. assert (l' = l) by congruence. subst l'.
      destruct (assign_get _ _ _ _ A) as (H1 & [ids [H2 H3]] & H4). split.
      - split; [apply incl_refl|]. split; [now exists [facts]|]. split; [exact H1|].
        intros m ids' G. cbn [assigned]. destruct (text_eqb m n) eqn:E2.
        + apply text_eqb_eq in E2. subst m. exists [length (made st)]. congruence.
        + exists []. rewrite app_nil_r, H4; [exact G|]. intros ->. now rewrite text_eqb_refl in E2.
      - exists n, ids. split; [now apply node_name_iff|exact H3].
    Qed.

    (** What the new lists consist of. *)
    Definition assigned_from (st : progress) (id : text) (f : field)
        (l : list (text * list nat)) : Prop :=
      forall n ids j, index_get l n = Some ids -> In j ids ->
        (exists ids0, index_get (assigned st) n = Some ids0 /\ In j ids0)
        \/ (j = length (made st) /\ exists a x, child b id a = Some x /\ field_of a = f
              /\ names lx (Some (SNode id, a)) x n).

    Lemma assign_from_self st id f : assigned_from st id f (assigned st).
    Proof. intros n ids j G I. left. now exists ids. Qed.

    Lemma assign_from st id f a x l l' :
      child b id a = Some x -> field_of a = f -> assigned_from st id f l ->
      assign_name lx l (Some (SNode id, a)) x (length (made st)) = Done l' ->
      assigned_from st id f l'.
    Proof.
      intros C F A E n ids j G I. unfold assign_name in E.
      destruct (node_name lx (Some (SNode id, a)) x) as [m|e] eqn:NN; [|discriminate].
      cbn in E. destruct (assign l m (length (made st))) as [l2|] eqn:AS; [|discriminate].
      assert (l2 = l') by congruence. subst l2.
      destruct (assign_get _ _ _ _ AS) as (_ & (ids1 & G1 & G2) & G3).
      destruct (text_eqb n m) eqn:NM.
      - apply text_eqb_eq in NM. subst m. assert (ids = ids1 ++ [length (made st)]) by congruence. subst ids.
        apply in_app_iff in I as [I|[<-|[]]]; [now apply (A n ids1)|].
        right. split; [reflexivity|]. exists a, x. split; [exact C|]. split; [exact F|].
        now apply node_name_iff.
      - rewrite G3 in G; [now apply (A n ids)|]. intros ->. now rewrite text_eqb_refl in NM.
    Qed.

    Lemma minimal_sound st os f l id a x :
      sound st -> proper id os -> child b id a = Some x -> field_of a = f ->
      assigned_from st id f l ->
      sound (Progress (seen st) (made st ++ [minimal_bag data os f]) l).
    Proof.
      intros (S1 & S2 & S3) P C F AF. split; [exact S1|]. cbn [made assigned]. split.
      - intros facts s c I J.
        apply in_app_iff in I as [I|[<-|[]]]; [now apply (S2 facts)|].
        apply minimal_bag_in in J as (J1 & J2 & J3). destruct (P _ J1) as [T RO].
        split; [exact RO|]. split; [exact J3|]. exists a, x.
        split; [congruence|congruence].
      - intros n ids j G I. destruct (AF n ids j G I) as [(ids0 & G0 & I0)|(-> & a' & x' & C' & F' & N')].
        + destruct (S3 n ids0 j G0 I0) as (facts & H1 & H2). exists facts. split; [|exact H2].
          rewrite nth_error_app1; [exact H1|]. apply nth_error_Some. congruence.
        + eexists. split; [rewrite nth_error_app2, Nat.sub_diag by lia; reflexivity|].
          intros s c J. apply minimal_bag_in in J as (J1 & J2 & J3). destruct (P _ J1) as [T RO].
          exists a', x'. rewrite T. split; [exact C'|]. split; [congruence|exact N'].
    Qed.

    (** The values of a field of proper item ids are proper. *)
    Lemma values_proper id os a x o' id' o c :
      proper id os -> child b id a = Some x -> In o os ->
      bag_get data (o, field_of a) = Some c -> In (Some (Obj o')) (items_read a c) ->
      x = SNode id' -> ty o' = id' /\ reached o'.
    Proof.
      intros P C I G J ->. destruct (P o I) as [T RO]. split.
      - pose proof (TY o a (SNode id') c (Some (Obj o'))) as Q. rewrite T in Q.
        exact (Q C G J).
      - apply (reached_step _ _ _ _ o a id' c o' RO); [now rewrite T|exact G|exact J].
    Qed.

    Lemma attr_item o s o' :
      attr_of (bag_get data) (Some (Obj o)) s = Some (Obj o') ->
      exists c, bag_get data (o, FAttr s) = Some c
        /\ In (Some (Obj o')) (items_read (GetAttr s) c).
    Proof.
      cbn. destruct (bag_get data (o, FAttr s)) as [[v|l|l]|]; try discriminate.
      intros ->. eexists. split; [reflexivity|]. now left.
    Qed.

    Lemma process_attrs_ok attrs : forall st id os st',
      process_attrs lx data b rec st id os attrs = Done st' ->
      proper id os -> sound st ->
      (forall s x, In (s, x) attrs -> child b id (GetAttr s) = Some x) ->
      sound st' /\ kept st st' /\ since st st'
      /\ (forall o s x, In o os -> In (s, x) attrs -> done_at st' o (GetAttr s) x).
    Proof.
      induction attrs as [|[s x] attrs IH]; intros st id os st' E P S C.
      - cbn in E. assert (st = st') by congruence. subst st'.
        split; [exact S|]. split; [apply kept_refl|]. split; [intros o I; now left|easy].
      - cbn [process_attrs] in E.
        assert (C0 : child b id (GetAttr s) = Some x) by (apply C; now left).
        assert (C1 : forall s x, In (s, x) attrs -> child b id (GetAttr s) = Some x)
          by (intros; apply C; now right).
        destruct (minimal_bag data os (FAttr s)) as [|f fs] eqn:MB.
        + destruct (IH _ _ _ _ E P S C1) as (H1 & H2 & H3 & H4).
          repeat (split; [assumption|]). intros o t y I [J|J]; [|now apply H4].
          assert (s = t /\ x = y) as [<- <-] by (split; congruence).
          intros c G. exfalso.
          assert (Q : In ((o, FAttr s), c) (minimal_bag data os (FAttr s))).
          { apply minimal_bag_in. now repeat split. }
          now rewrite MB in Q.
        + rewrite <- MB in E. clear MB f fs.
          destruct (assign_name lx (assigned st) (Some (SNode id, GetAttr s)) x (length (made st)))
            as [l|] eqn:A; [|discriminate]. cbn [andthen] in E.
          destruct (assign_kept _ _ _ _ (minimal_bag data os (FAttr s)) A) as [K1 (n & ids & N1 & N2)].
          set (st1 := Progress (seen st) (made st ++ [minimal_bag data os (FAttr s)]) l) in *.
          assert (S1 : sound st1).
          { apply (minimal_sound st os (FAttr s) l id (GetAttr s) x); try easy.
            apply (assign_from st id (FAttr s) (GetAttr s) x (assigned st)); try easy.
            apply assign_from_self. }
          match type of E with
          | andthen ?t _ = _ => destruct t as [st2|] eqn:D; [|discriminate]
          end. cbn [andthen] in E.
          destruct (descend_ok _ _ _ _ D S1) as (S2 & K2 & N3 & V).
          { intros o' id' I EX. apply in_map_iff in I as [o [I J]].
            apply attr_item in I as [c [G I]].
            now apply (values_proper id os (GetAttr s) x o' id' o c). }
          destruct (IH _ _ _ _ E P S2 C1) as (S3 & K3 & N4 & W).
          split; [exact S3|]. split; [now apply (kept_trans st st2); [apply (kept_trans st st1)|]|].
          split.
          { apply (since_trans st st2 st'); [exact K3| |exact N4].
            intros o I. destruct (N3 o I) as [J|J]; [left; exact J|now right]. }
          intros o t y I [J|J]; [|now apply W].
          assert (s = t /\ x = y) as [<- <-] by (split; congruence).
          apply (done_at_mono st2 st' o (GetAttr s) x K3). intros c G. split.
          * destruct K2 as (_ & [k K2] & _ & K2').
            destruct (K2' n _ N2) as [ids' N2'].
            exists n, ((ids ++ [length (made st)]) ++ ids'), (length (made st)), (minimal_bag data os (FAttr s)).
            destruct (P o I) as [T _]. rewrite T. split; [exact N1|]. split; [exact N2'|].
            split; [apply in_or_app; left; apply in_or_app; right; now left|].
            split.
            { rewrite K2. unfold st1. cbn [made]. rewrite <- app_assoc, nth_error_app2 by lia.
              now rewrite Nat.sub_diag. }
            apply minimal_bag_in. now repeat split.
          * intros o' id' II NL. apply (V o' id'); [|exact NL].
            apply in_map_iff. exists o. split; [|exact I]. cbn. cbn [field_of] in G. rewrite G.
            destruct c; cbn in II; try easy. destruct II as [II|[]]. now subst.
    Qed.

    Lemma flat_item a g id os x o' id' :
      (forall o i, In i (g (Some (Obj o))) ->
         exists c, bag_get data (o, field_of a) = Some c /\ In i (items_read a c)) ->
      proper id os -> child b id a = Some x ->
      In (Some (Obj o')) (flat_map (fun o => g (Some (Obj o))) os) -> x = SNode id' ->
      ty o' = id' /\ reached o'.
    Proof.
      intros GI P C I EX. apply in_flat_map in I as [o [I J]].
      destruct (GI _ _ J) as [c [G K]].
      now apply (values_proper id os a x o' id' o c).
    Qed.

    Lemma items_item o i : In i (items_of (bag_get data) (Some (Obj o))) ->
      exists c, bag_get data (o, field_of ListExplode) = Some c
        /\ In i (items_read ListExplode c).
    Proof.
      cbn. destruct (bag_get data (o, FItems)) as [[v|l|l]|]; try easy.
      intros I. now eexists.
    Qed.
    Lemma keys_item o i : In i (keys_of (bag_get data) (Some (Obj o))) ->
      exists c, bag_get data (o, field_of DictGetKeys) = Some c
        /\ In i (items_read DictGetKeys c).
    Proof.
      unfold keys_of. cbn. destruct (bag_get data (o, FEntries)) as [[v|l|l]|]; try easy.
      intros I. now eexists.
    Qed.
    Lemma values_item o i : In i (values_of (bag_get data) (Some (Obj o))) ->
      exists c, bag_get data (o, field_of DictGetValues) = Some c
        /\ In i (items_read DictGetValues c).
    Proof.
      unfold values_of. cbn. destruct (bag_get data (o, FEntries)) as [[v|l|l]|]; try easy.
      intros I. now eexists.
    Qed.

    (** A bag with the facts about [o] is filed under the name of its child. *)
    Lemma filed st0 st1 st' id os a x o c n ids l :
      proper id os -> In o os ->
      names lx (Some (SNode id, a)) x n ->
      index_get l n = Some ids -> In (length (made st0)) ids ->
      st1 = Progress (seen st0) (made st0 ++ [minimal_bag data os (field_of a)]) l ->
      kept st1 st' -> bag_get data (o, field_of a) = Some c ->
      exists n ids j facts,
        names lx (Some (SNode (ty o), a)) x n /\ index_get (assigned st') n = Some ids
        /\ In j ids /\ nth_error (made st') j = Some facts
        /\ In ((o, field_of a), c) facts.
    Proof.
      intros P I N G J -> (_ & [k K2] & _ & K3) D. cbn [made assigned] in *.
      destruct (K3 n ids G) as [ids' G']. exists n, (ids ++ ids'), (length (made st0)),
        (minimal_bag data os (field_of a)). destruct (P o I) as [T _]. rewrite T.
      split; [exact N|]. split; [exact G'|]. split; [apply in_or_app; now left|].
      split.
      - rewrite K2, <- app_assoc, nth_error_app2 by lia. now rewrite Nat.sub_diag.
      - apply minimal_bag_in. now repeat split.
    Qed.

    Lemma process_list_ok st id os x st' :
      process_list lx data b rec st id os x = Done st' ->
      proper id os -> sound st -> child b id ListExplode = Some x ->
      sound st' /\ kept st st' /\ since st st'
      /\ (forall o, In o os -> done_at st' o ListExplode x).
    Proof.
      intros E P S C. unfold process_list in E.
      destruct (minimal_bag data os FItems) as [|f fs] eqn:MB.
      - assert (st = st') by congruence. subst st'.
        split; [exact S|]. split; [apply kept_refl|]. split; [intros o I; now left|].
        intros o I c G. exfalso.
        assert (Q : In ((o, FItems), c) (minimal_bag data os FItems)).
        { apply minimal_bag_in. now repeat split. }
        now rewrite MB in Q.
      - rewrite <- MB in E. clear MB f fs.
        destruct (assign_name lx (assigned st) (Some (SNode id, ListExplode)) x (length (made st)))
          as [l|] eqn:A; [|discriminate]. cbn [andthen] in E.
        destruct (assign_kept _ _ _ _ (minimal_bag data os FItems) A) as [K1 (n & ids & N1 & N2)].
        set (st1 := Progress (seen st) (made st ++ [minimal_bag data os FItems]) l) in *.
        assert (S1 : sound st1).
        { apply (minimal_sound st os FItems l id ListExplode x); try easy.
          apply (assign_from st id FItems ListExplode x (assigned st)); try easy.
          apply assign_from_self. }
        destruct (descend_ok _ _ _ _ E S1) as (S2 & K2 & N3 & V).
        { intros o' id' I EX.
          now apply (flat_item ListExplode (items_of (bag_get data)) id os x o' id' items_item). }
        split; [exact S2|]. split; [now apply (kept_trans st st1)|].
        split; [intros o I; destruct (N3 o I); [now left|now right]|].
        intros o I c G. split.
        + apply (filed st st1 st' id os ListExplode x o c n _ l P I N1 N2); try easy.
          apply in_or_app. right. now left.
        + intros o' id' J NL. apply (V o' id'); [|exact NL]. apply in_flat_map.
          exists o. split; [exact I|]. cbn. cbn [field_of] in G. rewrite G. now destruct c.
    Qed.

    Lemma process_dict_ok st id os k v st' :
      process_dict lx data b rec st id os k v = Done st' ->
      proper id os -> sound st ->
      child b id DictGetKeys = Some k -> child b id DictGetValues = Some v ->
      sound st' /\ kept st st' /\ since st st'
      /\ (forall o, In o os -> done_at st' o DictGetKeys k /\ done_at st' o DictGetValues v).
    Proof.
      intros E P S C1 C2. unfold process_dict in E.
      destruct (minimal_bag data os FEntries) as [|f fs] eqn:MB.
      - assert (st = st') by congruence. subst st'.
        split; [exact S|]. split; [apply kept_refl|]. split; [intros o I; now left|].
        intros o I. split; intros c G; exfalso;
          (assert (Q : In ((o, FEntries), c) (minimal_bag data os FEntries));
           [apply minimal_bag_in; now repeat split|now rewrite MB in Q]).
      - rewrite <- MB in E. clear MB f fs.
        destruct (assign_name lx (assigned st) (Some (SNode id, DictGetKeys)) k (length (made st)))
          as [l|] eqn:A; [|discriminate]. cbn [andthen] in E.
        destruct (assign_kept _ _ _ _ [] A) as [K1 (n & ids & N1 & N2)].
        destruct (assign_name lx l (Some (SNode id, DictGetValues)) v (length (made st)))
          as [l2|] eqn:A2; [|discriminate]. cbn [andthen] in E.
        assert (A2' : assign_name lx (assigned (Progress (seen st) (made st) l))
                  (Some (SNode id, DictGetValues)) v
                  (length (made (Progress (seen st) (made st) l))) = Done l2) by exact A2.
        destruct (assign_kept _ _ _ _ (minimal_bag data os FEntries) A2') as [K2 (n' & ids' & N1' & N2')].
        cbn [seen made] in K2, N2'.
        set (st1 := Progress (seen st) (made st ++ [minimal_bag data os FEntries]) l2) in *.
        assert (S1 : sound st1).
        { apply (minimal_sound st os FEntries l2 id DictGetKeys k); try easy.
          apply (assign_from st id FEntries DictGetValues v l); try easy.
          apply (assign_from st id FEntries DictGetKeys k (assigned st)); try easy.
          apply assign_from_self. }
        assert (K01 : kept st st1).
        { destruct K1 as (_ & _ & K13 & K14). destruct K2 as (_ & _ & K23 & K24).
          cbn [assigned] in *. split; [apply incl_refl|]. split; [eexists; reflexivity|].
          split; [cbn [assigned]; congruence|]. intros m ids0 G.
          destruct (K14 m ids0 G) as [e1 G1]. destruct (K24 m _ G1) as [e2 G2].
          exists (e1 ++ e2). cbn [assigned]. now rewrite app_assoc. }
        match type of E with
          | andthen ?t _ = _ => destruct t as [st2|] eqn:D; [|discriminate]
          end. cbn [andthen] in E.
        destruct (descend_ok _ _ _ _ D S1) as (S2 & K12 & N3 & V).
        { intros o' id' I EX.
          now apply (flat_item DictGetKeys (keys_of (bag_get data)) id os k o' id' keys_item). }
        destruct (descend_ok _ _ _ _ E S2) as (S3 & K23 & N4 & V2).
        { intros o' id' I EX.
          now apply (flat_item DictGetValues (values_of (bag_get data)) id os v o' id' values_item). }
        split; [exact S3|]. split; [now apply (kept_trans st st2); [apply (kept_trans st st1)|]|].
        split.
        { apply (since_trans st st2 st'); [exact K23| |exact N4].
          intros o I. destruct (N3 o I) as [J|J]; [left; exact J|now right]. }
        assert (K13 : kept st1 st') by now apply (kept_trans st1 st2).
        destruct K2 as (_ & _ & _ & K24). cbn [assigned] in K24.
        destruct (K24 n _ N2) as [e2 N2''].
        intros o I. split; intros c G; split.
        + apply (filed st st1 st' id os DictGetKeys k o c n _ l2 P I N1 N2''); try easy.
          apply in_or_app. left. apply in_or_app. right. now left.
        + intros o' id' J NL. destruct K23 as [K23 _]. apply K23.
          apply (V o' id'); [|exact NL]. apply in_flat_map.
          exists o. split; [exact I|]. unfold keys_of. cbn. cbn [field_of] in G. rewrite G.
          now destruct c.
        + apply (filed st st1 st' id os DictGetValues v o c n' _ l2 P I N1' N2'); try easy.
          apply in_or_app. right. now left.
        + intros o' id' J NL. apply (V2 o' id'); [|exact NL]. apply in_flat_map.
          exists o. split; [exact I|]. unfold values_of. cbn. cbn [field_of] in G. rewrite G.
          now destruct c.
    Qed.
  End Body.

  Lemma process_is_ok fuel : process_ok (process lx data b fuel).
  Proof.
    induction fuel as [|fuel IH]; intros st id os st' E P S; [discriminate|].
    cbn [process] in E. set (new := filter _ os) in E.
    assert (NI : forall o, In o new <-> In o os /\ ~ In o (seen st)).
    { intros o. unfold new. rewrite filter_In, negb_true_iff.
      pose proof (memN_in o (seen st)) as M.
      destruct (memN o (seen st)); intuition congruence. }
    destruct new as [|o0 new'] eqn:EN.
    - assert (st = st') by congruence. subst st'.
      split; [exact S|]. split; [apply kept_refl|]. split; [intros o I; now left|].
      intros o I. destruct (in_dec N.eq_dec o (seen st)) as [J|J]; [exact J|].
      now destruct (proj2 (NI o) (conj I J)).
    - rewrite <- EN in *. clear EN o0 new'.
      set (st0 := Progress (seen st ++ os) (made st) (assigned st)) in E.
      assert (S0 : sound st0).
      { split; [|apply S]. cbn [seen st0]. intros o I. apply in_app_iff in I as [I|I];
          [now apply S|now apply P]. }
      assert (PN : proper id new) by (intros o I; apply P; now apply NI).
      assert (K0 : kept st st0).
      { split; [apply incl_appl, incl_refl|]. split; [exists []; now rewrite app_nil_r|].
        split; [reflexivity|]. intros n ids G. exists []. now rewrite app_nil_r. }
      assert (FIN : sound st' /\ kept st0 st' /\ since st0 st'
                    /\ (forall o, In o new -> done st' o)).
      { destruct (lookup b id) as [x|k v|attrs] eqn:L.
        - assert (C : child b id ListExplode = Some x) by (unfold child; cbn; now rewrite L).
          destruct (process_list_ok _ IH _ _ _ _ _ E PN S0 C) as (H1 & H2 & H3 & H4).
          repeat (split; [assumption|]). intros o I a y CC. destruct (PN o I) as [T _].
          rewrite T in CC. unfold child in CC. cbn in CC. rewrite L in CC.
          destruct a; try discriminate. assert (x = y) by congruence. subst y. now apply H4.
        - assert (C1 : child b id DictGetKeys = Some k) by (unfold child; cbn; now rewrite L).
          assert (C2 : child b id DictGetValues = Some v) by (unfold child; cbn; now rewrite L).
          destruct (process_dict_ok _ IH _ _ _ _ _ _ E PN S0 C1 C2) as (H1 & H2 & H3 & H4).
          repeat (split; [assumption|]). intros o I a y CC. destruct (PN o I) as [T _].
          rewrite T in CC. unfold child in CC. cbn in CC. rewrite L in CC.
          destruct a; try discriminate.
          + assert (k = y) by congruence. subst y. now apply H4.
          + assert (v = y) by congruence. subst y. now apply H4.
        - destruct (process_attrs_ok _ IH _ _ _ _ _ E PN S0) as (H1 & H2 & H3 & H4).
          { intros s x I. unfold child. cbn. rewrite L. apply in_attr_schema; [|exact I].
            exact (B _ _ L). }
          repeat (split; [assumption|]). intros o I a y CC. destruct (PN o I) as [T _].
          rewrite T in CC. unfold child in CC. cbn in CC. rewrite L in CC.
          destruct a as [| | |s]; try discriminate. apply H4; [exact I|].
          now apply attr_schema_in. }
      destruct FIN as (H1 & H2 & H3 & H4).
      split; [exact H1|]. split; [now apply (kept_trans st st0)|]. split.
      + intros o I. destruct (H3 o I) as [J|J]; [|now right].
        cbn [seen st0] in J. destruct (in_dec N.eq_dec o (seen st)) as [M|M]; [now left|].
        apply in_app_iff in J as [J|J]; [easy|]. right. apply H4. now apply NI.
      + intros o I. apply (proj1 H2). cbn [seen st0]. apply in_or_app. now right.
  Qed.

  (** All that an update writes is made and filed. *)
  Lemma process_complete fuel names0 at_id st' :
    process lx data b fuel (Progress [] [] names0) at_id targets = Done st' ->
    (forall o, In o targets -> ty o = at_id) ->
    (forall n ids, index_get names0 n = Some ids -> ids = []) ->
    map fst (assigned st') = map fst names0
    /\ (forall n ids, index_get (assigned st') n = Some ids -> index_get names0 n <> None)
    /\ (forall facts s c, In facts (made st') -> In (s, c) facts -> writes s c)
    /\ (forall s c a x, writes s c -> child b (ty (fst s)) a = Some x -> field_of a = snd s ->
          exists n ids j facts,
            names lx (Some (SNode (ty (fst s)), a)) x n
            /\ index_get (assigned st') n = Some ids /\ In j ids
            /\ nth_error (made st') j = Some facts /\ In (s, c) facts)
    /\ (forall n ids j, index_get (assigned st') n = Some ids -> In j ids ->
          exists facts, nth_error (made st') j = Some facts
            /\ forall s c, In (s, c) facts -> belongs s n).
  Proof.
    intros E T EM.
    destruct (process_is_ok fuel _ _ _ _ E) as ((S1 & S2 & S3) & (_ & _ & K3 & K4) & N & I).
    { intros o I. split; [now apply T|now constructor]. }
    { split; [easy|]. split; [easy|]. intros n ids j G IJ. now rewrite (EM n ids G) in IJ. }
    split; [exact K3|]. split.
    { intros n ids G EN. cbn [assigned] in *. clear -K3 G EN.
      revert K3 G EN. generalize (assigned st') as l. intros l. revert ids names0.
      induction l as [|[m k] l IH]; intros ids names0 K G EN; [discriminate|].
      destruct names0 as [|[m' k'] names0]; [discriminate|]. cbn in K, G, EN.
      injection K as K1 K2. subst m'. destruct (text_eqb m n); [discriminate|].
      exact (IH ids names0 K2 G EN). }
    split; [exact S2|]. split; [|exact S3].
    assert (D : forall o, In o (seen st') -> done st' o).
    { intros o J. destruct (N o J) as [[]|]; assumption. }
    assert (Q : forall o, reached o -> (exists a y, child b (ty o) a = Some y) -> In o (seen st')).
    { intros o RO. induction RO as [o J|o a id c o' RO IH C G J]; intros H; [now apply I|].
      assert (IO : In o (seen st')) by (apply IH; now exists a, (SNode id)).
      destruct (D o IO a (SNode id) C c G) as [_ V]. apply (V o' id J).
      destruct H as [a' [y H]].
      assert (TO : ty o' = id) by exact (TY o a (SNode id) c (Some (Obj o')) C G J).
      rewrite TO in H. unfold non_leaf. apply child_leads in H; [|exact B].
      apply step_expand in H. destruct (expand_schema b (SNode id)); [easy|reflexivity]. }
    intros [o f] c a x (RO & G & _) C F. cbn [fst snd] in *. subst f.
    assert (IO : In o (seen st')) by (apply Q; [exact RO|now exists a, x]).
    exact (proj1 (D o IO a x C c G)).
  Qed.
End Process.
