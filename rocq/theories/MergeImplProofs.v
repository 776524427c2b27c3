(** Merging one impl into another. *)
From Coq Require Import String NArith ZArith List Bool Arith Lia Permutation.
From Verif Require Import ObjectIdModel ObjectIdProofs SchemaModel ItemModel DictModel DictSpec DictProofs
  SourceModel SourceSpec SourceProofs BagModel CollProofs BagProofs LayerProofs ContainerProofs
  MergeModel MergeSourceProofs MergeFold MergeBigProofs MergeLayerProofs BagSpec.
Import ListNotations.
Local Open Scope nat_scope.
Notation chain := BagModel.chain.

(** what layers contain *)
Definition ch_content (h : heap) (ch : list (nat * layer)) : content :=
  mkContent (fun attr o => attr_in h ch attr o) (fun o => list_in ch o) (fun o k => dict_in ch o k).
Definition content_at (h : heap) (a : nat) : content := ch_content h (chain h a).

Section MergeImpl.
Variable asize : ObjectId -> N.
Hypothesis asize_ok : forall a, (asize a <= capacity a)%N.
Notation valid := (valid asize).
Notation layer_ok := (layer_ok asize).
Notation heap_ok := (heap_ok asize).
Notation same_content := (same_content asize).
Notation merged := (merged asize).
Notation conflict := (conflict asize).

Lemma same_refl c : same_content c c.
Proof. unfold BagSpec.same_content. auto. Qed.
Lemma same_sym c c' : same_content c c' -> same_content c' c.
Proof. intros (A & B & C). split; [|split]; intros; symmetry; auto. Qed.
Lemma same_trans c1 c2 c3 : same_content c1 c2 -> same_content c2 c3 -> same_content c1 c3.
Proof. intros (A & B & C) (A' & B' & C'). split; [|split]; intros; [rewrite A'|rewrite B'|rewrite C']; auto. Qed.
Lemma keeps_content h h' a : heap_ok h -> heap_ok h' -> ext h h' -> keeps h h' a -> same_content (content_at h a) (content_at h' a).
Proof.
  intros H H' X K. split; [|split]; intros; cbn.
  - eapply keeps_attr; eauto.
  - eapply keeps_list; eauto.
  - eapply keeps_dict; eauto.
Qed.
Lemma merged_same dp sp c c' : same_content c c' -> merged dp sp c c' c.
Proof.
  intros (A & B & C). split; [|split].
  - intros attr o V. rewrite A by auto. split; [left; destruct dp, (c_attr c attr o); reflexivity|].
    intros _. destruct (c_attr c attr o); cbn; auto using differ_refl.
  - intros o V. rewrite B by auto. split; [left; destruct dp, (c_list c o); reflexivity|].
    intros _. destruct (c_list c o); cbn; auto using lists_differ_refl.
  - intros o k V. rewrite C by auto. split; [left; destruct (policy_for dp sp o), (c_dict c o k); reflexivity|].
    intros _. destruct (c_dict c o k); cbn; auto using differ_refl.
Qed.
Lemma put_same h a l : nth_error h a = Some l -> put h a l = h.
Proof.
  unfold put. revert a. induction h as [|x h IH]; intros [|a] E; cbn in *; try easy; [congruence|].
  f_equal. exact (IH a E).
Qed.
Lemma pristine_content h a l : heap_ok h -> nth_error h a = Some l -> is_pristine l = true -> forall p, parent l = Some p ->
  same_content (content_at h a) (content_at h p).
Proof.
  intros H E P p Pa. unfold content_at. rewrite (chain_unfold asize h a l H E). unfold ups. rewrite Pa.
  split; [|split]; intros; cbn [c_attr c_list c_dict ch_content].
  - now rewrite pristine_attr.
  - now rewrite pristine_list.
  - now rewrite pristine_dict.
Qed.
Lemma subset_content h a b l bl : heap_ok h -> nth_error h a = Some l -> nth_error h b = Some bl ->
  is_subset b bl a l = true -> same_content (content_at h a) (content_at h b).
Proof.
  intros H Ea Eb S. unfold is_subset in S. destruct (Nat.eqb_spec b a) as [->|N]; [apply same_refl|].
  destruct (is_pristine bl) eqn:Pb; cbn in S.
  - apply orb_true_iff in S as [S|S].
    + unfold opt_eqb in S. destruct (parent bl) as [p|] eqn:P; [|easy]. apply Nat.eqb_eq in S. subst p.
      apply same_sym. eapply pristine_content; eauto.
    + apply andb_true_iff in S as [S Pa]. unfold opt_eqb in S. destruct (parent l) as [p|] eqn:P, (parent bl) as [q|] eqn:Q; try easy.
      * apply Nat.eqb_eq in S. subst q. eapply same_trans; [eapply pristine_content; eauto|].
        apply same_sym. eapply pristine_content; eauto.
      * unfold content_at. rewrite (chain_unfold asize h a l H Ea), (chain_unfold asize h b bl H Eb). unfold ups. rewrite P, Q.
        split; [|split]; intros; cbn [c_attr c_list c_dict ch_content].
        -- now rewrite !pristine_attr.
        -- now rewrite !pristine_list.
        -- now rewrite !pristine_dict.
  - apply andb_true_iff in S as [S Pa]. unfold opt_eqb in S. destruct (parent l) as [p|] eqn:P; [|easy].
    apply Nat.eqb_eq in S. subst p. eapply pristine_content; eauto.
Qed.

Variable iter : dmap -> dmap.
Hypothesis any_order : forall m, Permutation (iter m) m.

(** ** The setting of MergeLayerProofs.v, with all that is needed of it *)
Record setting (h : heap) (a : nat) (rest och : list (nat * layer)) (other_frozen : bool) : Prop := {
  s_rest : ch_good asize h rest;
  s_och : ch_good asize h och;
  s_frozen : forall x xl, In (x, xl) och -> frozen xl = other_frozen \/ frozen xl = true;
  s_ar : ~ In a (map fst rest);
  s_ao : ~ In a (map fst och);
  s_al : forall bl, nth_error h a = Some bl -> frozen bl = false \/ big bl = [];
  s_sfx : forall pre x l r pre' l' r', och = pre ++ (x, l) :: r -> rest = pre' ++ (x, l') :: r' -> l' = l /\ r' = r
}.
Lemma chain_stop h a l rest och : heap_ok h -> ~ In a (map fst och) -> forall b, och = chain h b ->
  rest = ups h l -> stop_ok rest och l (non_pristine a l).
Proof.
  intros H Ao b Eo Er pre s sl r E S. unfold non_pristine in S. destruct (is_pristine l).
  - split; auto. rewrite Er. unfold ups. rewrite S. rewrite Eo in E. symmetry. eapply chain_suffix; eauto.
  - injection S as ->. exfalso. apply Ao. rewrite E, map_app. apply in_app_iff. right. now left.
Qed.

Lemma merge_layer_ok h dp sp a b l bl : heap_ok h -> nth_error h a = Some l -> frozen l = false -> nth_error h b = Some bl -> b <> a ->
  let '(l', err) := merge_layer iter h dp sp a b l bl in
  layer_ok h a l' /\ frozen l' = frozen l /\ parent l' = parent l /\
  let this := content_at h a in let other := content_at h b in
  if err then conflict dp sp this other
  else merged dp sp this other (ch_content h ((a, l') :: ups h l)).
Proof.
  intros H Ea Fa Eb Nb. assert (L := H a l Ea). unfold merge_layer. rewrite (parents_ups asize h a l H Ea).
  set (rest := ups h l). set (och := chain h b).
  assert (Gr : ch_good asize h rest) by (eapply ups_good; eauto).
  assert (Go : ch_good asize h och) by now apply chain_good.
  assert (Fz : forall x xl, In (x, xl) och -> frozen xl = frozen bl \/ frozen xl = true).
  { intros x xl I. destruct (chain_in asize h H b x xl I) as (E & Lx & F). destruct (Nat.eq_dec x b) as [->|N]; [left; congruence|right; apply F; lia]. }
  assert (Ar : ~ In a (map fst rest)).
  { intros I. apply in_map_iff in I as ([x lx] & Ex & I). cbn in Ex. subst x. destruct (ups_in asize h a l H L a lx I) as (_ & X & _). lia. }
  assert (Ao : ~ In a (map fst och)).
  { intros I. apply in_map_iff in I as ([x lx] & Ex & I). cbn in Ex. subst x. destruct (chain_in asize h H b a lx I) as (E & X & F). 
    assert (a < b) by lia. specialize (F H0). congruence. }
  assert (Al : forall bl, nth_error h a = Some bl -> frozen bl = false \/ big bl = []) by (intros x E; left; congruence).
  assert (Sfx : forall pre x l r pre' l' r', och = pre ++ (x, l) :: r -> rest = pre' ++ (x, l') :: r' -> l' = l /\ r' = r).
  { intros pre x lx r pre' lx' r' E E'. unfold och in E. apply chain_suffix with (asize := asize) in E; auto.
    unfold rest, ups in E'. destruct (parent l) as [p|]; [|destruct pre'; discriminate].
    apply chain_suffix with (asize := asize) in E'; auto. rewrite <- E' in E. split; congruence. }
  assert (St : forall l1, parent l1 = parent l -> stop_ok rest och l1 (non_pristine a l1)).
  { intros l1 P. apply (chain_stop h a l1 rest och H Ao b); auto. unfold rest, ups. now rewrite P. }
  destruct L as (Lp & Ls & Lb & Ll & Ld).
  assert (Ct : forall attr o, c_attr (content_at h a) attr o = attr_in h ((a, l) :: rest) attr o).
  { intros. cbn. now rewrite (chain_unfold asize h a l H Ea). }
  assert (Cl : forall o, c_list (content_at h a) o = list_in ((a, l) :: rest) o).
  { intros. cbn. now rewrite (chain_unfold asize h a l H Ea). }
  assert (Cd : forall o k, c_dict (content_at h a) o k = dict_in ((a, l) :: rest) o k).
  { intros. cbn. now rewrite (chain_unfold asize h a l H Ea). }
  assert (MB := merge_big_ok asize asize_ok h a rest och (frozen bl) Gr Go Fz Ar Ao Al dp l Lb (St l eq_refl)).
  destruct (merge_big h dp a rest och (frozen bl) l) as [l1 e1]. destruct MB as (B1 & O1 & M1).
  { intros P. unfold rest, ups. now rewrite P. }
  destruct O1 as (F1 & P1 & S1 & L1 & D1).
  cbn [then_merge]. destruct e1.
  { split; [|split; [auto|split; [auto|]]].
    - split; [intros p Q; rewrite P1 in Q; auto|]. rewrite S1, L1, D1. replace (ups h l1) with rest by (unfold rest, ups; now rewrite P1). auto.
    - left. destruct M1 as (R & [attr o] & [V S] & C). split; auto. exists attr, o. split; [exact V|]. cbn [fst snd] in *.
      rewrite Ct. cbn. unfold attr_in. rewrite S. exact C. }
  assert (Ls1 : smalls_ok asize l1) by (unfold smalls_ok; now rewrite S1).
  assert (MS := merge_small_ok asize h a rest och Gr Go Ar Ao dp l1 (non_pristine a l1) Ls1 (St l1 P1)).
  destruct (merge_small dp a rest och (non_pristine a l1) l1) as [l2 e2]. destruct MS as (S2 & (F2 & P2 & B2 & L2 & D2) & M2).
  cbn [then_merge]. destruct e2.
  { split; [|split; [congruence|split; [congruence|]]].
    - split; [intros p Q; rewrite P2, P1 in Q; auto|]. split; auto. rewrite B2, L2, D2, L1, D1. 
      replace (ups h l2) with rest by (unfold rest, ups; now rewrite P2, P1). auto.
    - left. destruct M2 as (R & [attr o] & [V S] & C). split; auto. exists attr, o. split; [exact V|]. cbn [fst snd] in *.
      rewrite Ct. cbn. unfold attr_in. rewrite S. unfold small_view in C. cbn [look_small fst snd] in *. rewrite S1 in C. exact C. }
  assert (Ll2 : vecs_ok l2) by (unfold vecs_ok; rewrite L2, L1; exact Ll).
  assert (ML := merge_lists_ok asize h a rest och Gr Go Ar Ao Sfx dp l2 (non_pristine a l2) Ll2 (St l2 (eq_trans P2 P1))).
  destruct (merge_lists dp a rest och (non_pristine a l2) l2) as [l3 e3]. destruct ML as (V3 & (F3 & P3 & S3 & B3 & D3) & M3).
  assert (View2 : forall o, list_view ((a, l2) :: rest) o = c_list (content_at h a) o).
  { intros o. rewrite Cl. unfold list_view, list_in. cbn [look_list]. now rewrite L2, L1. }
  cbn [then_merge]. destruct e3.
  { split; [|split; [congruence|split; [congruence|]]].
    - split; [intros p Q; rewrite P3, P2, P1 in Q; auto|]. rewrite S3, B3, D3, B2, D2, D1. 
      replace (ups h l3) with rest by (unfold rest, ups; now rewrite P3, P2, P1). auto.
    - right. left. destruct M3 as (R & o & W & C). split; auto. exists o. split; auto. rewrite View2 in C. exact C. }
  assert (Ld3 : dvecs_ok l3) by (unfold dvecs_ok; rewrite D3, D2, D1; exact Ld).
  assert (MD := merge_dicts_ok asize asize_ok h a rest och (frozen bl) Gr Go Fz Ar Ao Al Sfx iter any_order dp sp l3 (non_pristine a l3) Ld3 (St l3 (eq_trans P3 (eq_trans P2 P1)))).
  destruct (merge_dicts iter dp sp a rest och (non_pristine a l3) l3) as [l4 e4]. destruct MD as (V4 & (F4 & P4 & S4 & B4 & L4) & M4).
  assert (View3 : forall d, dict_view ((a, l3) :: rest) d = c_dict (content_at h a) (fst d) (snd d)).
  { intros o. rewrite Cd. unfold dict_view, dict_in. cbn [look_dict]. now rewrite D3, D2, D1. }
  split; [|split; [congruence|split; [congruence|]]].
  - split; [intros p Q; rewrite P4, P3, P2, P1 in Q; auto|]. rewrite S4, B4, L4, S3, B3, B2. 
    replace (ups h l4) with rest by (unfold rest, ups; now rewrite P4, P3, P2, P1). auto.
  - destruct e4.
    + right. right. destruct M4 as ([o k] & W & R & C). exists o, k. cbn [fst snd] in *. split; auto. split; [exact R|]. rewrite View3 in C. exact C.
    + split; [|split].
      * intros attr o V. rewrite Ct. cbn. unfold attr_in. destruct (is_small_alloc o) eqn:S.
        -- destruct (M2 (attr, o) (conj V S)) as [M2a M2b]. unfold small_view in M2a, M2b. cbn [look_small fst snd] in *.
           rewrite S4, S3. rewrite S1 in M2a, M2b. split; auto.
        -- destruct (M1 (attr, o) (conj V S)) as [M1a M1b]. unfold big_view in M1a, M1b. cbn [look_big fst snd] in *.
           rewrite B4, B3, B2. split; auto.
      * intros o W. destruct (M3 o W) as [M3a M3b]. rewrite View2 in M3a, M3b. unfold list_view, list_in in *. cbn [c_list ch_content list_in look_list] in *.
        unfold list_in. cbn [look_list]. rewrite L4. split; auto.
      * intros o k W. destruct (M4 (o, k) W) as [M4a M4b]. rewrite View3 in M4a, M4b. split; auto.
Qed.

Lemma merge_impl_ok h dp sp a b l bl : heap_ok h -> nth_error h a = Some l -> frozen l = false -> nth_error h b = Some bl ->
  exists l' err, merge_impl iter h dp sp a b = Some (put h a l', err) /\
  layer_ok h a l' /\ frozen l' = frozen l /\ parent l' = parent l /\
  if err then conflict dp sp (content_at h a) (content_at h b)
  else merged dp sp (content_at h a) (content_at h b) (ch_content h ((a, l') :: ups h l)).
Proof.
  intros H Ea Fa Eb. unfold merge_impl. rewrite Ea, Eb, Fa. destruct (is_subset b bl a l) eqn:S.
  - exists l, false. rewrite (put_same h a l Ea). split; auto. split; [auto|]. split; auto. split; auto.
    rewrite <- (chain_unfold asize h a l H Ea). apply merged_same. eapply subset_content; eauto.
  - assert (N : b <> a) by (intros ->; unfold is_subset in S; now rewrite Nat.eqb_refl in S).
    assert (M := merge_layer_ok h dp sp a b l bl H Ea Fa Eb N). destruct (merge_layer iter h dp sp a b l bl) as [l' err].
    destruct M as (M1 & M2 & M3 & M4). exists l', err. rewrite Fa in *. auto.
Qed.
End MergeImpl.
