(** Bags that are loaded: the same content in a new bag. *)
From Coq Require Import String NArith ZArith List Bool Arith Lia Permutation.
From Verif Require Import ObjectIdModel ObjectIdProofs SchemaModel ItemModel DataListModel DictModel DictSpec DictProofs
  SourceModel SourceSpec SourceProofs BagModel CollProofs BagProofs LayerProofs FullWriteProofs ContainerProofs
  MergeModel MergeFold BagSpec BagReads MergeImplProofs ReadProofs BagKeysProofs BagStateProofs BagStepProofs BagOpsProofs
  BagRunProofs BagViewProofs BagCodecModel BagCodecSpec BagDumpProofs BagLoadProofs BagDecodeProofs.
Import ListNotations.
Local Open Scope nat_scope.
Notation chain := BagModel.chain.

(** the loops of [load] *)
Section Loops.
Variable iter : dmap -> dmap.
Fixpoint load_list (st : state) (fbs : list dumped) : option (state * list nat) :=
  match fbs with
  | [] => Some (st, [])
  | d :: r =>
      bind (load iter st d) (fun '(st, b) =>
      bind (load_list st r) (fun '(st, bs) => Some (st, b :: bs)))
  end.
End Loops.
Fixpoint freeze_list (st : state) (bs : list nat) : option (state * list nat) :=
  match bs with
  | [] => Some (st, [])
  | b :: r =>
      bind (freeze_bag st b) (fun '(st, b) =>
      bind (freeze_list st r) (fun '(st, bs) => Some (st, b :: bs)))
  end.
Lemma load_unfold iter st m fbs : load iter st (Dumped m fbs) =
  match fbs with
  | [] => load_plain iter st m
  | _ => bind (load_list iter st fbs) (fun '(st, bs) =>
      if negb (no_content m) then None
      else bind (freeze_list st bs) (fun '(st, bs) => option_map (fun st' => (st', length (bags st))) (immutable_with_fallbacks st bs)))
  end.
Proof. now destruct fbs. Qed.
Lemma freeze_list_ok st bs : (forall b, In b bs -> exists x, nth_error (bags st) b = Some x /\ bag_mutable x = false) -> freeze_list st bs = Some (st, bs).
Proof.
  induction bs as [|b bs IH]; intros F; cbn; auto. unfold freeze_bag. destruct (F b (or_introl eq_refl)) as (x & -> & ->). cbn [bind].
  rewrite IH by (intros c I; apply F; now right). reflexivity.
Qed.
Lemma chain_parent_none h a l : nth_error h a = Some l -> parent l = None -> chain h a = [(a, l)].
Proof. intros E P. unfold BagModel.chain. destruct a; cbn [chain_from]; rewrite E; [|rewrite P]; reflexivity. Qed.
Lemma set_bag_last s x y : set_bag (s ++ [x]) (length s) y = s ++ [y].
Proof. unfold set_bag. induction s as [|z s IH]; cbn; auto. now f_equal. Qed.

Section Codec.
Variable asize : ObjectId -> N.
Hypothesis asize_ok : forall a, (asize a <= capacity a)%N.
Hypothesis schemas_full : forall a, is_schema a = true -> asize a = capacity a.
Variable iter : dmap -> dmap.
Hypothesis any_order : forall m, Permutation (iter m) m.
Notation same_content := (same_content asize).
Notation same_bags := (same_bags asize).
Notation All := (fun _ : ObjectId => True).
Notation inv := (inv asize All).
Notation storable := (storable asize).

Lemma storable_same c c' : same_content c c' -> storable c -> storable c'.
Proof.
  intros (A & B & C) (S & V). split.
  - constructor.
    + intros attr o W Sc Sm Na. rewrite A by auto. now apply (so_alone_attr asize c S).
    + intros o k v W Sc Sm. rewrite C by auto. now apply (so_alone_dict asize c S).
    + intros attr o v W Sc Sm Na. rewrite A by auto. now apply (so_many_attr asize c S).
    + intros o k v W Sc Sm. rewrite C by auto. rewrite (so_many_dict asize c S o k v W Sc Sm).
      split; intros (O & E & attr & o' & Na & Ek & V' & Ea & Nn); (do 2 (split; auto)); exists attr, o'; (do 4 (split; auto)); rewrite A in * by auto; auto.
  - intros attr o W Sm Ty E. rewrite A in E by auto. destruct (V attr o W Sm Ty E) as (o' & v & W' & Ea & E'). exists o', v. rewrite A by auto. auto.
Qed.
Lemma fold_weff_same ws : forall c c', same_content c c' -> same_content (fold_left (fun c w => weff w c) ws c) (fold_left (fun c w => weff w c) ws c').
Proof. induction ws as [|w ws IH]; intros c c' E; cbn; auto. apply IH. now apply weff_same. Qed.

Lemma load_plain_ok st m c : inv st -> describes asize m c -> storable c ->
  exists st', load_plain iter st m = Some (st', length (bags st)) /\ inv st' /\ same_bags (abs st ++ [mkAbag c (negb (m_immutable m)) []]) (abs st').
Proof.
  intros I De [So Hv]. destruct (decode_ok asize asize_ok schemas_full m c De So Hv) as (ws & Ew & Ok & Fr & Sc).
  unfold load_plain. rewrite Ew. cbn [bind]. destruct (new_bag_ok asize All st true [] I ltac:(auto) ltac:(easy)) as [I1 S1].
  remember (new_bag st true []) as st1 eqn:E1. set (b := length (bags st)). set (a := length (layers st)).
  assert (Eb : nth_error (bags st1) b = Some (mkBag a true false [])) by (rewrite E1; apply nth_last).
  assert (El : nth_error (layers st1) a = Some (mkLayer false None [] [] [] [])) by (rewrite E1; apply nth_last).
  assert (Em : mutable_impl st1 b = Some (st1, a)) by (unfold mutable_impl; rewrite Eb; reflexivity).
  rewrite Em. cbn [bind].
  destruct (wops_run asize asize_ok iter any_order ws (layers st1) a _ (i_heap _ _ _ I1) El) as (h & l & Eh & H & X & U & El' & Fz & Pa & Ki & Sh); auto.
  { apply (i_keys _ _ _ I1 _ _ El). }
  rewrite Eh. cbn [bind].
  assert (Cn : same_content c (content_at h a)).
  { eapply same_trans; [exact Sc|]. eapply same_trans; [|exact Sh]. apply fold_weff_same. rewrite E1. apply new_content. apply (i_heap _ _ _ I). }
  destruct (put_bag_inv asize All All st1 b (mkBag a true false []) h (mkBag a true false []) l I1 Eb H X) as [I2 S2]; auto.
  - intros y ly Ey. split; [easy|]. destruct (Nat.eq_dec y a) as [->|Ny]; [assert (ly = l) by congruence; now subst|]. rewrite U in Ey by auto. apply (i_keys _ _ _ I1 _ _ Ey).
  - cbn [impl]. intros y Ny L. destruct (nth_error (layers st1) y) as [ly|] eqn:Ey; [|apply nth_error_None in Ey; lia]. apply (untouched_same _ _ _ ly); auto. now rewrite U.
  - easy.
  - rewrite (put_bag_same _ _ _ Eb) in I2, S2.
    assert (Sb : same_bags (abs st ++ [mkAbag c true []]) (abs (mkState h (bags st1)))).
    { eapply bags_trans; [|exact S2]. eapply bags_trans; [|apply bags_set; [exact S1|apply bag_refl]]. replace b with (length (abs st)) by apply map_length.
      rewrite set_bag_last. apply bags_snoc; [apply bags_refl|]. split; auto. }
    destruct (m_immutable m); [|eexists; split; [reflexivity|]; auto].
    unfold make_immutable. cbn [bags layers]. rewrite Eb. cbn [option_map]. eexists. split; [reflexivity|].
    destruct (freeze_bag_ok asize All (mkState h (bags st1)) b _ (mkBag a false false []) I2 Eb) as [I3 S3]; auto. cbn [impl forked fallbacks bags layers] in *.
    split; auto. eapply bags_trans; [|exact S3]. eapply bags_trans; [|apply bags_set; [exact Sb|apply bag_refl]]. replace b with (length (abs st)) by apply map_length.
    rewrite set_bag_last. apply bags_snoc; [apply bags_refl|]. split; auto.
Qed.

Lemma kept_tail s tail s' b : same_bags (s ++ tail) s' -> b < length s -> kept asize s s' b.
Proof.
  intros F L. destruct (nth_error s b) as [x|] eqn:E; [|apply nth_error_None in E; lia].
  destruct (bags_nth asize (s ++ tail) s' b x F (nth_app _ _ _ _ E)) as (x' & E' & (A & B & C)). exists x, x'. split; auto. split; auto. split; auto. split; auto. congruence.
Qed.
Lemma full_tail st st' tail b : inv st -> inv st' -> same_bags (abs st ++ tail) (abs st') -> b < length (abs st) -> same_content (full (abs st) b) (full (abs st') b).
Proof.
  intros I I' F L. apply full_kept; try (eapply inv_tidy; eauto); [eapply kept_tail; eauto|]. intros f x E _. eapply kept_tail; eauto. eapply nth_error_Some. congruence.
Qed.

(** What loading gives: a new bag with this content *)
Definition loaded (st : state) (c : content) (mut : bool) (st' : state) (b : nat) : Prop :=
  inv st' /\ (exists tail, same_bags (abs st ++ tail) (abs st')) /\ length (abs st) <= b /\
  exists x, nth_error (abs st') b = Some x /\ writable x = mut /\ same_content c (full (abs st') b).

Lemma load_list_ok (fs : list nat) (ds : list dumped) (cs : nat -> content) : Forall2 (fun f d => forall st, inv st -> exists st' b, load iter st d = Some (st', b) /\ loaded st (cs f) false st' b) fs ds ->
  forall st, inv st -> exists st' bs, load_list iter st ds = Some (st', bs) /\ inv st' /\ (exists tail, same_bags (abs st ++ tail) (abs st')) /\
    Forall2 (fun f b => (exists x, nth_error (abs st') b = Some x /\ writable x = false) /\ same_content (cs f) (full (abs st') b)) fs bs.
Proof.
  induction 1 as [|f d fs ds L F IH]; intros st I; cbn [load_list].
  - exists st, []. split; auto. split; auto. split; [exists []; rewrite app_nil_r; apply bags_refl|constructor].
  - destruct (L st I) as (st1 & b & E1 & I1 & (t1 & S1) & Lb & x & Ex & Wx & Cx). rewrite E1. cbn [bind].
    destruct (IH st1 I1) as (st2 & bs & E2 & I2 & (t2 & S2) & F2). rewrite E2. cbn [bind]. exists st2, (b :: bs). split; auto. split; auto. split.
    + exists (t1 ++ t2). rewrite app_assoc. eapply bags_trans; [|exact S2]. apply bags_app; [exact S1|apply bags_refl].
    + constructor; auto. assert (Lb1 : b < length (abs st1)) by (apply nth_error_Some; congruence). split.
      * destruct (kept_tail _ _ _ b S2 Lb1) as (y & y' & Ey & Ey' & _ & _ & Wy). exists y'. split; auto. apply Wy. congruence.
      * eapply same_trans; [exact Cx|]. eapply full_tail; eauto.
Qed.
End Codec.

Section Dump.
Variable asize : ObjectId -> N.
Hypothesis asize_ok : forall a, (asize a <= capacity a)%N.
Hypothesis schemas_full : forall a, is_schema a = true -> asize a = capacity a.
Variable iter iter' : dmap -> dmap.
Hypothesis any_order : forall m, Permutation (iter m) m.
Hypothesis any_order' : forall m, Permutation (iter' m) m.
Variable ord : orders.
Hypothesis any_ord : any_orders ord.
Notation same_content := (same_content asize).
Notation All := (fun _ : ObjectId => True).
Notation inv := (inv asize All).

Lemma empty_message h a l imm : heap_ok asize h -> nth_error h a = Some l -> is_empty l -> encode_impl iter ord h a imm = Some (mkMsg imm [] [] []).
Proof.
  intros H E [P Q]. unfold encode_impl. assert (Ec : chain h a = [(a, l)]) by (apply (chain_parent_none h a l E P)).
  rewrite Ec. unfold is_pristine in Q. destruct (small l) eqn:Es; [|discriminate]. destruct (big l) eqn:Eg; [|discriminate]. destruct (lists l) eqn:Ei; [|discriminate]. destruct (dicts l) eqn:Ed; [|discriminate].
  destruct any_ord as (O1 & O2 & _).
  assert (X1 : o_names ord [] = []) by (apply Permutation_nil; symmetry; apply O1). assert (X2 : o_ids ord [] = []) by (apply Permutation_nil; symmetry; apply O2).
  unfold index_lists, index_dicts, index_names, big_keys, small_names. cbn [flat_map]. rewrite Es, Eg, Ei, Ed. cbn [map app nodup]. rewrite X1, X2. reflexivity.
Qed.
Lemma forall2_map {A B} (P : A -> B -> Prop) (Q : A -> B -> Prop) l r : (forall x y, In x l -> P x y -> Q x y) -> Forall2 P l r -> Forall2 Q l r.
Proof. intros H F. induction F as [|x y l r Px F IH]; constructor; [apply H; auto; now left|]. apply IH. intros x' y' I. apply H. now right. Qed.

Lemma dump_load_from st : inv st -> forall fuel b, b < fuel -> has_bag st b -> (forall c, In c (depth_first_from st fuel b) -> storable asize (own_seen st c)) ->
  exists d, dump_from iter ord st fuel b = Some d /\
    forall st0, inv st0 -> exists st' b', load iter' st0 d = Some (st', b') /\ loaded asize st0 (full (abs st) b) (is_mutable st b) st' b'.
Proof.
  intros I. induction fuel as [|fuel IH]; intros b Lb Hb St; [lia|]. destruct (bag_in st b Hb) as (x & Ex). cbn [dump_from]. rewrite Ex.
  assert (K : forall y l, nth_error (layers st) y = Some l -> kinds_in l) by (intros y l E; apply (i_keys _ _ _ I _ _ E)).
  destruct (encode_describes asize asize_ok iter any_order ord any_ord (layers st) (i_heap _ _ _ I) K (impl x) (negb (bag_mutable x))) as (m & Em & Im & De).
  assert (Ab : nth_error (abs st) b = Some (abs_bag (layers st) x)) by (rewrite abs_nth, Ex; reflexivity).
  assert (Mu : is_mutable st b = bag_mutable x) by (unfold is_mutable; now rewrite Ex).
  assert (Ff : forall f, In f (fallbacks x) -> exists d, dump_from iter ord st fuel f = Some d /\
    forall st0, inv st0 -> exists st' b', load iter' st0 d = Some (st', b') /\ loaded asize st0 (full (abs st) f) false st' b').
  { intros f If. destruct (i_falls _ _ _ I b x f Ex If) as (Lf & y & Ey & My). destruct (IH f) as (d & Ed & Ld); [lia|unfold has_bag; apply nth_error_Some; congruence| |].
    - intros c Ic. apply St. cbn [depth_first_from]. right. apply in_flat_map. exists f. split; auto. unfold fallbacks_of. now rewrite Ex.
    - exists d. split; auto. replace false with (is_mutable st f); auto. unfold is_mutable. now rewrite Ey. }
  destruct (all_opt_map (dump_from iter ord st fuel) (fallbacks x)) as (ds & Ed & Fd).
  { intros f If. destruct (Ff f If) as (d & -> & _). easy. }
  rewrite Ed. cbn [bind]. rewrite Em. cbn [option_map]. eexists. split; [reflexivity|]. intros st0 I0.
  rewrite load_unfold. rewrite (full_unfold _ _ _ (inv_tidy asize All st I) Ab). cbn [abs_bag data falls]. rewrite Mu.
  destruct ds as [|d0 ds].
  - inversion Fd as [E0|]. cbn [map fold_right].
    assert (Sb : storable asize (content_at (layers st) (impl x))).
    { apply (storable_same asize (own_seen st b)); [|apply St; now left]. unfold own_seen. rewrite Ex. apply same_sym, single_reads. }
    destruct (load_plain_ok asize asize_ok schemas_full iter' any_order' st0 m _ I0 De Sb) as (st' & El & I' & S'). exists st', (length (bags st0)). split; auto.
    split; auto. split; [eauto|]. split; [unfold abs; rewrite map_length; lia|].
    destruct (bags_nth asize _ _ (length (bags st0)) (mkAbag (content_at (layers st) (impl x)) (negb (m_immutable m)) []) S') as (y & Ey & (A & B & C)).
    { replace (length (bags st0)) with (length (abs st0)) by apply map_length. apply nth_last. }
    exists y. split; auto. cbn in A, B, C. split; [rewrite B, Im; apply negb_involutive|].
    rewrite (full_unfold _ _ _ (inv_tidy asize All st' I') Ey), C. cbn [map fold_right]. apply overlay_same; auto. apply same_refl.
  - assert (Nf : fallbacks x <> []) by (intros E; rewrite E in Fd; inversion Fd).
    destruct (i_plain _ _ _ I b x Ex Nf) as (l & El & Pl). rewrite (empty_message _ _ l _ (i_heap _ _ _ I) El Pl) in Em.
    assert (Emsg : m = mkMsg (negb (bag_mutable x)) [] [] []) by congruence. subst m. clear Em.
    destruct (load_list_ok asize iter' (fallbacks x) (d0 :: ds) (full (abs st))) with (st := st0) as (st1 & bs & E1 & I1 & (t1 & S1) & F1); auto.
    { eapply forall2_map; [|exact Fd]. intros f d If E. destruct (Ff f If) as (d' & E' & Ld). assert (d' = d) by congruence. now subst d'. }
    rewrite E1. cbn [bind no_content m_attrs m_lists m_dicts negb].
    assert (Fz : forall f, In f bs -> exists y, nth_error (bags st1) f = Some y /\ bag_mutable y = false).
    { intros f If. assert (X : exists y, nth_error (abs st1) f = Some y /\ writable y = false).
      { clear - F1 If. induction F1 as [|g b0 fs bs [Q _] F1 IH]; [easy|]. destruct If as [<-|If]; auto. }
      destruct X as (y & Ey & Wy). rewrite abs_nth in Ey. destruct (nth_error (bags st1) f) as [z|]; [|discriminate]. exists z. split; auto. cbn in Ey. assert (abs_bag (layers st1) z = y) by congruence. now subst y. }
    rewrite freeze_list_ok by auto. cbn [bind]. unfold immutable_with_fallbacks.
    replace (forallb _ bs) with true; [|symmetry; apply forallb_forall; intros f If; destruct (Fz f If) as (y & -> & ->); reflexivity].
    cbn [option_map]. eexists _, _. split; [reflexivity|]. destruct (new_bag_ok asize All st1 false bs I1 ltac:(easy) Fz) as [I2 S2].
    split; auto. split.
    { exists (t1 ++ [mkAbag empty_content false bs]). rewrite app_assoc. eapply bags_trans; [|exact S2]. apply bags_snoc; [exact S1|apply bag_refl]. }
    assert (Len : length (abs st0) <= length (bags st1)).
    { assert (X : forall s s', same_bags asize s s' -> length s = length s') by (induction 1; cbn; auto).
      apply X in S1. rewrite app_length in S1. assert (Y : length (abs st1) = length (bags st1)) by apply map_length. lia. }
    split; auto. destruct (bags_nth asize _ _ (length (bags st1)) (mkAbag empty_content false bs) S2) as (y & Ey & (A & B & C)).
    { replace (length (bags st1)) with (length (abs st1)) by apply map_length. apply nth_last. }
    cbn in A, B, C. exists y. split; auto. split.
    { rewrite B. destruct (bag_mutable x) eqn:Mx; auto. elim Nf. exact (i_mut _ _ _ I b x Ex Mx). }
    rewrite (full_unfold _ _ _ (inv_tidy asize All _ I2) Ey), C. apply overlay_same.
    { eapply same_trans; [|exact A]. destruct Pl as [P Q].
      assert (Ec : chain (layers st) (impl x) = [(impl x, l)]) by (apply (chain_parent_none _ _ l El P)).
      unfold is_pristine in Q. destruct (small l) eqn:Es; [|discriminate]. destruct (big l) eqn:Eg; [|discriminate]. destruct (lists l) eqn:Ei; [|discriminate]. destruct (dicts l) eqn:Edi; [|discriminate].
      unfold content_at. rewrite Ec. split; [|split]; intros; cbn.
      - unfold attr_in. destruct (is_small_alloc o); cbn; rewrite ?Es, ?Eg; cbn; rewrite ?Es, ?Eg; auto.
      - unfold list_in. cbn. rewrite ?Ei. auto.
      - unfold dict_in. cbn. rewrite ?Edi. auto. }
    assert (Fu : Forall2 (fun f b => same_content (full (abs st) f) (full (abs (new_bag st1 false bs)) b)) (fallbacks x) bs).
    { assert (Lf : forall f, In f bs -> f < length (abs st1)) by (intros f If; destruct (Fz f If) as (z & Ez & _); unfold abs; rewrite map_length; apply nth_error_Some; congruence).
      assert (X : forall f g, In g bs -> same_content (full (abs st) f) (full (abs st1) g) -> same_content (full (abs st) f) (full (abs (new_bag st1 false bs)) g)).
      { intros f g Ig Q. eapply same_trans; [exact Q|]. eapply full_tail; eauto. }
      revert X. generalize (abs (new_bag st1 false bs)). clear - F1. intros s2. induction F1 as [|f g fs bs0 [_ Q] F1 IH]; intros X; constructor; [apply X; auto; now left|].
      apply IH. intros f' g' Ig. apply X. now right. }
    revert Fu. generalize (abs (new_bag st1 false bs)). clear. intros s2 Fu. induction Fu as [|f g fs bs0 Q F1 IH]; cbn [map fold_right]; [apply same_refl|]. now apply overlay_same.
Qed.
End Dump.
