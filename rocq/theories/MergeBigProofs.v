(** Merging of the attributes of objects of big allocations. *)
From Coq Require Import String NArith ZArith List Bool Arith Lia.
From Verif Require Import ObjectIdModel ObjectIdProofs SchemaModel ItemModel DictModel
  SourceModel SourceSpec SourceProofs BagModel CollProofs BagProofs LayerProofs MergeModel MergeSourceProofs MergeFold.
From Coq Require Import ZifyBool ZifyN.
Import ListNotations.
Local Open Scope nat_scope.

Section Big.
Variable asize : ObjectId -> N.
Hypothesis asize_ok : forall a, (asize a <= capacity a)%N.
Notation real := (real asize).
Notation good_coll := (good_coll asize).
Notation good_ch := (good_ch asize).
Notation merges := (merges differ strict_differ).

Definition full (h : heap) (rest : list (nat * layer)) (k : key) (c : coll) : Prop :=
  msparse c = None -> mdense c = None -> cdense c = None -> lookup_parent c = true -> snd (data_sources h rest k) = None.

Lemma look_big_skip h pre r k o : (forall y ly, In (y, ly) pre -> a_find key_dec (big ly) k = None) ->
  look_big h (pre ++ r) k o = look_big h r k o.
Proof.
  induction pre as [|[y ly] pre IH]; intros H; cbn; auto. rewrite (H y ly) by now left. apply IH. intros. eapply H. right. eauto.
Qed.
Lemma data_sources_skip h pre r k : (forall y ly, In (y, ly) pre -> a_find key_dec (big ly) k = None) ->
  data_sources h (pre ++ r) k = data_sources h r k.
Proof.
  induction pre as [|[y ly] pre IH]; intros H; cbn; auto. rewrite (H y ly) by now left. apply IH. intros. eapply H. right. eauto.
Qed.

Lemma merged_merges {D} p (dom : D -> Prop) t o a err : merged p dom t o a err -> merges p dom t o a err.
Proof.
  unfold merged, MergeFold.merges. destruct err; auto. intros M x Dx. destruct (M x Dx). split; auto. now left.
Qed.
Lemma reverse_merges {D} p (dom : D -> Prop) (t o a : D -> entry) err :
  merged (reverse_policy p) dom o t a err -> merges p dom t o a err.
Proof.
  intros M. unfold merged, MergeFold.merges in *. destruct err.
  - destruct M as [E (x & Dx & C)]. split; [now destruct p|]. exists x. split; auto. now rewrite clash_strict_sym.
  - intros x Dx. destruct (M x Dx) as [A C]. rewrite clash_sym in C. split; [|intros ->; now apply C].
    rewrite A. unfold outcome. destruct p, (t x), (o x); cbn; auto.
Qed.

(** ** One key *)
Lemma own_sources h a l rest k c :
  a_find key_dec (big l) k = Some c \/ (a_find key_dec (big l) k = None /\ exists lp, c = mkColl None None None lp /\ (lp = true \/ rest = [])) ->
  data_sources h ((a, l) :: rest) k =
  (let '(ss, d) :=
            match mdense c, cd_of h k c with
            | Some d, _ => ([], Some d)
            | None, Some d => ([], Some d)
            | None, None => if lookup_parent c then data_sources h rest k else ([], None)
            end in
          (match msparse c with Some s => s :: ss | None => ss end, d)) /\
  forall o, look_big h ((a, l) :: rest) k o = coll_get h k c (look_big h rest k o) o.
Proof.
  cbn [data_sources look_big]. intros [-> | [-> (lp & -> & C)]]; [split; reflexivity|].
  cbn. unfold coll_get. cbn. destruct C as [-> | -> ]; [|destruct lp; auto]. split; auto. now destruct (data_sources h rest k).
Qed.

Lemma merge_key_ok h p a l rest och pre other_frozen x xl oc orest k c0 :
  is_allocation (fst k) -> good_ch h ((a, l) :: rest) -> good_ch h och ->
  good_coll h k c0 -> shared_ok h c0 -> full h rest k c0 \/ a_find key_dec (big l) k = None ->
  a_find key_dec (big l) k = Some c0 \/ (a_find key_dec (big l) k = None /\ exists lp, c0 = mkColl None None None lp /\ (lp = true \/ rest = [])) ->
  och = pre ++ (x, xl) :: orest -> (forall y ly, In (y, ly) pre -> a_find key_dec (big ly) k = None) ->
  a_find key_dec (big xl) k = Some oc -> nth_error h x = Some xl -> shared_ok h oc -> full h orest k oc ->
  (frozen xl = other_frozen \/ frozen xl = true) ->
  (source_ids h ((a, l) :: rest) k = source_ids h och k -> forall o, look_big h ((a, l) :: rest) k o = look_big h och k o) ->
  match merge_key h p ((a, l) :: rest) rest och other_frozen x oc orest k c0 with
  | None => forall o, look_big h ((a, l) :: rest) k o = look_big h och k o
  | Some (c, err) =>
      good_coll h k c /\ shared_ok h c /\ full h rest k c /\ (err = false -> lookup_parent c = false) /\
      merges p (real (fst k)) (look_big h ((a, l) :: rest) k) (look_big h och k)
        (fun o => coll_get h k c (look_big h rest k o) o) err
  end.
Proof.
  intros A Gt Go G0 S0 F0 L0 Eo Np Fo Ex So Fu Fz Ids. unfold merge_key.
  set (tch := (a, l) :: rest) in *.
  assert (Dt := data_sources_ok asize h tch k Gt). assert (Do := data_sources_ok asize h och k Go).
  destruct (own_sources h a l rest k c0 L0) as [Et Vt]. fold tch in Et, Vt.
  assert (Gr : good_ch h rest) by (eapply good_ch_tl; eauto).
  assert (Gx : good_ch h ((x, xl) :: orest)).
  { intros y ly k' c I. apply (Go y ly k' c). rewrite Eo. apply in_app_iff. now right. }
  assert (Gor : good_ch h orest) by (eapply good_ch_tl; eauto).
  destruct (own_sources h x xl orest k oc (or_introl Fo)) as [Eox Vox].
  assert (Eos : data_sources h och k = data_sources h ((x, xl) :: orest) k) by (rewrite Eo; now apply data_sources_skip).
  assert (Vo : forall o, look_big h och k o = coll_get h k oc (look_big h orest k o) o).
  { intros o. rewrite <- Vox, Eo. now apply look_big_skip. }
  assert (Goc : good_coll h k oc) by (apply (Gx x xl k oc); [now left|auto]).
  rewrite <- Eos in Eox. clear Eos Vox.
  destruct (data_sources h och k) as [os od] eqn:Dos. destruct (data_sources h tch k) as [ts td] eqn:Dts.
  destruct Dt as (Ft & Gtd & Wt). destruct Do as (Fos & God & Wo).
  destruct (ids_eqb (source_ids h tch k) (source_ids h och k)) eqn:Ie.
  { apply Ids. unfold ids_eqb in Ie. apply andb_true_iff in Ie as [I1 I2].
    destruct (source_ids h tch k) as [i1 j1], (source_ids h och k) as [i2 j2]. cbn [fst snd] in I1, I2.
    destruct (list_eq_dec Nat.eq_dec i1 i2); [|easy]. subst. f_equal. destruct j1, j2; try easy. apply Nat.eqb_eq in I2. now subst. }
  clear Ids Ie.
  (* the copy of the other's collection *)
  set (cc := copy_coll x oc).
  assert (Ccd : cd_of h k cc = or_else (mdense oc) (cd_of h k oc)).
  { unfold cc, copy_coll, cd_of. cbn. destruct (mdense oc) as [d|] eqn:M; [|reflexivity]. rewrite Ex, Fo. now rewrite M. }
  destruct Goc as (_ & Gs & Gm & Gc).
  assert (Gcc : good_coll h k cc).
  { split; [auto|]. split; [exact Gs|]. split; [exact Logic.I|]. rewrite Ccd. unfold cc, copy_coll. cbn.
    destruct (mdense oc) as [d|] eqn:M; [|exact Gc]. destruct Gm as (Gd & _ & _ & _ & Lp). split; auto. exists d. auto. }
  assert (Vcc : forall up o, coll_get h k cc up o = coll_get h k oc up o).
  { intros up o. unfold coll_get. rewrite Ccd. unfold cc, copy_coll. cbn. destruct (mdense oc) as [d|] eqn:M; auto.
    destruct Gm as (_ & _ & _ & Cd & _). rewrite (cd_of_none _ _ _ Cd). cbn. reflexivity. }
  assert (Mut : forall size, (asize (fst k) <= size <= capacity (fst k))%N -> exists d, create_mutable_dense h orest k size None cc = Some (mkColl None (Some d) None false) /\
     good_mutable asize (fst k) d /\ forall o, real (fst k) o -> dense_get d o = look_big h och k o).
  { intros size Sz. destruct (create_mutable_dense_ok asize asize_ok h orest k size None cc Gcc Gor eq_refl Sz) as (d & E & Gd & M & V).
    exists d. split; auto. split; [split; auto|]. intros o Ro. rewrite V, Vcc by auto. now rewrite Vo. }
  assert (Dense : forall d err, good_mutable asize (fst k) d ->
    merges p (real (fst k)) (look_big h tch k) (look_big h och k) (dense_get d) err ->
    let c := mkColl None (Some d) None false in
    good_coll h k c /\ shared_ok h c /\ full h rest k c /\ (err = false -> lookup_parent c = false) /\
      merges p (real (fst k)) (look_big h tch k) (look_big h och k) (fun o => coll_get h k c (look_big h rest k o) o) err).
  { intros d err [Gd M] Mg c. split; [split; [auto|cbn; auto 10]|]. split; [exact Logic.I|]. split; [intros _ N; discriminate|]. split; [auto|].
    revert Mg. apply merges_ext; auto. intros o _. unfold coll_get. cbn. now destruct (dense_get d o). }
  assert (Sparse : forall s err, good_sparse asize (fst k) s -> mdense c0 = None -> cdense c0 = None ->
    merges p (real (fst k)) (look_big h tch k) (look_big h och k) (sparse_get s) err ->
    let c := mkColl (Some s) (mdense c0) (cdense c0) false in
    good_coll h k c /\ shared_ok h c /\ full h rest k c /\ (err = false -> lookup_parent c = false) /\
      merges p (real (fst k)) (look_big h tch k) (look_big h och k) (fun o => coll_get h k c (look_big h rest k o) o) err).
  { intros s err Gsp -> -> Mg c. split; [split; [auto|cbn; auto 10]|]. split; [exact Logic.I|]. split; [discriminate|]. split; [auto|].
    revert Mg. apply merges_ext; auto. intros o _. unfold coll_get. cbn. now destruct (sparse_get s o). }
  (* without a dense source, this has only sparse ones *)
  assert (No : td = None -> mdense c0 = None /\ cdense c0 = None /\ (msparse c0 = None -> lookup_parent c0 = true -> snd (data_sources h rest k) = None)).
  { intros ->. destruct G0 as (_ & _ & Gm0 & Gc0). destruct (mdense c0) as [d|] eqn:M0.
    - destruct (msparse c0); discriminate.
    - destruct (cdense c0) as [cr|] eqn:C0.
      + destruct Gc0 as (_ & d & Ed & _). rewrite Ed in Et. destruct (msparse c0); discriminate.
      + split; auto. split; auto. intros Ms Lp. rewrite (cd_of_none _ _ _ C0), Ms, Lp in Et. now destruct (data_sources h rest k); injection Et as _ ->. }
  assert (Fail : td = None -> merges p (real (fst k)) (look_big h tch k) (look_big h och k) (fun o => coll_get h k c0 (look_big h rest k o) o) true ->
     good_coll h k c0 /\ shared_ok h c0 /\ full h rest k c0 /\ (true = false -> lookup_parent c0 = false) /\
      merges p (real (fst k)) (look_big h tch k) (look_big h och k) (fun o => coll_get h k c0 (look_big h rest k o) o) true).
  { intros Nt Mg. split; auto. split; auto. split; [|split; [discriminate|auto]]. destruct (No Nt) as (N1 & N2 & N3). intros M1 _ _ Lp. auto. }
  destruct td as [td|].
  - (* this has a dense source *)
    assert (X : exists c d, match mdense c0 with Some _ => Some c0 | None => create_mutable_dense h rest k (de_size td) None c0 end = Some c /\
       c = mkColl None (Some d) None false /\ good_mutable asize (fst k) d /\ forall o, real (fst k) o -> dense_get d o = look_big h tch k o).
    { destruct G0 as (A0 & Gs0 & Gm0 & Gc0). destruct (mdense c0) as [d|] eqn:M0.
      - destruct Gm0 as (Gd & Md & E1 & E2 & E3). exists c0, d. split; auto. destruct c0; cbn in *; subst. split; auto. split; [split; auto|].
        intros o Ro. rewrite Vt. unfold coll_get. cbn. now destruct (dense_get d o).
      - destruct (create_mutable_dense_ok asize asize_ok h rest k (de_size td) None c0) as (d & E & Gd & M & V); auto.
        + split; auto. split; auto. rewrite M0. auto.
        + destruct Gtd as (_ & _ & Sz & _). exact Sz.
        + exists (mkColl None (Some d) None false), d. split; auto. split; auto. split; [split; auto|]. intros o Ro. rewrite V by auto. now rewrite Vt. }
    destruct X as (c & d & -> & -> & Gd & V). cbn [mdense msparse cdense lookup_parent].
    assert (Y : exists d' err, match od with None => Some (dense_merge_sparse p d os) | Some od => dense_merge_all p d (fst k) od os end = Some (d', err) /\
       good_mutable asize (fst k) d' /\ merged p (real (fst k)) (dense_get d) (sources_get os od) (dense_get d') err).
    { destruct od as [od|].
      - apply dense_merge_all_ok; auto.
      - assert (Z := dense_merge_sparse_ok asize asize_ok p (fst k) d os A Gd Fos). destruct (dense_merge_sparse p d os) as [d' err].
        exists d', err. split; auto. }
    destruct Y as (d' & err & -> & Gd' & Mg). apply Dense; auto. apply merged_merges. revert Mg. apply merged_ext; auto.
  - destruct ts as [|t0 ts].
    + (* this has nothing *)
      assert (Vn : forall o, look_big h tch k o = None) by (intros o; rewrite <- Wt; reflexivity).
      destruct od as [od|].
      * destruct (nonempty os || (match cd_of h k cc with Some d => is_mutable d | None => false end && negb other_frozen)) eqn:Cond.
        -- destruct (Mut (capacity (fst k)) (conj (asize_ok _) (N.le_refl _))) as (d & E & Gd & V). rewrite E. apply Dense; auto. now apply merges_empty.
        -- apply orb_false_iff in Cond as [C1 C2]. destruct os as [|o1 os]; [|discriminate].
           assert (Ms : msparse oc = None).
           { destruct (msparse oc); auto. exfalso. revert Eox.
             destruct (match mdense oc with Some d => _ | None => _ end). discriminate. }
           assert (Cd : cdense cc <> None).
           { unfold cc, copy_coll. cbn. destruct (mdense oc) as [d|] eqn:M; [discriminate|]. intros Cn. rewrite (cd_of_none _ _ _ Cn), Ms in Eox.
             destruct (lookup_parent oc) eqn:Lp; [|discriminate]. specialize (Fu Ms M Cn Lp). destruct (data_sources h orest k). cbn in Fu. subst. discriminate. }
           assert (Lp : lookup_parent cc = false).
           { destruct Gcc as (_ & _ & _ & Gcc). destruct (cdense cc); [|easy]. apply Gcc. }
           split; [exact Gcc|]. split; [|split; [|split; [auto|]]].
           ++ unfold shared_ok, cc, copy_coll. cbn. destruct (mdense oc) as [d|] eqn:M; [|exact So]. exists xl. split; auto.
              destruct Fz as [Fz|Fz]; auto. rewrite Ccd in C2. cbn in C2. destruct Gm as (_ & Md & _). rewrite Md in C2. cbn in C2.
              apply negb_false_iff in C2. congruence.
           ++ intros _ _ N. easy.
           ++ apply merges_empty; auto. intros o _. rewrite Vcc, Vo. unfold coll_get. change (lookup_parent oc) with (lookup_parent cc). now rewrite Lp.
      * assert (Z := merge_to_sparse_ok asize (fst k) os A Fos). destruct (No eq_refl) as (N1 & N2 & _).
        destruct (merge_to_sparse os) as [s|].
        -- destruct Z as [Gsp Vs]. apply Sparse; auto. apply merges_empty; auto. intros o _. rewrite Vs. apply Wo.
        -- subst os. split; [|split; [|split; [|split; [auto|]]]].
           ++ split; auto. cbn. rewrite N1, N2. auto.
           ++ unfold shared_ok. cbn. now rewrite N2.
           ++ intros _ _ _ E. discriminate.
           ++ apply merges_empty; auto. intros o _. rewrite <- Wo. unfold coll_get. cbn. rewrite N1. unfold cd_of. cbn. now rewrite N2.
    + (* this has sparse sources only *)
      destruct od as [od|].
      * assert (Sz : (asize (fst k) <= de_size od <= capacity (fst k))%N) by (destruct God as (_ & _ & Sz & _); exact Sz).
        destruct (Mut (de_size od) Sz) as (d & E & Gd & V). rewrite E. cbn [mdense msparse cdense lookup_parent].
        assert (Z := dense_merge_sparse_ok asize asize_ok (reverse_policy p) (fst k) d (t0 :: ts) A Gd Ft).
        destruct (dense_merge_sparse (reverse_policy p) d (t0 :: ts)) as [d' err]. destruct Z as [Gd' Mg].
        assert (Mg2 : merges p (real (fst k)) (look_big h tch k) (look_big h och k) (dense_get d') err).
        { apply reverse_merges. revert Mg. apply merged_ext; auto. }
        destruct err.
        -- apply Fail; auto.
        -- apply Dense; auto.
      * assert (Z := merge_to_sparse_ok asize (fst k) (t0 :: ts) A Ft). destruct (merge_to_sparse (t0 :: ts)) as [s|]; [|easy].
        destruct Z as [Gsp Vs]. destruct (No eq_refl) as (N1 & N2 & _).
        assert (Z := sparse_merge_ok asize p (fst k) s os A Gsp Fos). destruct (sparse_merge_sparse p s os) as [s' err]. destruct Z as [Gs' Mg].
        apply Sparse; auto. apply merged_merges. revert Mg. apply merged_ext; auto. intros o _. rewrite Vs. apply Wt.
Qed.
End Big.
