(** The sources that make up one attribute of one allocation. *)
From Coq Require Import String NArith ZArith List Bool Arith Lia.
From Verif Require Import ObjectIdModel ObjectIdProofs SchemaModel ItemModel DictModel SourceModel SourceSpec SourceProofs BagModel.
From Verif Require ListRunSpec DataListOpsProofs.
From Coq Require Import ZifyBool ZifyN.
Import ListNotations.
Local Open Scope nat_scope.

Lemma or_else_none {A} (x : option A) : or_else x None = x.
Proof. now destruct x. Qed.
Lemma or_else_assoc {A} (x y z : option A) : or_else (or_else x y) z = or_else x (or_else y z).
Proof. now destruct x. Qed.

(** ** Slices made by a builder *)
Definition all_kinds : list kind :=
  [KObjectId; KInt32; KInt64; KFloat32; KFloat64; KBool; KUnit; KText; KBytes; KExprQuote; KDType].
Definition column (k : kind) (xs : list ditem) : list (option (cval k)) :=
  map (fun x : ditem => match x with Some v => as_kind k v | None => None end) xs.
Definition has_some {A} (l : list (option A)) : bool :=
  existsb (fun x => match x with Some _ => true | None => false end) l.
Definition columns (ks : list kind) (xs : list ditem) : list {k : kind & list (option (cval k))} :=
  flat_map (fun k => if has_some (column k xs) then [existT _ k (column k xs)] else []) ks.
Lemma build_slice_values xs : sl_values (build_slice xs) = columns all_kinds xs.
Proof. reflexivity. Qed.
Lemma column_nth k (xs : list ditem) i : nth i (column k xs) None = match nth i xs None with Some v => as_kind k v | None => None end.
Proof.
  unfold column. revert i. induction xs as [|x xs IH]; intros [|i]; cbn; auto.
Qed.
Lemma array_item_column k (xs : list ditem) i : DataListModel.array_item i (existT (fun k => list (option (cval k))) k (column k xs)) =
  match nth i xs None with Some v => if kind_eq_dec (projT1 v) k then Some v else None | None => None end.
Proof.
  cbn. rewrite column_nth. destruct (nth i xs None) as [[k' x]|]; cbn; auto.
  destruct (kind_eq_dec k' k) as [e|ne]; cbn; auto. destruct e. reflexivity.
Qed.
Lemma has_some_column k (xs : list ditem) i v : @nth ditem i xs None = Some v -> projT1 v = k -> has_some (column k xs) = true.
Proof.
  intros N E. unfold has_some. destruct v as [k' x]. cbn in E. subst k'.
  assert (H : nth i (column k xs) None = Some x).
  { rewrite column_nth, N. exact (as_kind_val k x). }
  apply existsb_exists. exists (Some x). split; [|reflexivity]. rewrite <- H. apply nth_In.
  destruct (Nat.lt_ge_cases i (length (column k xs))) as [L|G]; [exact L|]. rewrite nth_overflow in H by exact G. discriminate.
Qed.
Lemma in_columns ks xs a : In a (columns ks xs) -> In (projT1 a) ks /\ a = existT _ (projT1 a) (column (projT1 a) xs).
Proof.
  unfold columns. rewrite in_flat_map. intros (k & I & J). destruct (has_some (column k xs)); [|easy].
  destruct J as [<-|[]]. auto.
Qed.
Lemma columns_kinds ks xs : NoDup ks -> NoDup (map (@projT1 _ _) (columns ks xs)).
Proof.
  induction ks as [|k ks IH]; cbn; intros N; [constructor|]. inversion N as [|? ? N1 N2]; subst.
  fold (columns ks xs). destruct (has_some (column k xs)); cbn; auto. constructor; auto.
  intros I. apply in_map_iff in I as (a & E & I). apply in_columns in I as [I _]. congruence.
Qed.
Definition first_item (i : nat) (l : list {k : kind & list (option (cval k))}) : ditem :=
  fold_right (fun a r => match DataListModel.array_item i a with Some x => Some x | None => r end) None l.
Lemma build_slice_at (xs : list ditem) i : slice_at (build_slice xs) i = @nth ditem i xs None.
Proof.
  unfold slice_at. rewrite build_slice_values. change (first_item i (columns all_kinds xs) = @nth ditem i xs None).
  destruct (@nth ditem i xs None) as [v|] eqn:N.
  - assert (H : forall ks, In (projT1 v) ks -> first_item i (columns ks xs) = Some v).
    { induction ks as [|k ks IH]; [easy|]. intros I. unfold columns. cbn [flat_map]. fold (columns ks xs).
      destruct (kind_eq_dec (projT1 v) k) as [e|ne].
      - rewrite (has_some_column k xs i v N e). cbn [app first_item fold_right].
        rewrite array_item_column, N. destruct (kind_eq_dec (projT1 v) k); [auto|congruence].
      - destruct I as [E|I]; [congruence|]. destruct (has_some (column k xs)); cbn [app first_item fold_right]; auto.
        rewrite array_item_column, N. destruct (kind_eq_dec (projT1 v) k); [congruence|]. apply IH; auto. }
    apply H. destruct v as [k x]. cbn. unfold all_kinds. destruct k; cbn; tauto.
  - assert (H : forall l, (forall a, In a l -> DataListModel.array_item i a = None) -> first_item i l = None).
    { induction l as [|a l IH]; intros H; auto. cbn [first_item fold_right]. rewrite (H a) by now left. apply IH. intros; apply H; now right. }
    apply H. intros a I. apply in_columns in I as [_ ->]. rewrite array_item_column. now rewrite N.
Qed.
Lemma build_slice_ok xs : slice_ok (build_slice xs).
Proof.
  split.
  - split.
    + rewrite build_slice_values. apply Forall_forall. intros a I. apply in_columns in I as [_ ->]. cbn. apply map_length.
    + intros i L pre a post E P. rewrite build_slice_values in E.
      assert (ND : NoDup (map (@projT1 _ _) (columns all_kinds xs))).
      { apply columns_kinds. unfold all_kinds. repeat constructor; cbn; intuition discriminate. }
      assert (A : In a (columns all_kinds xs)) by (rewrite E; apply in_or_app; right; now left).
      destruct (in_columns _ _ _ A) as [_ EA]. rewrite EA in P. rewrite array_item_column in P.
      destruct (nth i xs None) as [v|] eqn:N; [|congruence]. destruct (kind_eq_dec (projT1 v) (projT1 a)) as [K|]; [|congruence].
      apply Forall_forall. intros b I.
      assert (B : In b (columns all_kinds xs)).
      { rewrite E. apply in_app_iff in I. apply in_app_iff. destruct I; [now left|right; now right]. }
      destruct (in_columns _ _ _ B) as [_ EB]. rewrite EB, array_item_column, N.
      destruct (kind_eq_dec (projT1 v) (projT1 b)) as [K2|]; auto. exfalso.
      rewrite E, map_app in ND. cbn in ND. apply NoDup_remove_2 in ND. apply ND. rewrite <- map_app.
      apply in_map_iff. exists b. split; [congruence|exact I].
  - rewrite build_slice_values. apply columns_kinds. unfold all_kinds. repeat constructor; cbn; intuition discriminate.
Qed.

(** Writing the entries of a map as one batch *)
Lemma present_at_map {A} (l : list (ObjectId * A)) s :
  flat_map (fun '(i, o) => match o with Some o => [(i, o)] | None => [] end)
    (combine (seq s (length (map (fun '(o, _) => Some o) l))) (map (fun '(o, _) => Some o) l))
  = combine (seq s (length l)) (map fst l).
Proof.
  revert s. induction l as [|[o v] l IH]; intros s; cbn; auto. f_equal. apply IH.
Qed.
Lemma writes_build (l : smap) :
  writes (map (fun '(o, _) => Some o) l) (build_slice (map snd l)) = l.
Proof.
  unfold writes, present_at. rewrite present_at_map.
  assert (forall pre, map (fun '(i, o) => (o, slice_at (build_slice (map snd (pre ++ l))) i))
     (combine (seq (length pre) (length l)) (map fst l)) = l); [|exact (H [])].
  induction l as [|[o v] l IH]; intros pre; auto. cbn [length seq map fst combine]. f_equal.
  - f_equal. rewrite build_slice_at, map_app. rewrite app_nth2; rewrite map_length; auto. now rewrite Nat.sub_diag.
  - specialize (IH (pre ++ [(o, v)])). rewrite app_length, Nat.add_1_r, <- app_assoc in IH. exact IH.
Qed.

Section Coll.
(** the number of objects of each allocation that really exist *)
Variable asize : ObjectId -> N.
Hypothesis asize_ok : forall a, (asize a <= capacity a)%N.

Definition real (alloc o : ObjectId) : Prop := wf o /\ allocation_of o = alloc /\ (offset o < asize alloc)%N.
Definition good_sparse (alloc : ObjectId) (s : sparse) : Prop :=
  sp_alloc s = Some alloc /\ NoDup (map fst (sp_map s)) /\ forall o v, In (o, v) (sp_map s) -> real alloc o.
Definition good_dense (alloc : ObjectId) (d : dense) : Prop :=
  wf_dense d /\ de_alloc d = alloc /\ (asize alloc <= de_size d <= capacity alloc)%N /\ quiet (asize alloc) (dense_at d).

Lemma good_sparse_wf alloc s : is_allocation alloc -> good_sparse alloc s -> wf_sparse s.
Proof.
  intros A (E & ND & R). split; auto. intros o v I. destruct (R o v I) as (W & Al & _).
  unfold belongs. rewrite E. now apply contains_spec.
Qed.
Lemma real_contains alloc o : is_allocation alloc -> real alloc o -> contains alloc o = true.
Proof. intros A (W & E & _). now apply contains_spec. Qed.
Lemma real_inj alloc o o' : real alloc o -> real alloc o' -> offset o = offset o' -> o = o'.
Proof.
  intros (W & A & _) (W' & A' & _) E. rewrite <- (object_reassemble o), <- (object_reassemble o') by auto. congruence.
Qed.

Lemma write_all_find (alloc : ObjectId) (l : smap) : is_allocation alloc -> NoDup (map fst l) ->
  (forall o v, In (o, v) l -> real alloc o) ->
  forall f o, real alloc o -> write_all alloc l f (offset o) = or_else (s_find l o) (f (offset o)).
Proof.
  intros A. induction l as [|[o1 v1] l IH]; intros ND R f o Ro; [reflexivity|].
  rewrite write_all_cons. inversion ND as [|? ? N1 N2]; subst.
  rewrite (real_contains alloc o1) by (auto; apply (R o1 v1); now left).
  rewrite IH by (auto; intros; eapply R; right; eauto). cbn [s_find].
  destruct (same_oid o1 o) eqn:E.
  - apply same_oid_spec in E. subst o1. replace (s_find l o) with (@None ditem).
    + unfold write. now rewrite N.eqb_refl.
    + symmetry. now apply s_find_none.
  - destruct (s_find l o); cbn; auto. unfold write. destruct (N.eqb_spec (offset o) (offset o1)) as [Eo|]; auto.
    exfalso. assert (o1 = o) by (eapply real_inj; eauto; apply (R o1 v1); now left). subst. now rewrite same_oid_refl in E.
Qed.
Lemma write_all_quiet (alloc : ObjectId) (l : smap) n :
  (forall o v, In (o, v) l -> (offset o < n)%N) -> forall f, quiet n f -> quiet n (write_all alloc l f).
Proof.
  induction l as [|[o1 v1] l IH]; intros R f Q; [exact Q|]. rewrite write_all_cons.
  apply IH; [intros; eapply R; right; eauto|]. destruct (contains alloc o1); auto.
  intros off x L. unfold write. assert (offset o1 < n)%N by (apply (R o1 v1); now left).
  destruct (N.eqb_spec off (offset o1)); [lia|]. now apply Q.
Qed.

(** writing a map into a dense source *)
Lemma dense_set_map alloc d (l : smap) : is_allocation alloc -> good_dense alloc d -> is_mutable d = true ->
  NoDup (map fst l) -> (forall o v, In (o, v) l -> real alloc o) ->
  exists d', dense_set_all d (map (fun '(o, _) => Some o) l) (build_slice (map snd l)) = Some d' /\
    good_dense alloc d' /\ is_mutable d' = true /\ de_size d' = de_size d /\
    forall o, real alloc o -> dense_get d' o = or_else (s_find l o) (dense_get d o).
Proof.
  intros A (W & Al & Sz & Q) M ND R.
  destruct (dense_set_all_ok d (map (fun '(o, _) => Some o) l) (build_slice (map snd l)) W M (build_slice_ok _)) as (d' & E & W' & M' & A' & S' & V).
  - unfold build_slice. cbn. now rewrite !map_length.
  - right. unfold offsets, present_at. rewrite present_at_map. rewrite Al.
    assert (forall s, NoDup (map (fun p : nat * ObjectId => offset (snd p))
       (filter (fun p : nat * ObjectId => contains alloc (snd p)) (combine (seq s (length l)) (map fst l))))); [|auto].
    clear -A ND R. induction l as [|[o v] l IH]; intros s; cbn; [constructor|]. inversion ND as [|? ? N1 N2]; subst.
    rewrite (real_contains alloc o) by (auto; apply (R o v); now left). cbn. constructor; [|apply IH; auto; intros; eapply R; right; eauto].
    intros I. apply in_map_iff in I as ([i o'] & E & I). cbn in E. apply filter_In in I as [I _]. apply in_combine_r in I.
    apply in_map_iff in I as ([o2 v2] & E2 & I). cbn in E2. subst o2.
    assert (o' = o) by (eapply real_inj; [eapply R; right; eauto|eapply R; left; eauto|auto]). subst.
    apply N1. apply in_map_iff. exists (o, v2). auto.
  - rewrite writes_build, Al in V. exists d'. split; [exact E|]. split; [|split; [auto|split; [auto|]]].
    + split; [auto|]. split; [congruence|]. split; [now rewrite S'|].
      intros off x L. rewrite V. eapply (write_all_quiet alloc l (asize alloc)); eauto. intros o v I. apply (R o v I).
    + intros o Ro. unfold dense_get. rewrite V. now apply write_all_find.
Qed.
Lemma dense_set_one alloc d o v : is_allocation alloc -> good_dense alloc d -> is_mutable d = true -> real alloc o ->
  exists d', dense_set d o v = Some d' /\ good_dense alloc d' /\ is_mutable d' = true /\ de_size d' = de_size d /\
    forall o', real alloc o' -> dense_get d' o' = if same_oid o o' then Some v else dense_get d o'.
Proof.
  intros A (W & Al & Sz & Q) M Ro. destruct (dense_set_ok d o v W M) as (d' & E & W' & M' & A' & S' & V).
  exists d'. split; [exact E|]. assert (C : contains (de_alloc d) o = true) by (rewrite Al; now apply real_contains).
  rewrite C in V. split; [|split; [auto|split; [auto|]]].
  - split; [auto|]. split; [congruence|]. split; [now rewrite S'|].
    intros off x L. rewrite V. unfold write. destruct Ro as (_ & _ & Lt). destruct (N.eqb_spec off (offset o)); [lia|]. now apply Q.
  - intros o' Ro'. unfold dense_get. rewrite V. unfold write. destruct (same_oid o o') eqn:E2.
    + apply same_oid_spec in E2. subst. now rewrite N.eqb_refl.
    + destruct (N.eqb_spec (offset o') (offset o)) as [Eo|]; auto. exfalso.
      assert (o = o') by (eapply real_inj; eauto). subst. now rewrite same_oid_refl in E2.
Qed.

(** ** Collections *)
Definition coll_get (h : heap) (k : key) (c : coll) (up : option ditem) (o : ObjectId) : option ditem :=
  or_else (bind (msparse c) (fun s => sparse_get s o))
    (or_else (bind (mdense c) (fun d => dense_get d o))
      (or_else (bind (cd_of h k c) (fun d => dense_get d o))
        (if lookup_parent c then up else None))).
Definition good_coll (h : heap) (k : key) (c : coll) : Prop :=
  is_allocation (fst k) /\
  match msparse c with Some s => good_sparse (fst k) s | None => True end /\
  match mdense c with
  | Some d => good_dense (fst k) d /\ is_mutable d = true /\ msparse c = None /\ cdense c = None /\ lookup_parent c = false
  | None => True
  end /\
  match cdense c with
  | Some _ => lookup_parent c = false /\ exists d, cd_of h k c = Some d /\ good_dense (fst k) d
  | None => True
  end.
Lemma cd_of_none h k c : cdense c = None -> cd_of h k c = None.
Proof. unfold cd_of. now intros ->. Qed.

Definition good_ch (h : heap) (ch : list (nat * layer)) : Prop :=
  forall x l k c, In (x, l) ch -> a_find key_dec (big l) k = Some c -> good_coll h k c.
Lemma good_ch_tl h x ch : good_ch h (x :: ch) -> good_ch h ch.
Proof. intros G y l k c I. apply (G y l k c). now right. Qed.

(** the sources of a key, in order *)
Definition sources_get (ss : list sparse) (d : option dense) (o : ObjectId) : option ditem :=
  fold_right (fun s r => or_else (sparse_get s o) r) (bind d (fun d => dense_get d o)) ss.
Lemma data_sources_ok h ch k : good_ch h ch ->
  let '(ss, d) := data_sources h ch k in
  Forall (good_sparse (fst k)) ss /\
  match d with Some d => good_dense (fst k) d | None => True end /\
  forall o, sources_get ss d o = look_big h ch k o.
Proof.
  induction ch as [|[x l] ch IH]; intros G; cbn [data_sources look_big]; [auto|].
  specialize (IH (good_ch_tl _ _ _ G)). destruct (a_find key_dec (big l) k) as [c|] eqn:F; [|exact IH].
  destruct (G x l k c (or_introl eq_refl) F) as (A & S & MD & CD).
  assert (E : exists ss' d', (match mdense c, cd_of h k c with
            | Some d, _ => ([], Some d)
            | None, Some d => ([], Some d)
            | None, None => if lookup_parent c then data_sources h ch k else ([], None)
            end) = (ss', d') /\ Forall (good_sparse (fst k)) ss' /\ match d' with Some d => good_dense (fst k) d | None => True end /\
      forall o, sources_get ss' d' o =
         or_else (bind (mdense c) (fun d => dense_get d o))
              (or_else (bind (cd_of h k c) (fun d => dense_get d o))
                (if lookup_parent c then look_big h ch k o else None))).
  { destruct (mdense c) as [d|].
    - destruct MD as (Gd & M & E1 & E2 & E3). do 2 eexists. split; [reflexivity|]. split; [auto|]. split; [auto|].
      intros o. rewrite (cd_of_none _ _ _ E2), E3. cbn. now rewrite or_else_none.
    - destruct (cd_of h k c) as [d|] eqn:CE.
      + destruct (cdense c) as [cr|] eqn:Cc; [|now rewrite (cd_of_none _ _ _ Cc) in CE].
        destruct CD as (E3 & d2 & Ed & Gd). assert (d2 = d) by congruence. subst d2.
        do 2 eexists. split; [reflexivity|]. split; [auto|]. split; [auto|]. intros o. rewrite E3. cbn. now rewrite or_else_none.
      + destruct (data_sources h ch k) as [ss d]. destruct IH as (I1 & I2 & I3). destruct (lookup_parent c).
        * exists ss, d. split; [reflexivity|]. split; [auto|]. split; [auto|]. intros o. cbn. apply I3.
        * do 2 eexists. split; [reflexivity|]. auto. }
  destruct E as (ss' & d' & -> & F1 & F2 & F3).
  destruct (msparse c) as [s|]; cbn [bind].
  - split; [auto|]. split; [auto|]. intros o. cbn. unfold sources_get in F3. now rewrite F3.
  - split; [auto|]. split; [auto|]. intros o. now rewrite F3.
Qed.

(** the merged map: the first source that knows the object *)
Lemma s_find_add m1 (m : smap) : NoDup (map fst m) ->
  let m' := fold_left (fun m '(o, v) => match s_find m o with Some _ => m | None => s_set m o v end) m m1 in
  (NoDup (map fst m1) -> NoDup (map fst m')) /\
  (forall o, In o (map fst m') -> In o (map fst m1) \/ In o (map fst m)) /\
  forall o, s_find m' o = or_else (s_find m1 o) (s_find m o).
Proof.
  revert m1. induction m as [|[o1 v1] m IH]; intros m1 ND; cbn zeta; cbn [fold_left s_find].
  - split; [auto|]. split; [auto|]. intros o. now rewrite or_else_none.
  - inversion ND as [|? ? N1 N2]; subst.
    destruct (s_find m1 o1) as [w|] eqn:F.
    + destruct (IH m1 N2) as (A & B & C). split; [auto|]. split; [intros o I; apply B in I; cbn; tauto|].
      intros o. rewrite C. destruct (same_oid o1 o) eqn:E; auto. apply same_oid_spec in E. subst. now rewrite F.
    + destruct (IH (s_set m1 o1 v1) N2) as (A & B & C). split; [intros H; apply A; now apply s_set_NoDup|]. split.
      * intros o I. apply B in I. rewrite s_set_keys in I. cbn. intuition.
      * intros o. rewrite C, s_find_set. destruct (same_oid o1 o) eqn:E; auto. apply same_oid_spec in E. subst. now rewrite F.
Qed.
Lemma merged_maps_ok alloc ss : Forall (good_sparse alloc) ss ->
  NoDup (map fst (merged_maps ss)) /\ (forall o v, In (o, v) (merged_maps ss) -> real alloc o) /\
  forall o d, sources_get ss d o = or_else (s_find (merged_maps ss) o) (bind d (fun d => dense_get d o)).
Proof.
  intros F. destruct ss as [|s ss]; [cbn; split; [constructor|]; split; [easy|reflexivity]|].
  inversion F as [|? ? (A & B & C) F2]; subst. unfold merged_maps. cbn [sources_get fold_right].
  assert (G : forall o, In o (map fst (sp_map s)) -> real alloc o).
  { intros o I. apply in_map_iff in I as ([o' v] & <- & I). exact (C _ _ I). }
  assert (X : forall m, NoDup (map fst m) -> (forall o, In o (map fst m) -> real alloc o) ->
    let m' := fold_left (fun m s => fold_left (fun m '(o, v) => match s_find m o with Some _ => m | None => s_set m o v end) (sp_map s) m) ss m in
    NoDup (map fst m') /\ (forall o, In o (map fst m') -> real alloc o) /\
    forall o (d : option dense), or_else (s_find m o) (sources_get ss d o) = or_else (s_find m' o) (bind d (fun d => dense_get d o))).
  { clear -F2. induction ss as [|s ss IH]; intros m N R; cbn zeta; cbn [fold_left sources_get fold_right]; [auto|].
    inversion F2 as [|? ? (A & B & C) F3]; subst. destruct (s_find_add m (sp_map s) B) as (X1 & X2 & X3). cbn zeta in X1, X2, X3.
    destruct (IH F3 _ (X1 N)) as (Y1 & Y2 & Y3).
    - intros o I. apply X2 in I as [I|I]; auto. apply in_map_iff in I as ([o' v] & <- & I). exact (C _ _ I).
    - split; [exact Y1|]. split; [exact Y2|]. intros o d. rewrite <- Y3, X3. now rewrite or_else_assoc. }
  destruct (X (sp_map s) B G) as (X1 & X2 & X3). split; [exact X1|]. split; [|intros o d; apply X3].
  intros o v I. apply X2. apply in_map_iff. exists (o, v). auto.
Qed.

Lemma create_mutable_good alloc size k : (asize alloc <= size <= capacity alloc)%N ->
  good_dense alloc (create_mutable alloc size k) /\ is_mutable (create_mutable alloc size k) = true /\
  forall o, dense_get (create_mutable alloc size k) o = None.
Proof.
  intros L. unfold create_mutable. destruct k as [k|]; cbn.
  - split; [|auto]. split; [cbn; intros; discriminate|]. split; [auto|]. split; [auto|]. now intros off x _ H.
  - split; [|auto]. split; [|split; [auto|split; [auto|now intros off x _ H]]]. unfold wf_dense. cbn.
    split; [auto|]. split; [constructor|]. intros off n H. discriminate.
Qed.
Lemma mutable_copy_good alloc d : good_dense alloc d ->
  good_dense alloc (mutable_copy d) /\ is_mutable (mutable_copy d) = true /\
  forall o, real alloc o -> dense_get (mutable_copy d) o = dense_get d o.
Proof.
  intros (W & A & S & Q). destruct (mutable_copy_ok d W) as (W' & M & A' & S' & V & Q').
  split; [|split; [auto|]].
  - split; [auto|]. split; [congruence|]. split; [now rewrite S'|]. now apply Q'.
  - intros o (_ & _ & L). apply V. lia.
Qed.

(** Converting to a mutable dense source keeps every entry *)
Lemma create_mutable_dense_ok h rest k size qtype c : good_coll h k c -> good_ch h rest -> mdense c = None ->
  (asize (fst k) <= size <= capacity (fst k))%N ->
  exists d, create_mutable_dense h rest k size qtype c = Some (mkColl None (Some d) None false) /\
    good_dense (fst k) d /\ is_mutable d = true /\
    forall o, real (fst k) o -> dense_get d o = coll_get h k c (look_big h rest k o) o.
Proof.
  intros (A & S & _ & CD) G MD Sz. unfold create_mutable_dense, coll_get. rewrite MD. cbn [bind or_else].
  destruct (cdense c) as [cr|] eqn:Cc.
  - destruct CD as (LP & d & Ed & Gd). rewrite Ed, LP. cbn [option_map bind].
    destruct (mutable_copy_good _ _ Gd) as (Gm & Mm & Vm).
    destruct (msparse c) as [s|]; cbn [bind or_else].
    + destruct (merged_maps_ok (fst k) [s] (Forall_cons _ S (Forall_nil _))) as (N & R & V).
      destruct (dense_set_map _ _ (merged_maps [s]) A Gm Mm N R) as (d' & E & Gd' & M' & _ & V').
      rewrite E. exists d'. split; [reflexivity|]. split; [auto|]. split; [auto|].
      intros o Ro. rewrite V' by auto. rewrite Vm by auto. specialize (V o (Some d)). cbn in V. cbn [merged_maps fold_left].
      change (sparse_get s o) with (s_find (sp_map s) o). now rewrite or_else_none.
    + exists (mutable_copy d). split; [reflexivity|]. split; [auto|]. split; [auto|].
      intros o Ro. rewrite Vm by auto. now rewrite or_else_none.
  - rewrite (cd_of_none _ _ _ Cc). cbn [option_map bind or_else].
    pose proof (data_sources_ok h rest k G) as DS.
    set (ss0 := match msparse c with Some s => [s] | None => [] end).
    assert (F0 : Forall (good_sparse (fst k)) ss0) by (unfold ss0; destruct (msparse c); auto).
    assert (E : exists ss d, (if lookup_parent c then let '(ps, d) := data_sources h rest k in (ss0 ++ ps, d) else (ss0, None)) = (ss, d) /\
       Forall (good_sparse (fst k)) ss /\ match d with Some d => good_dense (fst k) d | None => True end /\
       forall o, sources_get ss d o = or_else (bind (msparse c) (fun s => sparse_get s o)) (if lookup_parent c then look_big h rest k o else None)).
    { destruct (lookup_parent c).
      - destruct (data_sources h rest k) as [ps d]. destruct DS as (D1 & D2 & D3). exists (ss0 ++ ps), d.
        split; [reflexivity|]. split; [apply Forall_app; auto|]. split; [auto|]. intros o. rewrite <- D3.
        unfold ss0. destruct (msparse c); reflexivity.
      - exists ss0, None. split; [reflexivity|]. split; [auto|]. split; [auto|]. intros o. unfold ss0.
        destruct (msparse c); reflexivity. }
    destruct E as (ss & d & E & F & Gd & V). rewrite E.
    set (d1 := match d with Some d => mutable_copy d | None => create_mutable (fst k) size qtype end).
    assert (X : good_dense (fst k) d1 /\ is_mutable d1 = true /\ forall o, real (fst k) o -> dense_get d1 o = bind d (fun d => dense_get d o)).
    { unfold d1. destruct d as [d|].
      - destruct (mutable_copy_good _ _ Gd) as (Gm & Mm & Vm). auto.
      - destruct (create_mutable_good (fst k) size qtype Sz) as (Gm & Mm & Vm). auto. }
    destruct X as (G1 & M1 & V1).
    assert (H : exists d', match ss with [] => Some (mkColl None (Some d1) None false) | _ =>
        let data := merged_maps ss in
        match dense_set_all d1 (map (fun '(o, _) => Some o) data) (build_slice (map snd data)) with
        | Some d => Some (mkColl None (Some d) None false) | None => None end end = Some (mkColl None (Some d') None false) /\
        good_dense (fst k) d' /\ is_mutable d' = true /\ forall o, real (fst k) o -> dense_get d' o = sources_get ss d o).
    { destruct (merged_maps_ok (fst k) ss F) as (N & R & V2). destruct ss as [|s ss].
      - exists d1. split; [reflexivity|]. split; [auto|]. split; [auto|]. intros o Ro. now rewrite V1.
      - destruct (dense_set_map _ _ (merged_maps (s :: ss)) A G1 M1 N R) as (d' & E2 & Gd' & M' & _ & V').
        exists d'. cbn zeta. rewrite E2. split; [reflexivity|]. split; [auto|]. split; [auto|]. intros o Ro.
        rewrite V' by auto. rewrite V2. now rewrite V1. }
    destruct H as (d' & E2 & G2 & M2 & V2). exists d'. split; [|split; [auto|split; [auto|]]].
    + rewrite <- E2. unfold d1. destruct d; reflexivity.
    + intros o Ro. rewrite V2 by auto. rewrite V. reflexivity.
Qed.

Lemma mutable_source_ok h rest k qtype n c : good_coll h k c -> good_ch h rest ->
  exists c', mutable_source h rest k qtype n c = Some c' /\ good_coll h k c' /\
    (mdense c' <> None \/ msparse c' <> None) /\ (mdense c' = None -> cdense c' = cdense c) /\ (mdense c' <> None -> cdense c' = None) /\
    (forall o, real (fst k) o -> coll_get h k c' (look_big h rest k o) o = coll_get h k c (look_big h rest k o) o).
Proof.
  intros Gc G. unfold mutable_source. destruct (mdense c) as [d|] eqn:MD.
  - exists c. split; [reflexivity|]. split; [auto|]. split; [left; congruence|]. split; [congruence|]. split; [|auto].
    intros _. destruct Gc as (_ & _ & M & _). rewrite MD in M. apply M.
  - destruct (N.leb_spec n (capacity (fst k) / 64)).
    + eexists. split; [reflexivity|]. destruct Gc as (A & S & _ & CD). split; [|split; [right; discriminate|split; [auto|split; [easy|]]]].
      * split; [exact A|]. cbn. split; [|split; [auto|exact CD]].
        destruct (msparse c) as [s|]; auto. split; [reflexivity|]. split; [constructor|easy].
      * intros o Ro. unfold coll_get. cbn. rewrite MD. cbn.
        change (cd_of h k {| msparse := _; mdense := None; cdense := cdense c; lookup_parent := lookup_parent c |}) with (cd_of h k c).
        destruct (msparse c); reflexivity.
    + destruct (create_mutable_dense_ok h rest k (capacity (fst k)) qtype c Gc G MD (conj (asize_ok _) (N.le_refl _))) as (d & E & Gd & M & V).
      rewrite E. eexists. split; [reflexivity|]. destruct Gc as (A & _).
      split; [|split; [left; discriminate|split; [easy|split; [auto|]]]].
      * split; [exact A|]. cbn. auto 10.
      * intros o Ro. rewrite <- V by auto. unfold coll_get. cbn. destruct (dense_get d o); auto.
Qed.
End Coll.
