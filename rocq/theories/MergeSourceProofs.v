(** Merging of sources. *)
From Coq Require Import String NArith ZArith List Bool Arith Lia.
From Verif Require Import ObjectIdModel ObjectIdProofs SchemaModel ItemModel DictModel
  SourceModel SourceSpec SourceProofs BagModel CollProofs MergeModel.
From Coq Require Import ZifyBool ZifyN.
Import ListNotations.
Local Open Scope nat_scope.

(** ** Values *)
Lemma float_eq_sym n z a b : float_eq n z a b = float_eq n z b a.
Proof.
  unfold float_eq. rewrite (N.eqb_sym a b), (andb_comm (negb (n a))), (andb_comm (z a)). reflexivity.
Qed.
Lemma float_same n z a : float_eq n z a a || (n a && n a) = true.
Proof. unfold float_eq. rewrite N.eqb_refl. now destruct (n a). Qed.
Lemma strict_differ_refl x : strict_differ x x = false.
Proof.
  destruct x as [[k x]|]; auto. unfold strict_differ. change (existT cval k x) with (val k x). rewrite as_kind_val.
  destruct k; cbn [cval_differ]; try (now destruct (cval_eq_dec _ x x)); now rewrite float_same.
Qed.
Lemma differ_strict x y : differ x y = true -> strict_differ x y = true.
Proof.
  destruct x as [[k x]|], y as [b|]; auto. unfold differ, strict_differ, item_eq.
  destruct (as_kind k b) as [z|] eqn:E; auto. apply as_kind_some in E. subst b. intros H.
  apply negb_true_iff in H. apply orb_false_iff in H as [H1 H2].
  destruct k; cbn [cval_differ]; cbn [is_nan val] in H2; try (destruct (cval_eq_dec _ x z); [discriminate|reflexivity]).
  - now rewrite H1, H2.
  - now rewrite H1, H2.
Qed.
Lemma differ_refl x : differ x x = false.
Proof.
  destruct (differ x x) eqn:E; auto. apply differ_strict in E. now rewrite strict_differ_refl in E.
Qed.
Lemma item_eq_sym a b : item_eq a b = item_eq b a.
Proof.
  destruct a as [k x], b as [k' y]. unfold item_eq. change (existT cval k' y) with (val k' y). change (existT cval k x) with (val k x).
  destruct (kind_eq_dec k k') as [e|n].
  - subst k'. rewrite !as_kind_val. destruct k; try apply float_eq_sym;
    (match goal with |- context [cval_eq_dec ?k x y] => destruct (cval_eq_dec k x y), (cval_eq_dec k y x) end; congruence).
  - rewrite !as_kind_other by congruence. reflexivity.
Qed.
Lemma strict_differ_sym x y : strict_differ x y = strict_differ y x.
Proof.
  destruct x as [[k x]|], y as [[k' y]|]; auto. unfold strict_differ. change (existT cval k' y) with (val k' y). change (existT cval k x) with (val k x).
  destruct (kind_eq_dec k k') as [e|n].
  - subst k'. rewrite !as_kind_val. destruct k; cbn [cval_differ]; try (now rewrite float_eq_sym, andb_comm);
    (match goal with |- context [cval_eq_dec ?k x y] => destruct (cval_eq_dec k x y), (cval_eq_dec k y x) end; congruence).
  - rewrite !as_kind_other by congruence. reflexivity.
Qed.
Lemma differ_sym x y : differ x y = differ y x.
Proof.
  destruct x as [a|], y as [b|]; auto. unfold differ. now rewrite item_eq_sym, (andb_comm (is_nan a)).
Qed.
Lemma clash_sym x y : clash differ x y = clash differ y x.
Proof. destruct x, y; auto. apply differ_sym. Qed.
Lemma clash_strict_sym x y : clash strict_differ x y = clash strict_differ y x.
Proof. destruct x, y; auto. apply strict_differ_sym. Qed.
Lemma clash_refl x : clash differ x x = false.
Proof. destruct x; auto. apply differ_refl. Qed.
Lemma clash_strict x y : clash differ x y = true -> clash strict_differ x y = true.
Proof. destruct x, y; auto. apply differ_strict. Qed.
Lemma combine_same {A} p (x : option A) : combine_entries p x x = x.
Proof. destruct p, x; reflexivity. Qed.
Lemma combine_reverse {A} p (x y : option A) : combine_entries (reverse_policy p) y x = combine_entries p x y \/
  (p = RaiseOnConflict /\ x <> None /\ y <> None).
Proof. destruct p, x, y; cbn; auto. right. repeat split; congruence. Qed.

(** ** Loops that stop at an error *)
Lemma fold_err_stuck {A S} (f : S -> A -> S * bool) l s :
  fold_left (fun '(s, err) x => if err : bool then (s, err) else f s x) l (s, true) = (s, true).
Proof. induction l; cbn; auto. Qed.
Lemma fold_err_cons {A S} (f : S -> A -> S * bool) x l s :
  fold_err f (x :: l) s = let '(s', e) := f s x in if e then (s', true) else fold_err f l s'.
Proof.
  unfold fold_err. cbn. destruct (f s x) as [s' [|]]; [apply fold_err_stuck|reflexivity].
Qed.

(** what a merge says: [get]s before and after, over the domain *)
Definition merged {D} (p : policy) (dom : D -> Prop) (this other after : D -> entry) (err : bool) : Prop :=
  if err then p = RaiseOnConflict /\ exists o, dom o /\ clash strict_differ (this o) (other o) = true
  else forall o, dom o -> after o = combine_entries p (this o) (other o) /\
       (p = RaiseOnConflict -> clash differ (this o) (other o) = false).

Lemma merged_ext {D} p (dom : D -> Prop) t t' o o' a a' err :
  (forall x, dom x -> t x = t' x) -> (forall x, dom x -> o x = o' x) -> (forall x, dom x -> a x = a' x) ->
  merged p dom t o a err -> merged p dom t' o' a' err.
Proof.
  intros T O A M. unfold merged in *. destruct err.
  - destruct M as (E & x & Dx & C). split; auto. exists x. split; auto. now rewrite <- T, <- O.
  - intros x Dx. rewrite <- T, <- O, <- A by auto. auto.
Qed.
Lemma is_raise_spec p : is_raise p = true <-> p = RaiseOnConflict.
Proof. destruct p; split; easy. Qed.

Section Entries.
Context {S : Type} (get : S -> ObjectId -> option ditem) (set : S -> ObjectId -> ditem -> S)
  (inv : S -> Prop) (dom : ObjectId -> Prop) (fits : ObjectId -> ditem -> Prop).
Hypothesis laws : forall s o v, inv s -> dom o -> fits o v ->
  inv (set s o v) /\ forall o', dom o' -> get (set s o v) o' = if same_oid o o' then Some v else get s o'.
Lemma merge_entries_ok p es : forall s, inv s -> NoDup (map fst es) -> (forall o v, In (o, v) es -> dom o /\ fits o v) ->
  let '(s', err) := fold_err (merge_entry get set p) es s in
  inv s' /\ merged p dom (get s) (s_find es) (get s') err.
Proof.
  induction es as [|[o v] es IH]; intros s I N D.
  - cbn. split; auto. intros o Do. split; auto. destruct (get s o); auto.
  - inversion N as [|? ? N1 N2]; subst. assert (Do : dom o /\ fits o v) by (apply (D o v); now left). destruct Do as [Do Fo].
    assert (D' : forall o v, In (o, v) es -> dom o /\ fits o v) by (intros; eapply D; right; eauto).
    assert (No : s_find es o = None) by now apply s_find_none.
    destruct (laws s o v I Do Fo) as (I2 & G2). rewrite fold_err_cons. unfold merge_entry at 1.
    assert (Put : p = Overwrite \/ get s o = None ->
      let '(s', err) := fold_err (merge_entry get set p) es (set s o v) in
      inv s' /\ merged p dom (get s) (s_find ((o, v) :: es)) (get s') err).
    { intros C. specialize (IH (set s o v) I2 N2 D').
      destruct (fold_err (merge_entry get set p) es (set s o v)) as [s' err]. destruct IH as [I' M]. split; auto.
      unfold merged in *. destruct err.
      - destruct M as (Er & o1 & D1 & Cl). split; auto. exists o1. split; auto. rewrite G2 in Cl by auto. cbn [s_find].
        destruct (same_oid o o1) eqn:E; auto. apply same_oid_spec in E. subst. rewrite No in Cl. easy.
      - intros o1 D1. destruct (M o1 D1) as [M1 M2]. rewrite G2 in M1, M2 by auto. cbn [s_find].
        destruct (same_oid o o1) eqn:E; auto. apply same_oid_spec in E. subst o1. rewrite No in M1. rewrite M1. cbn. split.
        + destruct C as [-> | -> ]; [|reflexivity]. now destruct (get s o).
        + intros R. destruct C as [-> | -> ]; easy. }
    assert (Skip : forall w, get s o = Some w -> p <> Overwrite ->
      let '(s', err) := (if is_raise p && differ w v then (s, true) else fold_err (merge_entry get set p) es s) in
      inv s' /\ merged p dom (get s) (s_find ((o, v) :: es)) (get s') err).
    { intros w Gw No2. destruct (is_raise p && differ w v) eqn:C.
      - split; auto. apply andb_true_iff in C as [C1 C2]. apply is_raise_spec in C1. split; auto. exists o. split; auto.
        cbn [s_find]. rewrite same_oid_refl, Gw. now apply differ_strict.
      - specialize (IH s I N2 D'). destruct (fold_err (merge_entry get set p) es s) as [s' err].
        destruct IH as [I' M]. split; auto. unfold merged in *. destruct err.
        + destruct M as (Er & o1 & D1 & Cl). split; auto. exists o1. split; auto. cbn [s_find].
          destruct (same_oid o o1) eqn:E; auto. apply same_oid_spec in E. subst. rewrite No in Cl. now destruct (get s o1).
        + intros o1 D1. destruct (M o1 D1) as [M1 M2]. cbn [s_find].
          destruct (same_oid o o1) eqn:E; auto. apply same_oid_spec in E. subst o1. rewrite No in M1. rewrite M1, Gw. split.
          * now destruct p.
          * intros ->. cbn in *. auto. }
    destruct p; cbn [is_overwrite].
    + destruct (get s o) as [w|] eqn:G.
      * apply (Skip w); auto; discriminate.
      * apply Put; auto.
    + apply Put; auto.
    + destruct (get s o) as [w|] eqn:G.
      * apply (Skip w); auto; discriminate.
      * apply Put; auto.
Qed.
End Entries.

(** ** Sparse sources *)
Definition first_in (ms : list smap) (o : ObjectId) : option ditem :=
  fold_right (fun m r => or_else (s_find m o) r) None ms.
Lemma sources_first ss o : sources_get ss None o = first_in (map sp_map ss) o.
Proof. induction ss as [|s ss IH]; auto. cbn [map first_in fold_right]. unfold first_in in IH. now rewrite <- IH. Qed.
Lemma sources_get_split ss d o : sources_get ss d o = or_else (sources_get ss None o) (bind d (fun d => dense_get d o)).
Proof.
  induction ss as [|s ss IH]; auto. unfold sources_get in *. cbn [fold_right]. rewrite IH. now rewrite or_else_assoc.
Qed.
Lemma seen_spec o seen : existsb (same_oid o) seen = true <-> In o seen.
Proof.
  rewrite existsb_exists. split.
  - intros (x & I & E). apply same_oid_spec in E. now subst.
  - intros I. exists o. now rewrite same_oid_refl.
Qed.
Lemma s_find_filter (f : ObjectId -> bool) (m : smap) o :
  s_find (filter (fun '(o, _) => f o) m) o = if f o then s_find m o else None.
Proof.
  induction m as [|[o1 v1] m IH]; cbn; [now destruct (f o)|]. destruct (f o1) eqn:F; cbn; rewrite ?IH.
  - destruct (same_oid o1 o) eqn:E; auto. apply same_oid_spec in E. subst. now rewrite F.
  - destruct (same_oid o1 o) eqn:E; auto. apply same_oid_spec in E. subst. now rewrite F.
Qed.
Lemma s_find_app (a b : smap) o : s_find (a ++ b) o = or_else (s_find a o) (s_find b o).
Proof. induction a as [|[o1 v1] a IH]; cbn; auto. now destruct (same_oid o1 o). Qed.
Lemma process_sparse_ok ms : Forall (fun m => NoDup (map fst m)) ms -> forall seen,
  let es := process_sparse seen ms in
  NoDup (map fst es) /\ (forall o v, In (o, v) es -> ~ In o seen /\ exists m, In m ms /\ In (o, v) m) /\
  forall o, s_find es o = if existsb (same_oid o) seen then None else first_in ms o.
Proof.
  induction ms as [|m ms IH]; intros F seen; cbn zeta; cbn [process_sparse first_in fold_right].
  - split; [constructor|]. split; [easy|]. intros o. now destruct (existsb (same_oid o) seen).
  - inversion F as [|? ? F1 F2]; subst. destruct (IH F2 (seen ++ map fst m)) as (N & I & V).
    set (es := process_sparse (seen ++ map fst m) ms) in *. set (f := filter (fun '(o, _) => negb (existsb (same_oid o) seen)) m).
    assert (If : forall o v, In (o, v) f -> In (o, v) m /\ ~ In o seen).
    { intros o v J. apply filter_In in J as [J1 J2]. split; auto. intros K. apply seen_spec in K. now rewrite K in J2. }
    split; [|split].
    + rewrite map_app. clear -F1 If N I. revert If. unfold f. clear f. set (f := filter _ m). intros If.
      assert (Nf : NoDup (map fst f)).
      { unfold f. clear -F1. induction m as [|[o v] m IH]; cbn; [constructor|]. inversion F1; subst.
        destruct (negb (existsb (same_oid o) seen)); auto. cbn. constructor; auto. intros K. apply in_map_iff in K as ([o2 v2] & E & K).
        cbn in E. subst. apply filter_In in K as [K _]. apply H1. apply in_map_iff. exists (o, v2). auto. }
      clearbody f. clear F1. induction f as [|[o v] f IHf]; cbn; auto. inversion Nf; subst. constructor; auto.
      * intros K. apply in_app_iff in K as [K|K]; auto. apply in_map_iff in K as ([o2 v2] & E & K). cbn in E. subst.
        destruct (I o v2 K) as [NI _]. apply NI. apply in_app_iff. right. destruct (If o v (or_introl eq_refl)) as [J _].
        apply in_map_iff. exists (o, v). auto.
      * apply IHf; auto. intros. apply If. now right.
    + intros o v J. apply in_app_iff in J as [J|J].
      * destruct (If o v J). split; auto. exists m. split; auto. now left.
      * destruct (I o v J) as (N1 & m' & I1 & I2). split; [|exists m'; split; auto; now right].
        intros K. apply N1. apply in_app_iff. auto.
    + intros o. rewrite s_find_app, V. unfold f. rewrite (s_find_filter (fun o => negb (existsb (same_oid o) seen))). rewrite existsb_app.
      destruct (existsb (same_oid o) seen); cbn; auto.
      destruct (s_find m o) as [w|] eqn:E; cbn; auto.
      destruct (existsb (same_oid o) (map fst m)) eqn:K; auto. apply seen_spec in K. apply s_find_none in E. tauto.
Qed.

Section Merging.
Variable asize : ObjectId -> N.
Notation real := (real asize).
Notation good_sparse := (good_sparse asize).
Notation good_dense := (good_dense asize).

Lemma good_sparse_set alloc s o v : is_allocation alloc -> good_sparse alloc s -> real alloc o ->
  good_sparse alloc (sparse_set s o v) /\
  forall o', sparse_get (sparse_set s o v) o' = if same_oid o o' then Some v else sparse_get s o'.
Proof.
  intros A (E & N & R) Ro. assert (B : belongs s o = true).
  { unfold belongs. rewrite E. now apply (real_contains asize). }
  split.
  - split; [now rewrite sparse_set_alloc|]. unfold sparse_set. rewrite B. cbn. split; [now apply s_set_NoDup|].
    intros o' v' I. assert (J : In o' (map fst (s_set (sp_map s) o v))) by (apply in_map_iff; exists (o', v'); auto).
    apply s_set_keys in J as [->|J]; auto. apply in_map_iff in J as ([o2 v2] & E2 & J). cbn in E2. subst. eauto.
  - intros o'. rewrite sparse_set_get, B. now rewrite andb_true_r.
Qed.
Lemma good_sparse_maps alloc ss : Forall (good_sparse alloc) ss ->
  Forall (fun m : smap => NoDup (map fst m)) (map sp_map ss) /\
  forall o v m, In m (map sp_map ss) -> In (o, v) m -> real alloc o.
Proof.
  intros F. split.
  - rewrite Forall_forall in *. intros m I. apply in_map_iff in I as (s & <- & I). apply (F s I).
  - intros o v m I J. apply in_map_iff in I as (s & <- & I). rewrite Forall_forall in F. destruct (F s I) as (_ & _ & R). eauto.
Qed.
(** data_bag.cc:205-220 *)
Lemma sparse_set_list alloc (m : smap) : is_allocation alloc -> NoDup (map fst m) -> (forall o v, In (o, v) m -> real alloc o) ->
  forall s, good_sparse alloc s ->
  let s' := fold_left (fun res '(o, v) => sparse_set res o v) m s in
  good_sparse alloc s' /\ forall o, sparse_get s' o = or_else (s_find m o) (sparse_get s o).
Proof.
  intros A. induction m as [|[o v] m IH]; intros N R s G; cbn zeta; cbn [fold_left s_find]; [auto|].
  inversion N as [|? ? N1 N2]; subst.
  destruct (good_sparse_set alloc s o v A G) as (G1 & V1); [apply (R o v); now left|].
  destruct (IH N2 (fun o v I => R o v (or_intror I)) _ G1) as (G2 & V2). split; auto. intros o'. rewrite V2, V1.
  destruct (same_oid o o') eqn:E; auto. apply same_oid_spec in E. subst. apply s_find_none in N1. now rewrite N1.
Qed.
Lemma merge_to_sparse_ok alloc ss : is_allocation alloc -> Forall (good_sparse alloc) ss ->
  match merge_to_sparse ss with
  | Some s => good_sparse alloc s /\ forall o, sparse_get s o = sources_get ss None o
  | None => ss = []
  end.
Proof.
  intros A F. unfold merge_to_sparse. rewrite <- (rev_involutive ss) in *. rewrite rev_involutive.
  set (r := rev ss) in *. clearbody r. destruct r as [|s r]; auto. cbn [rev] in *.
  apply Forall_app in F as [F Fs]. inversion Fs as [|? ? Gs _]; subst.
  assert (X : forall acc rest, (forall o, sparse_get acc o = sources_get rest None o) -> good_sparse alloc acc ->
    let s' := fold_left (fun res s => fold_left (fun res '(o, v) => sparse_set res o v) (sp_map s) res) r acc in
    good_sparse alloc s' /\ forall o, sparse_get s' o = sources_get (rev r ++ rest) None o).
  { clear Gs Fs s. induction r as [|s r IH]; intros acc rest V G; cbn zeta; cbn [fold_left rev app]; auto.
    cbn [rev] in F. apply Forall_app in F as [F Fs]. inversion Fs as [|? ? (E & N & R) _]; subst.
    destruct (sparse_set_list alloc (sp_map s) A N R acc G) as (G1 & V1).
    destruct (IH F _ (s :: rest) ltac:(intros o; rewrite V1, V; reflexivity) G1) as (G2 & V2).
    split; auto. intros o. rewrite V2. now rewrite <- app_assoc. }
  apply X; auto. intros o. cbn. now rewrite or_else_none.
Qed.

Lemma sparse_merge_ok p alloc s ss : is_allocation alloc -> good_sparse alloc s -> Forall (good_sparse alloc) ss ->
  let '(s', err) := sparse_merge_sparse p s ss in
  good_sparse alloc s' /\ merged p (real alloc) (sparse_get s) (sources_get ss None) (sparse_get s') err.
Proof.
  intros A G F. destruct (good_sparse_maps alloc ss F) as [N R]. destruct (process_sparse_ok _ N []) as (N1 & I1 & V1).
  assert (X := merge_entries_ok sparse_get sparse_set (good_sparse alloc) (real alloc) (fun _ _ => True)
    (fun s o v I D _ => let '(conj a b) := good_sparse_set alloc s o v A I D in conj a (fun o' _ => b o')) p
    (process_sparse [] (map sp_map ss)) s G N1).
  unfold sparse_merge_sparse. destruct (fold_err _ _ s) as [s' err]. destruct X as [X1 X2].
  - intros o v I. destruct (I1 o v I) as (_ & m & I2 & I3). split; eauto.
  - split; auto. unfold merged in *. destruct err.
    + destruct X2 as (E & o & D & C). split; auto. exists o. split; auto. rewrite V1 in C. cbn in C. now rewrite sources_first.
    + intros o D. destruct (X2 o D) as [E C]. rewrite V1 in E, C. cbn in E, C. now rewrite sources_first.
Qed.

Hypothesis asize_ok : forall a, (asize a <= capacity a)%N.
Definition good_mutable (alloc : ObjectId) (d : dense) : Prop := good_dense alloc d /\ is_mutable d = true.
Lemma dense_set_law alloc d o v : is_allocation alloc -> good_mutable alloc d -> real alloc o ->
  good_mutable alloc (dense_set' d o v) /\
  forall o', real alloc o' -> dense_get (dense_set' d o v) o' = if same_oid o o' then Some v else dense_get d o'.
Proof.
  intros A [G M] R. destruct (dense_set_one asize asize_ok alloc d o v A G M R) as (d' & E & G' & M' & _ & V).
  unfold dense_set'. rewrite E. split; [split|]; auto.
Qed.
Lemma dense_entries_ok p alloc d es (other : ObjectId -> entry) : is_allocation alloc -> good_mutable alloc d ->
  NoDup (map fst es) -> (forall o v, In (o, v) es -> real alloc o) -> (forall o, real alloc o -> s_find es o = other o) ->
  let '(d', err) := fold_err (merge_entry dense_get dense_set' p) es d in
  good_mutable alloc d' /\ merged p (real alloc) (dense_get d) other (dense_get d') err.
Proof.
  intros A G N R V.
  assert (X := merge_entries_ok dense_get dense_set' (good_mutable alloc) (real alloc) (fun _ _ => True)
    (fun s o v I D _ => dense_set_law alloc s o v A I D) p es d G N (fun o v I => conj (R o v I) Logic.I)).
  destruct (fold_err _ _ d) as [d' err]. destruct X as [X1 X2]. split; auto. unfold merged in *. destruct err.
  - destruct X2 as (E & o & D & C). split; auto. exists o. split; auto. now rewrite <- V.
  - intros o D. destruct (X2 o D) as [E C]. now rewrite <- V.
Qed.
Lemma dense_merge_sparse_ok p alloc d ss : is_allocation alloc -> good_mutable alloc d -> Forall (good_sparse alloc) ss ->
  let '(d', err) := dense_merge_sparse p d ss in
  good_mutable alloc d' /\ merged p (real alloc) (dense_get d) (sources_get ss None) (dense_get d') err.
Proof.
  intros A G F. destruct (good_sparse_maps alloc ss F) as [N R]. destruct (process_sparse_ok _ N []) as (N1 & I1 & V1).
  apply dense_entries_ok; auto.
  - intros o v I. destruct (I1 o v I) as (_ & m & I2 & I3). eauto.
  - intros o _. rewrite V1. cbn. now rewrite sources_first.
Qed.
Lemma quiet_mono n m f : (n <= m)%N -> quiet n f -> quiet m f.
Proof. intros L Q off x G. apply Q. lia. Qed.
Lemma real_offset alloc off : is_allocation alloc -> (off < asize alloc)%N -> real alloc (object_by_offset alloc off) /\ offset (object_by_offset alloc off) = off.
Proof.
  intros A L. assert (L2 : (off < capacity alloc)%N) by (specialize (asize_ok alloc); lia).
  assert (E := object_by_offset_offset alloc off A L2). split; auto.
  split; [now apply object_by_offset_wf|]. split; [now apply object_by_offset_alloc|]. now rewrite E.
Qed.
Lemma real_by_offset alloc o : real alloc o -> object_by_offset alloc (offset o) = o.
Proof. intros (W & <- & _). now apply object_reassemble. Qed.

Lemma sparse_fill_all ss o cur : fold_left (fun cur s => sparse_fill s o cur) ss cur = or_else cur (sources_get ss None o).
Proof.
  revert cur. induction ss as [|s ss IH]; intros cur; cbn [fold_left]; [now destruct cur|].
  rewrite IH. unfold sparse_fill. destruct cur; auto.
Qed.
Lemma dense_merge_plain_ok p alloc d od : is_allocation alloc -> good_mutable alloc d -> good_dense alloc od ->
  exists d' err, dense_merge p d (get_all od) = Some (d', err) /\
  good_mutable alloc d' /\ merged p (real alloc) (dense_get d) (dense_get od) (dense_get d') err.
Proof.
  intros A G (Wo & Ao & So & Qo).
  destruct G as [(W & Al & Sz & Q) M]. destruct (get_all_ok od Wo (quiet_mono _ _ _ (proj1 So) Qo)) as (Ws & Ss & Vs).
  destruct (dense_merge_ok p d (get_all od) W M Ws (quiet_mono _ _ _ (proj1 Sz) Q)) as (d' & err & E & W' & M' & A' & S' & V & V2 & Er).
  { intros off x L. rewrite Vs. apply Qo. lia. }
  exists d', err. split; [exact E|]. rewrite Ss in V, V2, Er. split.
  + split; auto. split; auto. split; [congruence|]. split; [now rewrite S'|]. intros off x L H.
    destruct (N.lt_ge_cases off (N.min (de_size od) (de_size d))) as [Lt|Ge].
    * rewrite V, Vs in H by auto. unfold combine_entries in H.
      destruct (dense_at od off) as [y|] eqn:Y; [|now apply (Q off)].
      assert (y = None) by now apply (Qo off). subst y.
      destruct (dense_at d off) as [z|] eqn:Z; [|now injection H as <-].
      assert (z = None) by now apply (Q off). subst z. destruct p; now injection H as <-.
    * specialize (V2 off Ge). rewrite H in V2. cbn in V2. destruct x as [x|]; auto. cbn in V2.
      destruct (dense_at d off) as [z|] eqn:Z; [|easy]. assert (z = None) by now apply (Q off). subst z. easy.
  + unfold merged. destruct err.
    * symmetry in Er. apply existsb_exists in Er as (off & I & C). apply in_below in I. unfold conflicts in C.
      destruct p; try easy. split; auto. rewrite Vs in C.
      destruct (N.lt_ge_cases off (asize alloc)) as [Lt|Ge].
      -- exists (object_by_offset alloc off). destruct (real_offset alloc off A Lt) as [R Eo]. split; auto.
         unfold dense_get. now rewrite Eo.
      -- exfalso. unfold clash in C. destruct (dense_at d off) as [x|] eqn:X; [|easy]. destruct (dense_at od off) as [y|] eqn:Y; [|easy].
         rewrite (Q off x Ge X), (Qo off y Ge Y) in C. easy.
    * intros o (Wf & Eo & Lo). unfold dense_get.
      assert (I : (offset o < N.min (de_size od) (de_size d))%N) by lia. split; [rewrite V by auto; now rewrite Vs|].
      intros ->. destruct (clash differ (dense_at d (offset o)) (dense_at od (offset o))) eqn:C; auto.
      symmetry in Er. rewrite <- not_true_iff_false in Er. exfalso. apply Er. apply existsb_exists. exists (offset o).
      split; [now apply in_below|]. cbn. rewrite Vs. now apply clash_strict.
Qed.
Definition fill_items (alloc : ObjectId) (od : dense) (os : list sparse) (size : N) : list (ObjectId * ditem) :=
  flat_map (fun off =>
          let o := object_by_offset alloc off in
          match dense_fill od o (fold_left (fun cur s => sparse_fill s o cur) os None) with
          | Some x => [(o, x)]
          | None => []
          end) (below size).
Lemma fill_items_ok alloc od os : is_allocation alloc -> good_dense alloc od ->
  let es := fill_items alloc od os (asize alloc) in
  NoDup (map fst es) /\ (forall o v, In (o, v) es -> real alloc o) /\
  forall o, real alloc o -> s_find es o = sources_get os (Some od) o.
Proof.
  intros A (Wo & Ao & So & Qo). cbn zeta. unfold fill_items.
  assert (V : forall off, (off < asize alloc)%N -> dense_fill od (object_by_offset alloc off)
     (fold_left (fun cur s => sparse_fill s (object_by_offset alloc off) cur) os None) = sources_get os (Some od) (object_by_offset alloc off)).
  { intros off L. destruct (real_offset alloc off A L) as [R _]. rewrite dense_fill_ok; auto.
    - rewrite sparse_fill_all, (sources_get_split os (Some od)). cbn. now destruct (sources_get os None _).
    - rewrite Ao. now apply (real_contains asize). }
  assert (B : forall off, In off (below (asize alloc)) -> (off < asize alloc)%N) by (intros off; apply in_below).
  assert (Nb := NoDup_below (asize alloc)).
  assert (C : forall o, real alloc o -> In (offset o) (below (asize alloc))) by (intros o (_ & _ & L); now apply in_below).
  assert (X : forall l, NoDup l -> (forall off, In off l -> (off < asize alloc)%N) ->
     let es := flat_map (fun off => let o := object_by_offset alloc off in
          match dense_fill od o (fold_left (fun cur s => sparse_fill s o cur) os None) with
          | Some x => [(o, x)] | None => [] end) l in
     NoDup (map fst es) /\ (forall o v, In (o, v) es -> real alloc o /\ In (offset o) l) /\
     forall o, real alloc o -> In (offset o) l -> s_find es o = sources_get os (Some od) o).
  { clear Nb B C. induction l as [|off l IH]; intros N B; cbn zeta; cbn [flat_map].
    - split; [constructor|]. split; easy.
    - apply NoDup_cons_iff in N as [N1 N2]. destruct (IH N2) as (X1 & X2 & X3); [intros; apply B; now right|].
      rewrite V by (apply B; now left). destruct (real_offset alloc off A) as [Ro Eo]; [apply B; now left|].
      set (o := object_by_offset alloc off) in *.
      assert (Nx : forall o', real alloc o' -> In (offset o') l -> o' <> o) by (intros o' _ I ->; rewrite Eo in I; auto).
      destruct (sources_get os (Some od) o) as [x|] eqn:Sx; cbn [app].
      + split; [cbn; constructor; auto|].
        * intros I. apply in_map_iff in I as ([o2 v2] & E2 & I). cbn in E2. subst o2. destruct (X2 o v2 I) as [_ J]. rewrite Eo in J. auto.
        * split.
          -- intros o' v' [E|I]; [injection E as <- <-; split; auto; now left|]. destruct (X2 o' v' I). split; auto. now right.
          -- intros o' R' [E|I]; cbn [s_find].
             ++ assert (o' = o) by (apply (real_inj asize alloc); auto; congruence). subst o'. now rewrite same_oid_refl.
             ++ destruct (same_oid o o') eqn:E; [|auto]. apply same_oid_spec in E. symmetry in E. now elim (Nx o' R' I).
      + split; auto. split.
        * intros o' v' I. destruct (X2 o' v' I). split; auto. now right.
        * intros o' R' [E|I]; auto. assert (o' = o) by (apply (real_inj asize alloc); auto; congruence). subst o'.
          rewrite Sx. apply s_find_none. intros I. apply in_map_iff in I as ([o2 v2] & E2 & I). cbn in E2. subst o2.
          destruct (X2 o v2 I) as [_ J]. rewrite Eo in J. auto. }
  destruct (X _ Nb B) as (X1 & X2 & X3). split; auto. split; [intros o v I; apply (X2 o v I)|auto].
Qed.
End Merging.

Lemma dense_merge_all_ok asize p alloc d od os : (forall a, (asize a <= capacity a)%N) -> is_allocation alloc ->
  good_mutable asize alloc d -> good_dense asize alloc od -> Forall (good_sparse asize alloc) os ->
  exists d' err, dense_merge_all p d alloc od os = Some (d', err) /\
  good_mutable asize alloc d' /\ merged p (real asize alloc) (dense_get d) (sources_get os (Some od)) (dense_get d') err.
Proof.
  intros Ok A G Go F. unfold dense_merge_all. destruct os as [|s0 os0].
  - exact (dense_merge_plain_ok asize Ok p alloc d od A G Go).
  - set (os := s0 :: os0) in *. clearbody os.
    destruct G as [(W & Al & Sz & Q) M]. destruct Go as (Wo & Ao & So & Qo).
    set (size := N.min (de_size d) (de_size od)). set (asz := fun x => if oid_eq_dec x alloc then size else asize x).
    assert (Ez : asz alloc = size) by (unfold asz; destruct (oid_eq_dec alloc alloc); [auto|congruence]).
    assert (Ok' : forall a, (asz a <= capacity a)%N).
    { intros a. unfold asz. destruct (oid_eq_dec a alloc) as [->|]; auto. unfold size. lia. }
    assert (G1 : good_mutable asz alloc d).
    { split; auto. split; auto. split; auto. rewrite Ez. split; [unfold size; lia|]. eapply quiet_mono; [|exact Q]. unfold size. lia. }
    assert (G2 : good_dense asz alloc od).
    { split; auto. split; auto. rewrite Ez. split; [unfold size; lia|]. eapply quiet_mono; [|exact Qo]. unfold size. lia. }
    fold (fill_items alloc od os size).
    destruct (fill_items_ok asz Ok' alloc od os A G2) as (N & R & V). rewrite Ez in N, R, V. set (items := fill_items alloc od os size) in *.
    assert (RR : forall o, real asize alloc o -> real asz alloc o).
    { intros o (R1 & R2 & R3). split; auto. split; auto. rewrite Ez. unfold size. lia. }
    assert (Os : forall o, (asize alloc <= offset o)%N -> sources_get os None o = None).
    { intros o N1. rewrite Forall_forall in F. clear -F N1. induction os as [|s os IH]; auto. unfold sources_get in *. cbn [fold_right].
      rewrite IH by (intros; apply F; now right). rewrite or_else_none. destruct (F s (or_introl eq_refl)) as (_ & _ & R).
      unfold sparse_get. apply s_find_none. intros I. apply in_map_iff in I as ([o2 v] & E & I). cbn in E. subst. destruct (R o v I) as (_ & _ & L). lia. }
    assert (Qs : forall o x, (asize alloc <= offset o)%N -> sources_get os (Some od) o = Some x -> x = None).
    { intros o x L E. rewrite sources_get_split, Os in E by auto. cbn in E. exact (Qo _ _ L E). }
    assert (Fit : forall o v, In (o, v) items -> (offset o < asize alloc)%N \/ v = None).
    { intros o v I. destruct (N.lt_ge_cases (offset o) (asize alloc)); auto. right. apply (Qs o); auto. rewrite <- V by eauto. now apply s_find_in. }
    set (inv := fun d' => good_mutable asz alloc d' /\ quiet (asize alloc) (dense_at d')).
    assert (Back : forall d' err, inv d' -> merged p (real asz alloc) (dense_get d) (sources_get os (Some od)) (dense_get d') err ->
      good_mutable asize alloc d' /\ merged p (real asize alloc) (dense_get d) (sources_get os (Some od)) (dense_get d') err).
    { intros d' err [[(W' & A' & S' & Q') M'] Q2] Mg. split.
      - split; auto. split; auto. split; auto. split; auto. rewrite Ez in S'. unfold size in S'. lia.
      - unfold merged in *. destruct err; auto. destruct Mg as (Er & o & Ro & C). split; auto. exists o. split; auto.
        destruct Ro as (R1 & R2 & R3). split; auto. split; auto. destruct (N.lt_ge_cases (offset o) (asize alloc)) as [|L]; auto. exfalso.
        destruct (dense_get d o) as [x|] eqn:X; [|easy]. destruct (sources_get os (Some od) o) as [y|] eqn:Y; [|easy].
        rewrite (Qs o y L Y), (Q (offset o) x L X) in C. easy. }
    assert (laws : forall s o v, inv s -> real asz alloc o -> (offset o < asize alloc)%N \/ v = None ->
      inv (dense_set' s o v) /\ forall o', real asz alloc o' -> dense_get (dense_set' s o v) o' = if same_oid o o' then Some v else dense_get s o').
    { intros s o v [[Gs Ms] Qs2] Ro Ft. destruct (dense_set_law asz Ok' alloc s o v A (conj Gs Ms) Ro) as [L1 L2]. split; auto. split; auto.
      unfold dense_set'. destruct (dense_set_ok s o v (proj1 Gs) Ms) as (d' & E & _ & _ & _ & _ & Vd). rewrite E.
      intros off x L Ex. rewrite Vd in Ex. destruct (contains (de_alloc s) o); [|exact (Qs2 _ _ L Ex)]. unfold write in Ex.
      destruct (N.eqb_spec off (offset o)); [|exact (Qs2 _ _ L Ex)]. injection Ex as <-. destruct Ft; auto. lia. }
    destruct (is_overwrite p) eqn:P.
    + destruct p; try easy. destruct G1 as [G1 _].
      destruct (dense_set_map asz Ok' alloc d items A G1 M N R) as (d' & E & G' & M' & _ & V'). rewrite E.
      exists d', false. split; [reflexivity|]. apply Back.
      * split; [split; auto|]. intros off x L Ex. destruct (N.lt_ge_cases off size) as [Lt|Ge].
        -- rewrite <- Ez in Lt. destruct (real_offset asz Ok' alloc off A Lt) as [Ro Eo]. assert (Vo := V' _ Ro). unfold dense_get in Vo. rewrite Eo, Ex in Vo.
           rewrite V in Vo by auto. destruct (sources_get os (Some od) (object_by_offset alloc off)) as [y|] eqn:Y.
           ++ cbn in Vo. injection Vo as ->. apply (Qs _ y) in Y; auto. now rewrite Eo.
           ++ cbn in Vo. symmetry in Vo. exact (Q _ _ L Vo).
        -- destruct G' as (_ & _ & _ & Q'). rewrite Ez in Q'. exact (Q' off x Ge Ex).
      * intros o Ro. split; [|easy]. rewrite V', V by auto. unfold combine_entries. destruct (sources_get os (Some od) o); auto. now destruct (dense_get d o).
    + assert (X := merge_entries_ok dense_get dense_set' inv (real asz alloc) (fun o v => (offset o < asize alloc)%N \/ v = None)
        (fun s o v I D Ft => laws s o v I D Ft) p items d (conj G1 Q) N (fun o v I => conj (R o v I) (Fit o v I))).
      destruct (fold_err (merge_entry dense_get dense_set' p) items d) as [d' err]. destruct X as [X1 X2]. exists d', err. split; [reflexivity|]. apply Back; [exact X1|]. revert X2. apply merged_ext; auto.
Qed.
