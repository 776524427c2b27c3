(** Writing an attribute of all objects of an allocation. *)
From Coq Require Import String NArith ZArith List Bool Arith Lia.
From Verif Require Import ObjectIdModel ObjectIdProofs SchemaModel ItemModel DictModel
  SourceModel SourceSpec SourceProofs BagModel CollProofs BagProofs LayerProofs.
From Verif Require ListRunSpec.
From Coq Require Import ZifyBool ZifyN.
Import ListNotations.
Local Open Scope nat_scope.

(** ** The array as a slice *)
Lemma below_length n : length (below n) = N.to_nat n.
Proof. unfold below. now rewrite map_length, seq_length. Qed.
Lemma nth_below n i : i < N.to_nat n -> nth_error (below n) i = Some (N.of_nat i).
Proof.
  intros L. unfold below. apply map_nth_error. rewrite (nth_error_nth' _ 0) by (rewrite seq_length; exact L). now rewrite seq_nth.
Qed.
Lemma nth_map_below {A} (f : N -> A) n i d : i < N.to_nat n -> nth i (map f (below n)) d = f (N.of_nat i).
Proof.
  intros L. apply nth_error_nth. apply map_nth_error. now apply nth_below.
Qed.
Lemma slice_of_item s k (f : array k) i : i < N.to_nat (ds_size s) ->
  DataListModel.array_item i (existT (fun k => list (option (cval k))) k (map f (below (ds_size s)))) = array_at (existT array k f) (N.of_nat i).
Proof. intros L. cbn. now rewrite nth_map_below. Qed.
Lemma slice_of_at s i : i < N.to_nat (ds_size s) -> slice_at (slice_of s) i = first_at (ds_values s) (N.of_nat i).
Proof.
  intros L. unfold slice_at, slice_of, first_at. cbn [sl_values DataListModel.sl_values]. induction (ds_values s) as [|[k f] vs IH]; auto.
  cbn [map fold_right]. rewrite IH, (slice_of_item s k f i L). reflexivity.
Qed.
Lemma nth_split_map {A B} (f : A -> B) l pre a post : map f l = pre ++ a :: post ->
  exists x, nth_error l (length pre) = Some x /\ f x = a /\
    pre ++ post = map f (firstn (length pre) l ++ skipn (S (length pre)) l).
Proof.
  revert pre. induction l as [|y l IH]; intros [|p pre] E; cbn in E; try discriminate.
  - exists y. cbn. injection E as E1 E2. auto.
  - injection E as E1 E2. destruct (IH pre E2) as (x & H1 & H2 & H3). exists x. cbn. split; auto. split; auto. now rewrite H3, E1.
Qed.
Lemma slice_of_ok s : wf_dslice s -> slice_ok (slice_of s).
Proof.
  intros W. assert (U := wf_dslice_exclusive s W). destruct W as (_ & N & _). split.
  - split.
    + apply Forall_forall. intros a I. unfold slice_of in I. cbn in I. apply in_map_iff in I as ([k f] & <- & _). cbn [projT2].
      rewrite map_length, below_length. reflexivity.
    + intros i Li pre a post E P. cbn in Li. unfold slice_of in E. cbn [sl_values DataListModel.sl_values] in E.
      apply nth_split_map in E as ([k f] & E1 & E2 & E3). subst a. rewrite (slice_of_item s k f i Li) in P.
      rewrite E3. apply Forall_forall. intros a' I. apply in_map_iff in I as ([k' f'] & <- & I). rewrite (slice_of_item s k' f' i Li).
      destruct (array_at (existT array k' f') (N.of_nat i)) as [x|] eqn:Ex; auto. exfalso.
      assert (B1 : buf_at (ds_values s) (length pre) (N.of_nat i) <> None) by (unfold buf_at; now rewrite E1).
      assert (J : exists m, nth_error (ds_values s) m = Some (existT array k' f') /\ m <> length pre).
      { apply in_app_or in I as [I|I]; apply In_nth_error in I as [m I].
        - assert (m < length (firstn (length pre) (ds_values s))) by (apply nth_error_Some; congruence).
          rewrite firstn_length in H. exists m. split; [|lia]. rewrite <- (firstn_skipn (length pre) (ds_values s)). rewrite nth_error_app1; auto.
          rewrite firstn_length. exact H.
        - exists (S (length pre) + m). split; [|lia]. refine (eq_trans _ I). clear. revert m. generalize (S (length pre)) as n. generalize (ds_values s) as l.
          intros l n. revert l. induction n as [|n IH]; intros l m; [reflexivity|]. destruct l as [|y l]; [now destruct m|]. cbn [skipn plus nth_error]. apply IH. }
      destruct J as (m & J1 & J2). apply J2. apply (U (N.of_nat i)); auto. unfold buf_at. rewrite J1. congruence.
  - unfold slice_of. cbn [sl_values DataListModel.sl_values]. unfold kinds in N. rewrite map_map.
    replace (map _ (ds_values s)) with (map (@projT1 _ _) (ds_values s)); auto. apply map_ext. now intros [k f].
Qed.

(** ** The objects that are set *)
Lemma set_objects_length alloc s : length (set_objects alloc s) = N.to_nat (ds_size s).
Proof. unfold set_objects. now rewrite map_length, below_length. Qed.
Lemma ro_set s off : wf_dslice s -> ro_at s off <> None <->
  match ds_tidx s with Some t => t off <> TUnset | None => True end.
Proof.
  intros W. destruct (ds_tidx s) as [t|] eqn:E.
  - rewrite (ro_at_tidx s t W E). destruct (t off); split; congruence.
  - destruct W as (T & _). rewrite E in T. destruct T as [[k f] T]. rewrite (ro_at_single s k f T), E. destruct (f off); (split; [auto|intros _; discriminate]).
Qed.
Lemma ro_first s off : wf_dslice s -> ro_at s off <> None -> ro_at s off = Some (first_at (ds_values s) off).
Proof.
  intros W N. destruct (ro_at_parts s off W) as [P _]. destruct (first_at (ds_values s) off); [exact P|].
  rewrite P. destruct (removed_in s off); auto. now rewrite P in N.
Qed.
Lemma nth_set_objects alloc s i o : wf_dslice s -> nth_error (set_objects alloc s) i = Some (Some o) <->
  i < N.to_nat (ds_size s) /\ o = object_by_offset alloc (N.of_nat i) /\ ro_at s (N.of_nat i) <> None.
Proof.
  intros W. rewrite (ro_set s _ W). unfold set_objects. split.
  - intros E. assert (L : i < N.to_nat (ds_size s)).
    { rewrite <- below_length. erewrite <- map_length. apply nth_error_Some. rewrite E. discriminate. }
    rewrite (map_nth_error _ _ _ (nth_below _ _ L)) in E. destruct (ds_tidx s) as [t|]; [destruct (t (N.of_nat i))|]; split; auto; split; try congruence; auto; congruence.
  - intros (L & -> & S). rewrite (map_nth_error _ _ _ (nth_below _ _ L)). destruct (ds_tidx s) as [t|]; auto. destruct (t (N.of_nat i)); auto; congruence.
Qed.
Lemma last_write_in {A} (ws : list (ObjectId * A)) o v : NoDup (map fst ws) -> In (o, v) ws -> last_write ws o = Some v.
Proof.
  induction ws as [|[o' v'] ws IH]; [easy|]. cbn [map fst]. intros N I. apply NoDup_cons_iff in N as [N1 N2]. cbn [last_write].
  destruct I as [E|I].
  - injection E as <- <-. rewrite (proj2 (last_write_none ws o') N1). now rewrite same_oid_refl.
  - now rewrite (IH N2 I).
Qed.

Section Full.
Variable asize : ObjectId -> N.
Hypothesis asize_ok : forall a, (asize a <= capacity a)%N.
Notation valid := (valid asize).
Notation layer_ok := (layer_ok asize).
Notation heap_ok := (heap_ok asize).
Variable alloc : ObjectId.
Variable s : dslice.
Hypothesis A : is_allocation alloc.
Hypothesis Sz : (ds_size s <= capacity alloc)%N.
Hypothesis Szb : is_small_alloc alloc = false -> ds_size s = asize alloc.
Hypothesis W : wf_dslice s.

Lemma in_set_objects o : In o (present (set_objects alloc s)) <->
  exists off, (off < ds_size s)%N /\ o = object_by_offset alloc off /\ ro_at s off <> None.
Proof.
  rewrite <- present_at_snd. rewrite in_map_iff. split.
  - intros ([i o'] & <- & I). apply in_present_at in I. apply (nth_set_objects alloc s i o' W) in I as (L & E & R). exists (N.of_nat i). cbn. split; [lia|]. auto.
  - intros (off & L & E & R). exists (N.to_nat off, o). split; auto. apply in_present_at. apply (nth_set_objects alloc s _ o W). rewrite N2Nat.id. split; [lia|]. auto.
Qed.
Lemma set_objects_NoDup : NoDup (present (set_objects alloc s)).
Proof.
  unfold set_objects, present.
  assert (X : forall l, NoDup l -> (forall off, In off l -> (off < ds_size s)%N) ->
    NoDup (flat_map (fun o : option ObjectId => match o with Some o => [o] | None => [] end)
      (map (fun off => match ds_tidx s with
                  | Some t => match t off with TUnset => None | _ => Some (object_by_offset alloc off) end
                  | None => Some (object_by_offset alloc off)
                  end) l)) /\
    forall o, In o (flat_map (fun o : option ObjectId => match o with Some o => [o] | None => [] end)
      (map (fun off => match ds_tidx s with
                  | Some t => match t off with TUnset => None | _ => Some (object_by_offset alloc off) end
                  | None => Some (object_by_offset alloc off)
                  end) l)) -> exists off, In off l /\ o = object_by_offset alloc off).
  { induction l as [|x l IH]; intros N L; cbn [map flat_map]; [split; [constructor|easy]|].
    apply NoDup_cons_iff in N as [N1 N2]. destruct (IH N2 (fun off I => L off (or_intror I))) as [IH1 IH2].
    assert (Y : forall o, o = object_by_offset alloc x -> ~ In o (flat_map (fun o : option ObjectId => match o with Some o => [o] | None => [] end)
      (map (fun off => match ds_tidx s with
                  | Some t => match t off with TUnset => None | _ => Some (object_by_offset alloc off) end
                  | None => Some (object_by_offset alloc off)
                  end) l))).
    { intros o E I. destruct (IH2 o I) as (off & I2 & E2). assert (off = x); [|congruence].
      assert (L1 := L x (or_introl eq_refl)). assert (L2 := L off (or_intror I2)).
      rewrite <- (object_by_offset_offset alloc off A) by lia. rewrite <- (object_by_offset_offset alloc x A) by lia. congruence. }
    destruct (match ds_tidx s with
                  | Some t => match t x with TUnset => None | _ => Some (object_by_offset alloc x) end
                  | None => Some (object_by_offset alloc x)
                  end) as [o|] eqn:E.
    - assert (Eo : o = object_by_offset alloc x).
      { destruct (ds_tidx s) as [t|]; [destruct (t x)|]; congruence. }
      cbn [app]. split; [constructor; auto|]. intros o' [<-|I]; [exists x; split; [now left|auto]|]. destruct (IH2 o' I) as (off & I2 & E2). exists off. split; [now right|auto].
    - cbn [app]. split; auto. intros o' I. destruct (IH2 o' I) as (off & I2 & E2). exists off. split; [now right|auto]. }
  apply X.
  - unfold below. apply FinFun.Injective_map_NoDup; [intros x y; lia|apply seq_NoDup].
  - intros off I. now apply in_below.
Qed.
Lemma last_write_full o : wf o -> last_write (writes (set_objects alloc s) (slice_of s)) o =
  if oid_eq_dec (allocation_of o) alloc then (if (offset o <? ds_size s)%N then ro_at s (offset o) else None) else None.
Proof.
  intros Wo. assert (NI : forall P : Prop, (~ In o (present (set_objects alloc s)) -> P) -> (~ In o (present (set_objects alloc s))) -> P) by auto.
  destruct (oid_eq_dec (allocation_of o) alloc) as [E|E].
  2: { apply last_write_none. rewrite writes_fst, in_set_objects. intros (off & L & -> & _). apply E. apply object_by_offset_alloc; auto. lia. }
  assert (Eo : o = object_by_offset alloc (offset o)) by (rewrite <- E; symmetry; now apply object_reassemble).
  destruct (N.ltb_spec (offset o) (ds_size s)) as [L|G].
  2: { apply last_write_none. rewrite writes_fst, in_set_objects. intros (off & L & Eq & _).
       rewrite Eq, (object_by_offset_offset alloc off A) in G by lia. lia. }
  destruct (ro_at s (offset o)) as [v|] eqn:R.
  - apply last_write_in; [rewrite writes_fst; apply set_objects_NoDup|]. unfold writes. apply in_map_iff. exists (N.to_nat (offset o), o). split.
    + f_equal. rewrite slice_of_at by lia. rewrite N2Nat.id. assert (X := ro_first s (offset o) W). rewrite R in X. specialize (X ltac:(discriminate)). congruence.
    + apply in_present_at. apply nth_set_objects; auto. rewrite N2Nat.id. split; [lia|]. split; [auto|]. rewrite R. discriminate.
  - apply last_write_none. rewrite writes_fst, in_set_objects. intros (off & L2 & Eq & R2).
    assert (off = offset o) by (rewrite Eq; symmetry; apply object_by_offset_offset; auto; lia). congruence.
Qed.

Lemma array_entry_values off : ds_values s <> [] -> array_entry s off = if (off <? ds_size s)%N then ro_at s off else None.
Proof. intros N. unfold array_entry, field_entry. destruct (ds_values s); congruence. Qed.

Lemma set_full_ok h a l attr : heap_ok h -> layer_ok h a l -> ds_values s <> [] ->
  exists l', layer_set_full h (ups h l) l alloc attr s = Some l' /\ layer_ok h a l' /\ only_attrs l l' /\
    (forall k, a_find key_dec (big l') k <> None -> fst k = alloc \/ a_find key_dec (big l) k <> None) /\
    forall attr' o, valid o ->
      attr_in h ((a, l') :: ups h l) attr' o =
      if string_dec attr attr'
      then or_else (if oid_eq_dec (allocation_of o) alloc then array_entry s (offset o) else None) (attr_in h ((a, l) :: ups h l) attr' o)
      else attr_in h ((a, l) :: ups h l) attr' o.
Proof.
  intros H L Nv. unfold layer_set_full.
  set (has_source := fun l0 : layer => match a_find key_dec (big l0) (alloc, attr) with Some _ => true | None => false end).
  set (new := negb (is_small_alloc alloc) && _).
  assert (EV : match ds_values s with [] => Some l | _ :: _ => if new
      then option_map (fun d => set_big l (alloc, attr) (mkColl None None (Some (CVal d)) false)) (create_readonly alloc s)
      else layer_set_attrs h (ups h l) l (set_objects alloc s)
             (if is_small_alloc alloc then [] else [alloc]) (is_small_alloc alloc) attr (slice_of s) end = if new
      then option_map (fun d => set_big l (alloc, attr) (mkColl None None (Some (CVal d)) false)) (create_readonly alloc s)
      else layer_set_attrs h (ups h l) l (set_objects alloc s)
             (if is_small_alloc alloc then [] else [alloc]) (is_small_alloc alloc) attr (slice_of s)) by (destruct (ds_values s); congruence).
  rewrite EV. clear EV. destruct new eqn:En; unfold new in En; clear new.
  - apply andb_true_iff in En as [En1 En2]. apply negb_true_iff in En1. specialize (Szb En1).
    destruct (field_dense asize asize_ok alloc s A) as (d & Ed & Gd & Vd); [split; auto|].
    assert (Ed' : create_readonly alloc s = Some d) by (destruct (ds_values s); [congruence|exact Ed]). rewrite Ed'. cbn [option_map].
    set (c := mkColl None None (Some (CVal d)) false).
    assert (C : coll_ok asize h (ups h l) (alloc, attr) c).
    { split; [split; [exact A|cbn]|cbn].
      - split; [auto|]. split; [auto|]. split; [auto|]. exists d. auto.
      - split; [exact En1|]. split; [exact Logic.I|]. discriminate. }
    exists (set_big l (alloc, attr) c). split; [reflexivity|]. split; [now apply set_big_ok|]. split; [unfold only_attrs; cbn; auto|]. split.
    + intros k. cbn. rewrite a_find_set. destruct (key_dec (alloc, attr) k) as [<-|]; auto.
    + intros attr' o Vo. unfold attr_in. rewrite set_big_look. destruct (string_dec attr attr') as [<-|Na].
      * destruct (oid_eq_dec (allocation_of o) alloc) as [Ea|Na].
        -- assert (So : is_small_alloc o = false) by (rewrite <- En1, <- Ea; reflexivity). rewrite So, Ea. destruct (key_dec (alloc, attr) (alloc, attr)); [|congruence].
           rewrite array_entry_values by auto. destruct Vo as [Wo Vo]. specialize (Vo So). rewrite Ea, <- Szb in Vo. destruct (N.ltb_spec (offset o) (ds_size s)); [|lia].
           unfold coll_get, c. cbn [msparse mdense cd_of cdense lookup_parent bind or_else]. rewrite Vd, or_else_none.
           unfold field_entry. destruct (ds_values s) eqn:Ev; [congruence|].
           destruct (ro_at s (offset o)) as [x|] eqn:R; auto. cbn [or_else].
           (* unset: no source had anything *)
           destruct (ds_tidx s) as [t|] eqn:Et.
           2: { destruct W as (T & _). rewrite Et in T. destruct T as [[k f] T]. rewrite (ro_at_single s k f T), Et in R. destruct (f (offset o)); discriminate. }
           apply andb_true_iff in En2 as [E1 E2]. apply negb_true_iff in E1.
           assert (Fl : a_find key_dec (big l) (alloc, attr) = None) by (unfold has_source in E1; destruct (a_find key_dec (big l) (alloc, attr)); congruence).
           cbn [look_big]. rewrite Fl. rewrite forallb_forall in E2. clear -E2.
           induction (ups h l) as [|[x lx] r IH]; cbn [look_big]; auto. assert (X := E2 (x, lx) (or_introl eq_refl)). cbn in X. apply negb_true_iff in X.
           destruct (a_find key_dec (big lx) (alloc, attr)); [discriminate|]. apply IH. intros y I. apply E2. now right.
        -- destruct (is_small_alloc o); auto. destruct (key_dec (alloc, attr) (allocation_of o, attr)) as [Ek|]; auto. apply pair_equal_spec in Ek. destruct Ek. congruence.
      * destruct (is_small_alloc o); auto; destruct (key_dec (alloc, attr) (allocation_of o, attr')) as [Ek|]; auto; congruence.
  - assert (B : LayerProofs.batch_ok asize (set_objects alloc s) (if is_small_alloc alloc then [] else [alloc]) (is_small_alloc alloc) (slice_of s)).
    { assert (Vp : Forall valid (present (set_objects alloc s))).
      { apply Forall_forall. intros o I. apply in_set_objects in I as (off & Lo & -> & _). split; [apply object_by_offset_wf; auto; lia|].
        intros So. rewrite object_by_offset_alloc, object_by_offset_offset by (auto; lia). rewrite <- Szb; auto. }
      split; [rewrite set_objects_length; reflexivity|]. split; [now apply slice_of_ok|]. split; [exact Vp|]. split; [right; apply set_objects_NoDup|]. split.
      - destruct (is_small_alloc alloc) eqn:Sm; auto.
      - apply Forall_forall. intros o I. apply in_set_objects in I as (off & Lo & -> & _).
        assert (Ea := object_by_offset_alloc alloc off A ltac:(lia)).
        replace (is_small_alloc (object_by_offset alloc off)) with (is_small_alloc alloc) by reflexivity.
        destruct (is_small_alloc alloc); auto. left. now symmetry. }
    destruct (set_attrs_ok asize asize_ok h a l _ _ _ attr _ H L B) as (l' & E & L' & O & K & V). exists l'. split; [exact E|]. split; [auto|]. split; [auto|]. split.
    + intros k Fk. destruct (K k Fk) as [[I _]|]; auto. left. destruct (is_small_alloc alloc); [easy|]. destruct I as [->|[]]. reflexivity.
    + intros attr' o Vo. rewrite V by auto. destruct (string_dec attr attr'); auto. rewrite last_write_full by apply Vo.
      rewrite array_entry_values by auto. reflexivity.
Qed.
End Full.
