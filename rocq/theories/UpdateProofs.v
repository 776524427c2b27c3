(** Overwriting updates. *)
From Coq Require Import String NArith ZArith List Bool Arith Lia Permutation.
From Verif Require Import ObjectIdModel ObjectIdProofs SchemaModel ItemModel DictModel DictSpec DictProofs
  SourceModel SourceSpec SourceProofs BagModel CollProofs BagProofs LayerProofs ContainerProofs
  MergeModel MergeSourceProofs MergeFold MergeBigProofs MergeLayerProofs BagSpec MergeImplProofs.
Import ListNotations.
Local Open Scope nat_scope.
Notation chain := BagModel.chain.

Lemma fold_err_left {S W} (f : S -> W -> S * bool) (inv : S -> Prop) ws : forall s0, inv s0 ->
  (forall s w, inv s -> In w ws -> snd (f s w) = false /\ inv (fst (f s w))) ->
  fold_err f ws s0 = (fold_left (fun s w => fst (f s w)) ws s0, false).
Proof.
  induction ws as [|w ws IH]; intros s0 I F; auto. rewrite fold_err_cons. cbn [fold_left].
  destruct (F s0 w I (or_introl eq_refl)) as [E I']. destruct (f s0 w) as [s1 e]. cbn in *. subst e.
  apply IH; auto.
Qed.

(** [v] on top of [this] is [other] on top of [this] *)
Definition good {A} (this other v : option A) : Prop := combine_entries Overwrite this v = combine_entries Overwrite this other.
Lemma good_other {A} (this other : option A) : good this other other.
Proof. reflexivity. Qed.
Lemma good_combined {A} (this other : option A) : good this other (combine_entries Overwrite this other).
Proof. unfold good. destruct this, other; reflexivity. Qed.
Lemma good_none {A} (this other : option A) : other = this \/ other = None -> good this other None.
Proof. unfold good. intros [-> | ->]; destruct this; reflexivity. Qed.
Lemma fold_update {S W D A} (f : S -> W -> S) (inv : S -> Prop) (view : S -> D -> option A) (this other : D -> option A)
    (touch : W -> D -> Prop) (dom : D -> Prop) ws s0 :
  inv s0 -> (forall d, dom d -> view s0 d = None) -> (forall w d, touch w d \/ ~ touch w d) ->
  (forall s w, inv s -> In w ws -> inv (f s w) /\ (forall d, dom d -> ~ touch w d -> view (f s w) d = view s d) /\
     (forall d, dom d -> touch w d -> (view s d = None \/ good (this d) (other d) (view s d)) -> good (this d) (other d) (view (f s w) d))) ->
  (forall d, dom d -> (forall w, In w ws -> ~ touch w d) -> other d = this d \/ other d = None) ->
  inv (fold_left f ws s0) /\ forall d, dom d -> good (this d) (other d) (view (fold_left f ws s0) d).
Proof.
  intros I0 V0 Dec F Un.
  assert (X : forall todo ds s, ws = ds ++ todo -> inv s ->
    (forall d, dom d -> (view s d = None /\ forall w, In w ds -> ~ touch w d) \/ good (this d) (other d) (view s d)) ->
    inv (fold_left f todo s) /\ forall d, dom d -> good (this d) (other d) (view (fold_left f todo s) d)).
  { induction todo as [|w todo IH]; intros ds s E I Q; cbn [fold_left].
    - split; auto. intros d Dd. destruct (Q d Dd) as [[V N]|G]; auto. rewrite V. apply good_none. apply Un; auto.
      rewrite E, app_nil_r. auto.
    - destruct (F s w I) as (I' & K & T); [rewrite E; apply in_app_iff; right; now left|].
      apply (IH (ds ++ [w])); auto; [now rewrite <- app_assoc|]. intros d Dd. destruct (Dec w d) as [Td|Td].
      + right. apply T; auto. destruct (Q d Dd) as [[V _]|G]; auto.
      + rewrite K by auto. destruct (Q d Dd) as [[V N]|G]; auto. left. split; auto.
        intros w' I2. apply in_app_iff in I2 as [I2|[<-|[]]]; auto. }
  apply (X ws [] s0); auto.
Qed.

Section Update.
Variable asize : ObjectId -> N.
Hypothesis asize_ok : forall a, (asize a <= capacity a)%N.
Notation valid := (valid asize).
Notation layer_ok := (layer_ok asize).
Notation heap_ok := (heap_ok asize).
Variable iter : dmap -> dmap.
Hypothesis any_order : forall m, Permutation (iter m) m.

Section Setting.
Variable h : heap.
Variable fa : nat.
Variable fl : layer.
Variable rest och : list (nat * layer).
Variable other_frozen : bool.
Hypothesis Set_ : setting asize h fa rest och other_frozen.
Hypothesis Fp : is_pristine fl = true.
Hypothesis St : stop_ok rest och fl (non_pristine fa fl).
Let this := (fa, fl) :: rest.
(** where the update is *)
Variable ua : nat.

Lemma fl_nil : small fl = [] /\ big fl = [] /\ lists fl = [] /\ dicts fl = [].
Proof. now apply pristine_nil. Qed.

(** *** Big allocations *)
Definition ubigs (u : layer) : Prop := forall k c, a_find key_dec (big u) k = Some c -> coll_ok asize h [] k c.
Lemma update_big_ok u0 : ubigs u0 -> big u0 = [] ->
  exists u, update_big h fa fl rest och other_frozen u0 = (u, false) /\ ubigs u /\ only_big u0 u /\
  forall d, big_dom asize d -> good (big_view h this d) (big_view h och d) (big_view h [(ua, u)] d).
Proof.
  intros U0 E0. unfold update_big. set (f := fun (u : layer) '(x, r, (k, oc)) => _).
  assert (Bf : bigs_ok asize h rest fl) by (intros k c F; rewrite (proj1 (proj2 fl_nil)) in F; discriminate).
  assert (Step : forall s w, (ubigs s /\ only_big u0 s) -> In w (big_work (non_pristine fa fl) och) ->
    snd (f s w) = false /\ (ubigs (fst (f s w)) /\ only_big u0 (fst (f s w))) /\
    (forall d, big_dom asize d -> fst (snd w) <> (allocation_of (snd d), fst d) -> big_view h [(ua, fst (f s w))] d = big_view h [(ua, s)] d) /\
    (forall d, big_dom asize d -> fst (snd w) = (allocation_of (snd d), fst d) ->
       (big_view h [(ua, s)] d = None \/ good (big_view h this d) (big_view h och d) (big_view h [(ua, s)] d)) ->
       good (big_view h this d) (big_view h och d) (big_view h [(ua, fst (f s w))] d))).
  { intros u [[x r] [k oc]] [U O] I. cbn [fst snd]. unfold f.
    assert (C0 : a_find key_dec (big fl) k = Some (mkColl None None None true) \/
      (a_find key_dec (big fl) k = None /\ exists lp, mkColl None None None true = mkColl None None None lp /\ (lp = true \/ rest = []))).
    { right. rewrite (proj1 (proj2 fl_nil)). split; auto. exists true. auto. }
    assert (M := big_step asize asize_ok h fa rest och other_frozen (s_rest _ _ _ _ _ _ Set_) (s_och _ _ _ _ _ _ Set_) (s_frozen _ _ _ _ _ _ Set_)
      (s_ar _ _ _ _ _ _ Set_) (s_ao _ _ _ _ _ _ Set_) (s_al _ _ _ _ _ _ Set_) Overwrite fl x r k oc (non_pristine fa fl) Bf I fl _ Bf C0).
    destruct (merge_key h Overwrite ((fa, fl) :: rest) rest och other_frozen x oc r k (mkColl None None None true)) as [[c err]|].
    - destruct M as (Ck & Lp & M). destruct err; [destruct M; discriminate|]. specialize (Lp eq_refl). cbn [fst snd].
      split; auto. split; [split|split].
      + intros k' c' F. cbn in F. rewrite a_find_set in F. destruct (key_dec k k') as [<-|]; [|apply (U k' c' F)]. injection F as <-.
        destruct Ck as (G & Sm & Sh & _). split; [auto|]. split; [auto|]. split; [auto|]. congruence.
      + unfold only_big in *. exact O.
      + intros d _ T. unfold big_view. rewrite set_big_look. destruct (key_dec k (allocation_of (snd d), fst d)); congruence.
      + intros [at_ o] [V Sm] T _. cbn [fst snd] in *. subst k. destruct (M o) as [[M1|[E _]] _]; [now apply valid_real| |discriminate].
        unfold big_view. cbn [fst snd]. rewrite set_big_look. destruct (key_dec _ _); [|congruence].
        replace (coll_get h (allocation_of o, at_) c (look_big h [] (allocation_of o, at_) o) o)
          with (coll_get h (allocation_of o, at_) c (look_big h rest (allocation_of o, at_) o) o).
        * rewrite M1. apply good_combined.
        * unfold coll_get. now rewrite Lp.
    - cbn [fst snd]. split; auto. split; [auto|]. split; [auto|]. intros d _ T [->|G]; auto.
      apply good_none. left. unfold big_view. rewrite <- T. symmetry. apply M. }
  assert (E : fold_err f (big_work (non_pristine fa fl) och) u0 = (fold_left (fun s w => fst (f s w)) (big_work (non_pristine fa fl) och) u0, false)).
  { apply (fold_err_left f (fun s => ubigs s /\ only_big u0 s)); [split; [auto|unfold only_big; auto]|].
    intros s w I Iw. destruct (Step s w I Iw) as (S1 & S2 & _). auto. }
  rewrite E. eexists. split; [reflexivity|].
  assert (X := fold_update (fun s w => fst (f s w)) (fun s => ubigs s /\ only_big u0 s) (fun u => big_view h [(ua, u)]) (big_view h this) (big_view h och)
    (fun w d => fst (snd w) = (allocation_of (snd d), fst d)) (big_dom asize) (big_work (non_pristine fa fl) och) u0).
  destruct X as [[X1 X2] X3]; auto.
  - split; auto. unfold only_big; auto.
  - intros d _. unfold big_view. cbn [look_big]. now rewrite E0.
  - intros w d. destruct (key_dec (fst (snd w)) (allocation_of (snd d), fst d)); auto.
  - intros s w I Iw. destruct (Step s w I Iw) as (_ & S2 & S3 & S4). auto.
  - intros d _ N. apply (big_untouched asize h fa rest och (s_rest _ _ _ _ _ _ Set_) (s_ar _ _ _ _ _ _ Set_) fl (non_pristine fa fl) d); auto.
Qed.

(** *** Small allocations *)
Lemma small_overlay u attr es : smalls_ok asize u -> (forall o v, In (o, v) es -> valid o /\ is_small_alloc o = true) -> NoDup (map fst es) ->
  let u' := fold_left (fun u '(o, item) => set_small u attr (sp_map (sparse_set (mkSparse None (small_source u attr)) o item))) es u in
  smalls_ok asize u' /\ only_small u u' /\
  forall attr' o, look_small [(ua, u')] attr' o = if string_dec attr attr' then or_else (s_find es o) (look_small [(ua, u)] attr' o) else look_small [(ua, u)] attr' o.
Proof.
  revert u. induction es as [|[o item] es IH]; intros u S V N; cbn [fold_left].
  - split; auto. split; [unfold only_small; auto|]. intros attr' o. now destruct (string_dec attr attr').
  - destruct (V o item (or_introl eq_refl)) as [Vo So]. destruct (small_write asize ua u attr o item S Vo So) as (S1 & O1 & W1).
    cbn in N. apply NoDup_cons_iff in N as [N1 N2].
    destruct (IH _ S1 (fun o' v' I => V o' v' (or_intror I)) N2) as (S2 & O2 & W2). split; auto. split; [unfold only_small in *; intuition congruence|].
    intros attr' o'. rewrite W2, W1. destruct (string_dec attr attr') as [<-|]; auto. cbn [s_find]. destruct (same_oid o o') eqn:E; [|reflexivity].
    apply same_oid_spec in E. subst o'. now rewrite (proj2 (s_find_none es o) N1).
Qed.
Lemma overlay_other es : forall u attr at_, attr <> at_ -> a_find string_dec (small u) at_ = None ->
  a_find string_dec (small (fold_left (fun u '(o, item) => set_small u attr (sp_map (sparse_set (mkSparse None (small_source u attr)) o item))) es u)) at_ = None.
Proof.
  induction es as [|[o v] es IH]; intros u attr at_ N F; cbn [fold_left]; auto. apply IH; auto.
  cbn. rewrite a_find_set. destruct (string_dec attr at_); congruence.
Qed.
Lemma update_small_ok u0 : small u0 = [] ->
  let u := update_small fa fl rest och u0 in
  smalls_ok asize u /\ only_small u0 u /\
  forall d, small_dom asize d -> good (small_view this d) (small_view och d) (small_view [(ua, u)] d).
Proof.
  intros E0. unfold update_small. cbn zeta.
  assert (Gr := s_rest _ _ _ _ _ _ Set_). assert (Go := s_och _ _ _ _ _ _ Set_). assert (Ar := s_ar _ _ _ _ _ _ Set_). assert (Ao := s_ao _ _ _ _ _ _ Set_).
  set (inv := fun u => smalls_ok asize u /\ only_small u0 u /\
    forall attr m, a_find string_dec (small u) attr = Some m -> forall o, small_dom asize (attr, o) -> good (small_view this (attr, o)) (small_view och (attr, o)) (small_view [(ua, u)] (attr, o))).
  assert (X := fold_update (update_attr fa fl rest och) inv (fun u => small_view [(ua, u)]) (small_view this) (small_view och)
    (fun w d => w = fst d) (small_dom asize) (small_work (non_pristine fa fl) och) u0).
  destruct X as [X1 X2].
  - split; [intros at_ m F; now rewrite E0 in F|]. split; [unfold only_small; auto|]. intros attr m F. now rewrite E0 in F.
  - intros d _. unfold small_view. cbn [look_small]. now rewrite E0.
  - intros w d. destruct (string_dec w (fst d)); auto.
  - intros u attr (Su & Ou & Gu) I. unfold update_attr. fold (maps_of och attr).
    set (tids := small_ids ((fa, fl) :: rest) attr). set (oids := small_ids och attr).
    destruct (list_eq_dec Nat.eq_dec tids oids) as [Ei|Ni].
    { split; [split; auto|]. split; auto. intros [at_ o] Dd E [V|G]; auto. cbn in E. subst at_. rewrite V. apply good_none. left.
      unfold small_view. cbn [fst snd]. symmetry. exact (same_small asize h fa rest och Gr Go Ar Ao fl attr Ei o). }
    set (strip := is_suffix tids oids).
    change (if strip then firstn (length oids - length tids) (maps_of och attr) else maps_of och attr) with (added fa rest och strip fl attr).
    assert (Ga : forall o v, (forall x, first_in (added fa rest och strip fl attr) o = Some x -> v = Some x) ->
       (first_in (added fa rest och strip fl attr) o = None -> v = None \/ good (small_view this (attr, o)) (small_view och (attr, o)) v) ->
       good (small_view this (attr, o)) (small_view och (attr, o)) v).
    { intros o v Hs Hn. unfold small_view in *. cbn [fst snd] in *.
      assert (Lk : look_small och attr o = or_else (first_in (added fa rest och strip fl attr) o) (if strip then look_small this attr o else None)).
      { destruct strip eqn:Es.
        - exact (added_look asize h fa rest och Gr Go Ar Ao true fl attr o eq_refl Es).
        - unfold added. rewrite look_small_maps. now destruct (first_in (maps_of och attr) o). }
      destruct (first_in (added fa rest och strip fl attr) o) as [x|].
      - rewrite (Hs x eq_refl), Lk. cbn. unfold good. reflexivity.
      - destruct (Hn eq_refl) as [->|G]; auto. apply good_none. rewrite Lk. cbn. destruct strip; auto. }
    destruct (entries_ok asize h fa rest och Go strip fl attr) as (Nd & Ve & Vs).
    set (es := process_sparse [] (added fa rest och strip fl attr)) in *.
    destruct (small_overlay u attr es Su Ve Nd) as (S2 & O2 & W2).
    set (u2 := fold_left _ es u) in *.
    assert (Fold : inv u2 /\ (forall d, small_dom asize d -> attr <> fst d -> small_view [(ua, u2)] d = small_view [(ua, u)] d) /\
      (forall d, small_dom asize d -> attr = fst d -> small_view [(ua, u)] d = None \/ good (small_view this d) (small_view och d) (small_view [(ua, u)] d) ->
         good (small_view this d) (small_view och d) (small_view [(ua, u2)] d))).
    { assert (T : forall o, small_dom asize (attr, o) -> small_view [(ua, u)] (attr, o) = None \/ good (small_view this (attr, o)) (small_view och (attr, o)) (small_view [(ua, u)] (attr, o)) ->
         good (small_view this (attr, o)) (small_view och (attr, o)) (small_view [(ua, u2)] (attr, o))).
      { intros o Dd C. apply Ga.
        - intros x Ex. unfold small_view. cbn [fst snd]. rewrite W2. destruct (string_dec attr attr); [|congruence]. rewrite Vs, Ex. reflexivity.
        - intros Ex. unfold small_view at 1 4. cbn [fst snd]. rewrite W2. destruct (string_dec attr attr); [|congruence]. rewrite Vs, Ex. exact C. }
      assert (U : forall o, small_view [(ua, u)] (attr, o) = None \/ small_dom asize (attr, o) -> small_dom asize (attr, o) ->
         small_view [(ua, u)] (attr, o) = None \/ good (small_view this (attr, o)) (small_view och (attr, o)) (small_view [(ua, u)] (attr, o))).
      { intros o _ Dd. destruct (a_find string_dec (small u) attr) as [m|] eqn:F; [right; eapply Gu; eauto|].
        left. unfold small_view. cbn [fst snd look_small]. now rewrite F. }
      split; [split; [exact S2|split; [unfold only_small in *; intuition congruence|]]|split].
      - intros at_ m F o Dd. destruct (string_dec attr at_) as [<-|Na]; [apply T; auto|].
        assert (Eq : forall at' o', attr <> at' -> look_small [(ua, u2)] at' o' = look_small [(ua, u)] at' o').
        { intros. rewrite W2. destruct (string_dec attr at'); congruence. }
        unfold small_view at 3. cbn [fst snd]. rewrite Eq by auto.
        destruct (a_find string_dec (small u) at_) as [m'|] eqn:F'; [exact (Gu at_ m' F' o Dd)|].
        exfalso. apply (overlay_other es u attr at_) in F'; auto. unfold u2 in F. congruence.
      - intros d _ Na. unfold small_view. rewrite W2. destruct (string_dec attr (fst d)); congruence.
      - intros [at_ o] Dd E C. cbn in E. subst at_. auto. }
    destruct (if strip then [] else tids) as [|t ts] eqn:Et; [destruct (added fa rest och strip fl attr) as [|m [|m2 ms]] eqn:Em|]; try exact Fold.
    clear Fold. destruct (a_find string_dec (small u) attr) as [m'|] eqn:F.
    { split; [split; auto|]. split; auto. intros [at_ o] Dd E _. cbn in E. subst at_. eapply Gu; eauto. }
    assert (Vw : forall d, small_view [(ua, set_small u attr m)] d = if string_dec attr (fst d) then s_find m (snd d) else small_view [(ua, u)] d).
    { intros d. unfold small_view. rewrite set_small_look. destruct (string_dec attr (fst d)); [|reflexivity]. cbn. now destruct (s_find m (snd d)). }
    assert (T : forall o, good (small_view this (attr, o)) (small_view och (attr, o)) (small_view [(ua, set_small u attr m)] (attr, o))).
    { intros o. apply Ga.
      - intros x Ex. rewrite Vw. cbn [fst snd]. destruct (string_dec attr attr); [|congruence]. unfold first_in in Ex. cbn in Ex. destruct (s_find m o); [exact Ex|discriminate].
      - intros Ex. left. rewrite Vw. cbn [fst snd]. destruct (string_dec attr attr); [|congruence]. unfold first_in in Ex. cbn in Ex. now destruct (s_find m o). }
    split; [split; [|split; [exact Ou|]]|split].
    + intros at_ m' F'. cbn in F'. rewrite a_find_set in F'. destruct (string_dec attr at_); [|eapply Su; eauto]. injection F' as <-.
      apply (added_ok asize h fa rest och Go strip fl attr). rewrite Em. now left.
    + intros at_ m' F' o Dd. destruct (string_dec attr at_) as [<-|Na]; [apply T|]. rewrite Vw. cbn [fst snd]. destruct (string_dec attr at_); [congruence|].
      cbn in F'. rewrite a_find_set in F'. destruct (string_dec attr at_); [congruence|]. eapply Gu; eauto.
    + intros d _ Na. rewrite Vw. destruct (string_dec attr (fst d)); congruence.
    + intros [at_ o] Dd E _. cbn in E. subst at_. apply T.
  - intros d _ N. apply (small_untouched asize h fa rest och Gr Ar fl (non_pristine fa fl) d); auto. intros I. exact (N _ I eq_refl).
  - destruct X1 as (A & B & _). auto.
Qed.

(** *** Lists *)
Lemma update_vec other n : forall v0, (forall i, lvec_get v0 i None = None) ->
  let v := fold_left (fun v i => match other i with None => v | Some ol => lvec_edit v i None (fun _ => ol) end) (below n) v0 in
  lv_size v = lv_size v0 /\ forall i, (i < n)%N -> lvec_get v i None = other i.
Proof.
  intros v0 V0 v.
  assert (X : forall todo ds w, below n = ds ++ todo -> lv_size w = lv_size v0 -> (forall i, In i ds -> lvec_get w i None = other i) ->
     (forall i, ~ In i ds -> lvec_get w i None = None) ->
     let w' := fold_left (fun v i => match other i with None => v | Some ol => lvec_edit v i None (fun _ => ol) end) todo w in
     lv_size w' = lv_size v0 /\ forall i, In i (below n) -> lvec_get w' i None = other i).
  { induction todo as [|i todo IH]; intros ds w E Sz D U; cbn [fold_left].
    - split; auto. rewrite E, app_nil_r. auto.
    - assert (G : forall j, lvec_get (match other i with None => w | Some ol => lvec_edit w i None (fun _ => ol) end) j None =
        match other i with None => lvec_get w j None | Some ol => if (j =? i)%N then Some ol else lvec_get w j None end).
      { intros j. destruct (other i); auto. rewrite (lvec_edit_get w i (fun _ => None)). reflexivity. }
      apply (IH (ds ++ [i])); [now rewrite <- app_assoc|destruct (other i); auto| |].
      + intros j I. rewrite G. apply in_app_iff in I as [I|[<-|[]]].
        * destruct (other i) eqn:O; auto. destruct (N.eqb_spec j i) as [->|]; auto.
        * destruct (other i) eqn:O; [now rewrite N.eqb_refl|]. apply U. assert (Nd := NoDup_below n). rewrite E in Nd. intros I. apply (NoDup_remove_2 _ _ _ Nd). apply in_app_iff. now left.
      + intros j I. rewrite G. assert (~ In j ds /\ j <> i) as [I1 I2] by (split; intros Z; apply I; apply in_app_iff; [now left|right; left; congruence]).
        destruct (other i); auto. destruct (N.eqb_spec j i); [congruence|auto]. }
  destruct (X (below n) [] v0) as [X1 X2]; auto; [easy|]. split; auto. intros i Li. apply X2. now apply in_below.
Qed.
Lemma update_lists_ok u0 : lists u0 = [] ->
  let u := update_lists fa fl rest och u0 in
  vecs_ok u /\ only_lists u0 u /\
  forall o, wf o -> good (list_view this o) (list_view och o) (list_view [(ua, u)] o).
Proof.
  intros E0. unfold update_lists. cbn zeta. set (f := fun (u : layer) '(x, r, (alloc, ov)) => _).
  assert (Go := s_och _ _ _ _ _ _ Set_). assert (Ao := s_ao _ _ _ _ _ _ Set_). assert (Sfx := s_sfx _ _ _ _ _ _ Set_).
  assert (X := fold_update f (fun u => vecs_ok u /\ only_lists u0 u) (fun u => list_view [(ua, u)]) (list_view this) (list_view och)
    (fun w d => fst (snd w) = allocation_of d) wf (lists_work (non_pristine fa fl) och) u0).
  destruct X as [[X1 X2] X3]; auto.
  - split; [intros al v F; now rewrite E0 in F|]. unfold only_lists. auto.
  - intros o _. unfold list_view, list_in. cbn [look_list]. now rewrite E0.
  - intros w d. destruct (oid_eq_dec (fst (snd w)) (allocation_of d)); auto.
  - intros u [[x r] [alloc ov]] [V O] I. cbn [fst snd].
    rewrite lists_work_eq in I. apply work_in in I; [|now intros].
    destruct I as (pre & x' & xl & r' & k' & v & E & Eo & F & N). injection E as <- <- <- <-.
    destruct (proj2 Go pre x xl r Eo) as (_ & _ & _ & Li & _). destruct (Li alloc ov F) as [A Sz].
    assert (Vo : forall i, look_list och alloc i = lvec_get ov i (look_list r alloc i)).
    { intros i. rewrite Eo, look_list_skip by auto. cbn. now rewrite F. }
    unfold f. destruct (same_addr (lists_id ((fa, fl) :: rest) alloc) x) eqn:Sa.
    + split; auto. split; auto. intros o _ T [Z|G]; auto. rewrite Z. apply good_none. left.
      unfold list_view, list_in. rewrite <- T. unfold same_addr in Sa. destruct (lists_id ((fa, fl) :: rest) alloc) as [y|] eqn:Il; [|easy].
      apply Nat.eqb_eq in Sa. subst y. destruct (lists_id_at _ _ _ Il) as (pre' & l2 & r2 & Et & Nt).
      destruct pre' as [|z pre']; cbn in Et; injection Et as E1 E2.
      * exfalso. apply Ao. rewrite Eo, map_app. apply in_app_iff. right. cbn. left. congruence.
      * subst z. destruct (Sfx pre x xl r pre' l2 r2 Eo E2) as [-> ->].
        rewrite Vo. unfold this. rewrite E2. change ((fa, fl) :: pre' ++ (x, xl) :: r) with (((fa, fl) :: pre') ++ (x, xl) :: r).
        rewrite look_list_skip by auto. cbn. now rewrite F.
    + set (v0 := mkLvec (lv_size ov) false (if should_use_array (lv_size ov) (lv_size ov) then LArray (fun _ => LNull) else LMap [])).
      destruct (update_vec (fun i => lvec_get ov i (look_list r alloc i)) (lv_size ov) v0) as [U1 U2].
      { intros i. unfold v0, lvec_get. cbn [lv_data lv_parent]. now destruct (should_use_array (lv_size ov) (lv_size ov)). }
      set (v := fold_left _ (below (lv_size ov)) v0) in *. split; [split|split].
      * intros al w Fw. cbn in Fw. rewrite a_find_set in Fw. destruct (oid_eq_dec alloc al) as [<-|]; [|apply (V al w Fw)].
        injection Fw as <-. split; auto. rewrite U1. exact Sz.
      * eapply only_lists_trans; [exact O|apply set_lists_only].
      * intros o _ T. unfold list_view, list_in. rewrite set_lists_look. destruct (oid_eq_dec alloc (allocation_of o)); congruence.
      * intros o W T _. unfold list_view at 3, list_in. rewrite set_lists_look. destruct (oid_eq_dec alloc (allocation_of o)); [|congruence].
        cbn [look_list]. rewrite U2.
        -- unfold list_view at 2, list_in. rewrite <- T, Vo. apply good_other.
        -- rewrite Sz, T. change (capacity (allocation_of o)) with (capacity o). apply offset_lt.
  - intros o _ N. unfold list_view, list_in.
    destruct (work_all oid_eq_dec lists (fun x (_ : layer) r kc => (x, r, kc)) (fun '(_, (k, _)) => k)) with (stop := non_pristine fa fl) (och := och) (k := allocation_of o)
      as (pre & post & E & F & P).
    + now intros.
    + intros [[x r] [k c]] I. rewrite <- lists_work_eq in I. exact (N _ I).
    + destruct P as [->|(s & sl & r & Es & ->)].
      * right. rewrite E. now rewrite look_list_skip.
      * left. destruct (St pre s sl r E Es) as (_ & Er). unfold this. rewrite Er. rewrite E, look_list_skip by auto.
        destruct fl_nil as (_ & _ & Ll & _). cbn [look_list]. rewrite Ll. reflexivity.
Qed.

(** *** Dicts *)
Lemma update_dict_ok other keys : dict_ok other -> (forall k, In k keys -> unsupported_key (Some k) = false) ->
  let d := fold_left (fun this k => match d_get other k with Some ov => d_set this (Some k) ov | None => this end) keys (mkDict 0 [] None) in
  good_keys (d_data d) /\ d_parent d = None /\ forall k, d_get d k = if in_keys keys k then d_get other k else None.
Proof.
  intros W S d.
  assert (X : forall todo ds m, keys = ds ++ todo -> good_keys m -> (forall k, m_find m k = if in_keys ds k then d_get other k else None) ->
    exists m', fold_left (fun this k => match d_get other k with Some ov => d_set this (Some k) ov | None => this end) todo (mkDict 0 m None) = mkDict 0 m' None /\
      good_keys m' /\ forall k, m_find m' k = if in_keys keys k then d_get other k else None).
  { induction todo as [|k todo IH]; intros ds m E G V; cbn [fold_left].
    - exists m. rewrite E, app_nil_r. auto.
    - assert (Sk : unsupported_key (Some k) = false) by (apply S; rewrite E; apply in_app_iff; right; now left).
      assert (Ia : forall j, in_keys (ds ++ [k]) j = in_keys ds j || value_eqb k j).
      { intros j. unfold in_keys. rewrite existsb_app. cbn. now rewrite orb_false_r. }
      destruct (d_get other k) as [ov|] eqn:Ok.
      + unfold d_set at 2. rewrite Sk. apply (IH (ds ++ [k])); [now rewrite <- app_assoc| |].
        * destruct G as [G1 G2]. split; [now apply m_set_ok|]. intros j I. apply m_set_in in I as [-> | I]; auto.
        * intros j. rewrite m_find_set, V, Ia. destruct (value_eqb_spec k j) as [<-|]; [rewrite orb_true_r; auto|now rewrite orb_false_r].
      + apply (IH (ds ++ [k])); [now rewrite <- app_assoc|auto|]. intros j. rewrite V, Ia.
        destruct (value_eqb_spec k j) as [<-|]; [rewrite orb_true_r, Ok; now destruct (in_keys ds k)|now rewrite orb_false_r]. }
  destruct (X keys [] []) as (m' & E & G & V); auto; [split; [constructor|easy]|]. unfold d. rewrite E. split; auto. split; auto.
  intros k. cbn. rewrite V. now destruct (in_keys keys k), (d_get other k).
Qed.
Lemma update_dicts_ok u0 : dicts u0 = [] ->
  let u := update_dicts iter fa fl rest och u0 in
  dvecs_ok u /\ only_dicts u0 u /\
  forall d, wf (fst d) -> good (dict_view this d) (dict_view och d) (dict_view [(ua, u)] d).
Proof.
  intros E0. unfold update_dicts. cbn zeta. set (f := fun (u : layer) '(x, xl, r, (alloc, _)) => _).
  assert (Gr := s_rest _ _ _ _ _ _ Set_). assert (Go := s_och _ _ _ _ _ _ Set_). assert (Fz := s_frozen _ _ _ _ _ _ Set_).
  assert (Ar := s_ar _ _ _ _ _ _ Set_). assert (Ao := s_ao _ _ _ _ _ _ Set_). assert (Al := s_al _ _ _ _ _ _ Set_). assert (Sfx := s_sfx _ _ _ _ _ _ Set_).
  assert (Vf : dvecs_ok fl) by (intros al v F; destruct fl_nil as (_ & _ & _ & D); now rewrite D in F).
  assert (X := fold_update f (fun u => dvecs_ok u /\ only_dicts u0 u) (fun u => dict_view [(ua, u)]) (dict_view this) (dict_view och)
    (fun w d => fst (snd w) = allocation_of (fst d)) (fun d => wf (fst d)) (dicts_work (non_pristine fa fl) och) u0).
  destruct X as [[X1 X2] X3]; auto.
  - split; [intros al v F; now rewrite E0 in F|]. unfold only_dicts. auto.
  - intros d _. unfold dict_view, dict_in. cbn [look_dict]. now rewrite E0.
  - intros w d. destruct (oid_eq_dec (fst (snd w)) (allocation_of (fst d))); auto.
  - intros u [[[x xl'] r] [alloc ov]] [V O] I. cbn [fst snd].
    rewrite dicts_work_eq in I. apply work_in in I; [|now intros].
    destruct I as (pre & x' & xl & r' & k' & v & E & Eo & F & N). injection E as <- -> <- <- <-.
    destruct (proj2 Go pre x xl r Eo) as (_ & _ & _ & _ & Di). destruct (Di alloc ov F) as [A _].
    assert (Vo : forall i, look_dict och alloc i = look_dict ((x, xl) :: r) alloc i).
    { intros i. rewrite Eo, look_dict_skip by auto. reflexivity. }
    unfold f. destruct (same_addr (dicts_id ((fa, fl) :: rest) alloc) x) eqn:Sa.
    + split; auto. split; auto. intros [o k] _ T [Z|G]; auto. rewrite Z. apply good_none. left. cbn [fst] in T.
      unfold dict_view, dict_in. cbn [fst snd]. rewrite <- T. unfold same_addr in Sa. destruct (dicts_id ((fa, fl) :: rest) alloc) as [y|] eqn:Il; [|easy].
      apply Nat.eqb_eq in Sa. subst y. destruct (dicts_id_at _ _ _ Il) as (pre' & l2 & r2 & Et & Nt).
      destruct pre' as [|z pre']; cbn in Et; injection Et as E1 E2.
      * exfalso. apply Ao. rewrite Eo, map_app. apply in_app_iff. right. cbn. left. congruence.
      * subst z. destruct (Sfx pre x xl r pre' l2 r2 Eo E2) as [-> ->].
        rewrite Vo. unfold this. rewrite E2. change ((fa, fl) :: pre' ++ (x, xl) :: r) with (((fa, fl) :: pre') ++ (x, xl) :: r).
        now rewrite look_dict_skip.
    + set (v := fun i => _).
      assert (Lo : forall i, exists other, look_dict ((x, xl) :: r) alloc i = Some other /\ dict_ok other /\ sup other).
      { intros i. assert (Do : dicts_ok ((x, xl) :: r)).
        { intros y ly al w j I Fw. apply (ch_dicts_ok asize h och Go y ly al w j); auto. rewrite Eo. apply in_app_iff. now right. }
        assert (L1 := look_dict_ok _ alloc i Do). assert (L2 := look_dict_sup _ alloc i Do).
        destruct (look_dict ((x, xl) :: r) alloc i) as [other|] eqn:L; [exists other; auto|]. cbn [look_dict] in L. rewrite F in L. discriminate. }
      assert (Vi : forall i, good_keys (od_data (v i)) /\ od_cut (v i) = true /\
         forall k, good (opt_get (look_dict this alloc i) k) (opt_get (look_dict och alloc i) k) (m_find (od_data (v i)) k)).
      { intros i. destruct (Lo i) as (other & L & Wo & So). unfold v. rewrite L.
        set (keys := d_modified_keys iter other (look_dict ((fa, fl) :: rest) alloc i)).
        destruct (update_dict_ok other keys Wo) as (G & P & Vk).
        { intros k I. exact (modified_sup iter any_order other _ k Wo So I). }
        set (d := fold_left _ keys _) in *. unfold own_of. rewrite P. cbn [od_data od_cut]. split; auto. split; auto.
        intros k. assert (Ek : m_find (d_data d) k = d_get d k) by (destruct d as [z m p]; cbn in *; subst p; now destruct (m_find m k)).
        rewrite Ek, Vk, Vo, L. cbn [opt_get]. destruct (in_keys keys k) eqn:Ik; [apply good_other|].
        apply good_none. assert (~ In k keys) as Nk by (intros I; apply in_keys_spec in I; congruence).
        assert (U := unmodified asize asize_ok h fa rest och other_frozen Go Fz Ao Al Sfx iter any_order fl alloc i pre x xl r other k).
        destruct U as [U|U]; auto. }
      split; [split|split].
      * intros al w Fw. cbn in Fw. rewrite a_find_set in Fw. destruct (oid_eq_dec alloc al) as [<-|]; [|apply (V al w Fw)].
        injection Fw as <-. split; auto. intros i. apply Vi.
      * eapply only_dicts_trans; [exact O|apply set_dicts_only].
      * intros d _ T. unfold dict_view, dict_in. rewrite set_dicts_look. destruct (oid_eq_dec alloc (allocation_of (fst d))); congruence.
      * intros [o k] W T _. cbn [fst] in *. destruct (Vi (offset o)) as (_ & Cu & G). specialize (G k).
        unfold dict_view, dict_in. cbn [fst snd]. rewrite set_dicts_look. destruct (oid_eq_dec alloc (allocation_of o)); [|congruence].
        rewrite Cu. cbn [d_get]. rewrite <- T. unfold opt_get in G. destruct (m_find (od_data (v (offset o))) k); exact G.
  - intros [o k] _ N. unfold dict_view, dict_in. cbn [fst snd] in *.
    destruct (work_all oid_eq_dec dicts (fun x (l : layer) r kc => (x, (x, l), r, kc)) (fun '(_, (k, _)) => k)) with (stop := non_pristine fa fl) (och := och) (k := allocation_of o)
      as (pre & post & E & F & P).
    + now intros.
    + intros [[[x xl] r] [k' c]] I. rewrite <- dicts_work_eq in I. exact (N _ I).
    + destruct P as [->|(s & sl & r & Es & ->)].
      * right. rewrite E. now rewrite look_dict_skip.
      * left. destruct (St pre s sl r E Es) as (_ & Er). unfold this. rewrite Er. rewrite E, look_dict_skip by auto.
        destruct fl_nil as (_ & _ & _ & Ll). cbn [look_dict]. rewrite Ll. reflexivity.
Qed.
End Setting.

(** ** The whole update *)
Lemma chain_from_app h x : down h -> forall fuel p, p < length h -> chain_from (h ++ x) fuel p = chain_from h fuel p.
Proof.
  intros D. induction fuel as [|fuel IH]; intros p L; cbn [chain_from]; rewrite nth_error_app1 by auto;
    destruct (nth_error h p) as [l|] eqn:E; auto.
  destruct (parent l) as [q|] eqn:Q; auto. rewrite IH; auto. specialize (D p l q E Q). lia.
Qed.
Lemma chain_app h x p : heap_ok h -> p < length h -> chain (h ++ x) p = chain h p.
Proof. intros H L. apply chain_from_app; auto. now apply (heap_ok_down asize). Qed.
Lemma nth_lt {A} (h : list A) a l : nth_error h a = Some l -> a < length h.
Proof. intros E. apply nth_error_Some. congruence. Qed.

Lemma ext_content h h' ch : ch_ok h ch -> ext h h' -> forall attr o, attr_in h' ch attr o = attr_in h ch attr o.
Proof. intros G X attr o. unfold attr_in. destruct (is_small_alloc o); auto. now apply ext_look_big. Qed.

Lemma update_impl_ok h a b l bl : heap_ok h -> nth_error h a = Some l -> nth_error h b = Some bl ->
  exists u, update_impl iter h a b = Some (h ++ [u], length h) /\ layer_ok h (length h) u /\ parent u = None /\ frozen u = false /\ is_update asize (content_at h a) (content_at h b) (ch_content h [(length h, u)]).
Proof.
  intros H Ea Eb. assert (La := nth_lt _ _ _ Ea). assert (Lb := nth_lt _ _ _ Eb).
  unfold update_impl. rewrite Ea, Eb. destruct (is_subset b bl a l) eqn:S.
  { exists (mkLayer false None [] [] [] []). split; auto. split; [split; [easy|cbn; split; [easy|split; [easy|split; easy]]]|]. split; auto. split; auto.
    destruct (subset_content asize h a b l bl H Ea Eb S) as (S1 & S2 & S3).
    split; [|split]; intros.
    - rewrite S1 by auto. cbn. destruct (attr_in h (chain h a) attr o); unfold attr_in; cbn; now destruct (is_small_alloc o).
    - rewrite S2 by auto. cbn. now destruct (list_in (chain h a) o).
    - rewrite S3 by auto. cbn. change (dict_in [(length h, mkLayer false None [] [] [] [])] o k) with (@None ditem). now destruct (dict_in (chain h a) o k). }
  set (fl := mkLayer false (if is_pristine l then parent l else Some a) [] [] [] []).
  set (fa := length h). set (h1 := h ++ [fl]). set (u0 := mkLayer false None [] [] [] []).
  assert (X1 : ext h h1) by apply ext_app.
  assert (X2 : ext h1 h).
  { intros x lx Ex Fx. destruct (Nat.lt_ge_cases x fa) as [L|L]; [unfold h1 in Ex; now rewrite nth_error_app1 in Ex|].
    assert (x < length h1) by now apply nth_lt in Ex. unfold h1 in *. rewrite app_length in *. cbn in *. assert (x = fa) by (unfold fa in *; lia). subst x.
    unfold fa in Ex. rewrite nth_last in Ex. injection Ex as <-. discriminate. }
  assert (Pa : forall p, parent fl = Some p -> p < fa /\ p < length h).
  { cbn. intros p P. assert (p <= a) by (destruct (is_pristine l); [destruct (heap_ok_parent asize h a l p H Ea P); lia|injection P as <-; auto]). unfold fa. lia. }
  assert (Er : parents h1 fa = ups h fl).
  { unfold parents, chain, ups. destruct (parent fl) as [p|] eqn:P.
    - destruct (Pa p eq_refl) as [L1 L2]. assert (exists n, fa = Datatypes.S n) as [n En] by (destruct fa; [lia|eauto]).
      rewrite En. cbn [chain_from]. rewrite <- En. unfold h1 at 1, fa at 1. rewrite nth_last. rewrite P. cbn [tl].
      unfold h1. rewrite (chain_from_app h [fl] (heap_ok_down asize h H)) by auto. apply (chain_from_fuel asize); auto. lia.
    - destruct fa eqn:Ef; cbn [chain_from]; rewrite <- Ef; unfold h1 at 1, fa at 1; rewrite nth_last; cbn [tl]; auto. now rewrite P. }
  assert (Eo : chain h1 b = chain h b) by (apply chain_app; auto).
  rewrite Er, Eo. set (rest := ups h fl). set (och := chain h b).
  assert (Kr : forall x lx, In (x, lx) rest -> nth_error h x = Some lx /\ x < fa).
  { intros x lx I. unfold rest, ups in I. destruct (parent fl) as [p|] eqn:P; [|easy]. destruct (Pa p eq_refl) as [L1 L2].
    destruct (chain_in asize h H p x lx I) as (E & Lx & _). split; auto. lia. }
  assert (Gr0 : ch_good asize h rest).
  { unfold rest, ups. destruct (parent fl) as [p|]; [now apply chain_good|]. split; [intros x lx k c []|]. intros pre x lx r E. now destruct pre. }
  assert (Go0 : ch_good asize h och) by now apply chain_good.
  assert (Ko : forall x lx, In (x, lx) och -> nth_error h x = Some lx /\ x < fa).
  { intros x lx I. destruct (chain_in asize h H b x lx I) as (E & Lx & _). split; auto. unfold fa. lia. }
  assert (Ao : ~ In fa (map fst och)).
  { intros I. apply in_map_iff in I as ([x lx] & Ex & I). cbn in Ex. subst x. destruct (Ko fa lx I). lia. }
  assert (Set_ : setting asize h1 fa rest och (frozen bl)).
  { constructor.
    - apply (ext_ch_good asize h); auto. intros x lx I. apply nth_app. now apply Kr.
    - apply (ext_ch_good asize h); auto. intros x lx I. apply nth_app. now apply Ko.
    - intros x xl I. destruct (chain_in asize h H b x xl I) as (E & Lx & F). destruct (Nat.eq_dec x b) as [->|N]; [left; congruence|right; apply F; lia].
    - intros I. apply in_map_iff in I as ([x lx] & Ex & I). cbn in Ex. subst x. destruct (Kr fa lx I). lia.
    - exact Ao.
    - intros z E. right. unfold fa, h1 in E. rewrite nth_last in E. injection E as <-. reflexivity.
    - intros pre x lx r pre' lx' r' E E'. unfold och in E. apply chain_suffix with (asize := asize) in E; auto.
      unfold rest, ups in E'. destruct (parent fl) as [p|]; [|destruct pre'; discriminate].
      apply chain_suffix with (asize := asize) in E'; auto. rewrite <- E' in E. split; congruence. }
  assert (St : stop_ok rest och fl (non_pristine fa fl)) by (apply (chain_stop asize h fa fl rest och H Ao b); auto).
  destruct (update_big_ok h1 fa fl rest och (frozen bl) Set_ eq_refl St fa u0) as (u1 & E1 & B1 & (F1 & P1 & S1 & L1 & D1) & M1); auto; [easy|].
  rewrite E1. clear E1.
  assert (Q1 : lists u0 = []) by reflexivity. assert (Q2 : dicts u0 = []) by reflexivity. assert (Q3 : parent u0 = None) by reflexivity.
  assert (Q4 : frozen u0 = false) by reflexivity.
  destruct (update_small_ok h1 fa fl rest och (frozen bl) Set_ St fa u1 S1) as (S2 & (F2 & P2 & B2 & L2 & D2) & M2).
  set (u2 := update_small fa fl rest och u1) in *.
  destruct (update_lists_ok h1 fa fl rest och (frozen bl) Set_ eq_refl St fa u2) as (V3 & (F3 & P3 & S3 & B3 & D3) & M3); [congruence|].
  set (u3 := update_lists fa fl rest och u2) in *.
  destruct (update_dicts_ok h1 fa fl rest och (frozen bl) Set_ eq_refl St fa u3) as (V4 & (F4 & P4 & S4 & B4 & L4) & M4); [congruence|].
  set (u4 := update_dicts iter fa fl rest och u3) in *.
  assert (Pu : parent u4 = None) by congruence.
  assert (Bu : forall k c, a_find key_dec (big u4) k = Some c -> coll_ok asize h [] k c).
  { intros k c F. rewrite B4, B3, B2 in F. apply (ext_coll_ok asize h1 h); auto. intros x lx k' c' []. }
  assert (Sm : small u4 = small u2) by congruence. assert (Li : lists u4 = lists u3) by congruence. assert (Bi : big u4 = big u1) by congruence.
  assert (Lk : layer_ok h fa u4).
  { split; [intros p P; congruence|]. split; [rewrite Sm; exact S2|]. split; [unfold ups; rewrite Pu; exact Bu|].
    split; [rewrite Li; exact V3|exact V4]. }
  exists u4. split; auto. split; auto. split; auto. split; [congruence|].
  (* what the fork of [a] and [b] contain *)
  destruct (new_layer_chain asize h a l fa fl H Ea eq_refl eq_refl) as (N1 & N2 & N3). cbn zeta in *. fold rest in N1, N2, N3.
  assert (Ct : forall attr o, c_attr (content_at h a) attr o = attr_in h1 ((fa, fl) :: rest) attr o).
  { intros. cbn. rewrite <- N1. symmetry. apply ext_content; auto. intros x lx k c [I|I] Fc; [injection I as <- <-; discriminate|].
    exact (ch_good_ok asize h rest Gr0 x lx k c I Fc). }
  assert (Co : forall attr o, c_attr (content_at h b) attr o = attr_in h1 och attr o).
  { intros. cbn. symmetry. apply ext_content; auto. now apply (chain_ch_ok asize). }
  assert (Cu : forall attr o, c_attr (ch_content h [(fa, u4)]) attr o = attr_in h1 [(fa, u4)] attr o).
  { intros. cbn. symmetry. apply ext_content; auto. intros x lx k c [I|[]] Fc. injection I as <- <-. exact (proj1 (proj2 (proj2 (Bu k c Fc)))). }
  split; [|split].
  - intros attr o V. fold fa. rewrite Ct, Co, Cu. unfold attr_in. destruct (is_small_alloc o) eqn:So.
    + assert (M := M2 (attr, o) (conj V So)). unfold good, small_view in M. cbn [fst snd] in M.
      replace (look_small [(fa, u4)] attr o) with (look_small [(fa, u2)] attr o); [exact M|]. cbn [look_small]. now rewrite Sm.
    + assert (M := M1 (attr, o) (conj V So)). unfold good, big_view in M. cbn [fst snd] in M.
      replace (look_big h1 [(fa, u4)] (allocation_of o, attr) o) with (look_big h1 [(fa, u1)] (allocation_of o, attr) o); [exact M|]. cbn [look_big]. now rewrite Bi.
  - intros o W. assert (M := M3 o W). unfold good, list_view in M. cbn [c_list ch_content content_at]. rewrite <- N2. fold fa.
    replace (list_in [(fa, u4)] o) with (list_in [(fa, u3)] o); [exact M|]. unfold list_in. cbn [look_list]. now rewrite Li.
  - intros o k W. assert (M := M4 (o, k) W). unfold good, dict_view in M. cbn [fst snd] in M. cbn [c_dict ch_content content_at]. rewrite <- N3. exact M.
Qed.
End Update.
