(** Operators that take items from other positions: at, expand, collapse. *)
From Coq Require Import NArith ZArith List Bool Arith Lia Permutation.
From Verif Require Import ObjectIdModel SchemaModel ItemModel SliceModel SliceSpec SliceProofs SliceBuildProofs
  SliceOpsModel SliceOpsSpec SliceOpsProofs SliceOrProofs.
Import ListNotations.
Local Open Scope nat_scope.

(** ** Constants *)
Lemma elements_const : forall v n, elements (const_arr v n) = repeat (Some v) n.
Proof.
  intros v n. apply nth_ext with (d := None) (d' := None).
  - rewrite elements_length, repeat_length. unfold d_size. cbn. apply repeat_length.
  - intros i Hi. rewrite elements_length in Hi. rewrite (elements_nth _ _ i eq_refl Hi). reflexivity.
Qed.
Lemma const_arr_ok : forall v n, arr_ok n (const_arr v n).
Proof.
  intros v n. constructor.
  - unfold d_size. cbn. apply repeat_length.
  - left. reflexivity.
  - intros i Hi _. exists v. split; auto. cbn. rewrite nth_indep with (d' := Some v) by now rewrite repeat_length.
    apply nth_repeat.
Qed.
Lemma one_alloc_ok : forall a, allocs_ok (al_insert a no_allocs).
Proof.
  intros a x Hx. unfold al_insert in Hx. destruct (is_small_alloc a) eqn:E; cbn in Hx; [destruct Hx|].
  destruct Hx as [<-|[]]. exact E.
Qed.
Lemma expand_item_ok : forall x e, good_slice (expand_item x e) /\ s_size (expand_item x e) = child_size e /\
  items (expand_item x e) = repeat x (child_size e).
Proof.
  intros [v|] e; [|apply empty_unknown_good]. set (n := child_size e). rewrite <- elements_const.
  unfold expand_item. fold n.
  destruct v as [k c]. destruct k; try apply (create_good n _ (const_arr_ok _ n)).
  apply (create_with_good n _ _ (const_arr_ok _ n)); [apply one_alloc_ok|].
  intros o Ho. rewrite elements_const in Ho. apply repeat_spec in Ho.
  pose proof (f_equal (fun x => match x with Some v => v | None => the_unit end) Ho) as EQ. cbn iota in EQ.
  unfold val in EQ. apply Eqdep_dec.inj_pair2_eq_dec in EQ; [|exact kind_eq_dec]. subst o.
  apply covers_insert. right. unfold same_alloc. destruct (is_small_alloc (allocation_of c)); auto.
Qed.
Lemma create_const_expand : forall n x, create_const n x = expand_item x [n].
Proof. intros n x. unfold create_const, expand_item, child_size. cbn. now rewrite Nat.add_0_r. Qed.
Lemma create_const_ok : forall n x, good_slice (create_const n x) /\ s_size (create_const n x) = n /\
  items (create_const n x) = repeat x n.
Proof.
  intros n x. rewrite create_const_expand. destruct (expand_item_ok x [n]) as (A & B & C).
  unfold child_size in B, C. cbn in B, C. rewrite Nat.add_0_r in B, C. auto.
Qed.

Section Items.
Variable visit : list (kind * storage) -> list (kind * storage).
Hypothesis visits : forall m, Permutation (visit m) m.

Lemma presence_and_item_ok : forall ds flag, good_slice ds ->
  (~ is_mask [flag] -> presence_and_item ds flag = Fails EMask) /\
  (is_mask [flag] -> exists s, presence_and_item ds flag = Done s /\ good_slice s /\ s_size s = s_size ds /\
     items s = map (fun x => masked x flag) (items ds)).
Proof.
  intros ds flag G. destruct flag as [v|].
  - split.
    + intros NM. unfold presence_and_item. destruct v as [[] c]; try reflexivity.
      exfalso. apply NM. constructor; [|constructor]. right. destruct c. reflexivity.
    + intros M. inversion M as [|? ? H _]; subst. destruct H as [H|H]; [discriminate|].
      assert (v = the_unit) by congruence. subst v. exists ds. split; [reflexivity|]. split; auto. split; auto.
      cbn. now rewrite map_id.
  - split; [intros NM; exfalso; apply NM; constructor; auto; constructor|].
    intros _. exists (empty_and_unknown (s_size ds)). split; [reflexivity|].
    destruct (empty_unknown_good (s_size ds)) as (A & B & C). split; auto. split; auto. rewrite C.
    rewrite <- (items_length ds) at 1. clear. generalize (items ds) as q; induction q as [|y q IH]; [reflexivity|]; cbn [length repeat map masked]; rewrite IH; reflexivity.
Qed.
Lemma presence_or_item_ok : forall d l x, good_slice l ->
  (d = true -> overlap (items l) (repeat x (s_size l)) -> presence_or_item visit d l x = Fails EOverlap) /\
  ((d = true -> ~ overlap (items l) (repeat x (s_size l))) ->
   exists s, presence_or_item visit d l x = Done s /\ good_slice s /\ s_size s = s_size l /\
     items s = map (fun y => either y x) (items l)).
Proof.
  intros d l x G. assert (G' := G). destruct G' as (W & AW & AO).
  destruct (create_const_ok (s_size l) x) as (GC & SC & IC).
  assert (ID : (forall i, i < s_size l -> item_at l i = None -> x = None) -> items l = map (fun y => either y x) (items l)).
  { intros H. rewrite <- (map_id (items l)) at 1. apply map_ext_in. intros y Hy. unfold items in Hy.
    apply in_map_iff in Hy. destruct Hy as (i & <- & Hi). apply in_seq in Hi.
    destruct (item_at l i) eqn:E; auto. cbn. symmetry. apply (H i); auto. lia. }
  unfold presence_or_item. split.
  - intros -> (i & A & B). assert (Hi : i < s_size l).
    { rewrite <- items_length. destruct (Nat.lt_ge_cases i (length (items l))); auto. rewrite nth_overflow in A; congruence. }
    rewrite nth_items in A by auto.
    destruct (is_empty_unknown l) eqn:EU.
    { unfold is_empty_unknown in EU. apply Nat.eqb_eq, length_zero_iff_nil in EU. now rewrite empty_item_at in A. }
    destruct x; [reflexivity|]. rewrite nth_repeat in B. congruence.
  - intros NO. replace (d && negb (is_empty_unknown l) && isSome x) with false.
    2:{ destruct d; auto. destruct (is_empty_unknown l) eqn:EU; auto. destruct x as [v|]; auto. exfalso.
        destruct (some_item l W) as (i & w & Hi & E).
        { intros E. unfold is_empty_unknown in EU. rewrite E in EU. discriminate. }
        apply (NO eq_refl). exists i. rewrite nth_items by auto. split; [congruence|].
        rewrite nth_indep with (d' := Some v) by now rewrite repeat_length. rewrite nth_repeat. discriminate. }
    destruct ((s_size l =? slice_count l) || negb (isSome x)) eqn:E.
    + exists l. split; auto. split; auto. split; auto. apply ID. intros i Hi Ei. apply orb_prop in E. destruct E as [E|E].
      * apply Nat.eqb_eq in E. rewrite count_items in E by auto. exfalso.
        destruct (filter_sub_count (fun i => isSome (item_at l i)) (fun _ => true) (seq 0 (s_size l))) as [_ Q]; auto.
        assert (FT : forall q : list nat, length (filter (fun _ => true) q) = length q) by (induction q; cbn; auto).
        rewrite FT, seq_length in Q. pose proof (proj1 Q (eq_sym E) i) as X. rewrite in_seq in X.
        specialize (X ltac:(lia) eq_refl). now rewrite Ei in X.
      * destruct x; [discriminate|reflexivity].
    + destruct (presence_or_ok visit visits d l (create_const (s_size l) x) G GC) as (_ & _ & P).
      destruct P as (s & E' & GS & SS & IS); auto. { rewrite IC. exact NO. }
      exists s. split; auto. split; auto. split; auto. rewrite IS, IC. rewrite <- (items_length l) at 1.
      clear. induction (items l); cbn; congruence.
Qed.

Lemma coalesce_ok : forall filter l r, slice_wf filter -> good_slice l -> good_slice r ->
  (s_size r <> s_size filter \/ s_size l <> s_size r -> coalesce_with_filtered visit filter l r = Fails ESizes) /\
  (s_size r = s_size filter -> s_size l = s_size r ->
   exists s, coalesce_with_filtered visit filter l r = Done s /\ good_slice s /\ s_size s = s_size l /\
     items s = map2 either (items l) (map2 masked (items r) (items filter))).
Proof.
  intros filter l r WF GL GR. unfold coalesce_with_filtered.
  destruct (has_ok filter WF) as ((WH & _) & SH & IH).
  assert (M : is_mask (items (has filter))).
  { rewrite IH. apply Forall_forall. intros x Hx. apply in_map_iff in Hx. destruct Hx as (y & <- & _). destruct y; cbn; auto. }
  assert (MM : map2 masked (items r) (items (has filter)) = map2 masked (items r) (items filter)).
  { rewrite IH. generalize (items r). clear. induction (items filter) as [|y q IHq]; intros [|x p]; cbn; auto. rewrite IHq.
    destruct y; reflexivity. }
  destruct (presence_and_ok visit visits r (has filter) GR WH) as (P1 & _ & P3). rewrite SH in P1, P3. split.
  - intros H. destruct (Nat.eq_dec (s_size r) (s_size filter)) as [E|E].
    + destruct (P3 E M) as (s & E1 & G1 & S1 & _). rewrite E1. cbn [bind_out].
      apply (presence_or_ok visit visits false l s GL G1). destruct H; congruence.
    + now rewrite P1.
  - intros E1 E2. destruct (P3 E1 M) as (s & E & G1 & S1 & I1). rewrite E. cbn [bind_out].
    destruct (presence_or_ok visit visits false l s GL G1) as (_ & _ & Q).
    destruct Q as (t & Et & Gt & St & It); [congruence|discriminate|]. exists t. split; auto. split; auto. split; auto.
    rewrite It, I1, MM. reflexivity.
Qed.

(** ** Arrays of elements from other positions *)
Definition gather (a : darr) (idx : list (option nat)) : list (option value) :=
  map (fun o => match o with Some i => d_get a i | None => None end) idx.
Definition gathered (s : slice) (idx : list (option nat)) : list (option value) :=
  map (fun o => match o with Some i => item_at s i | None => None end) idx.
Lemma nth_gather : forall {A} (f : option nat -> option A) idx j, f None = None -> nth j (map f idx) None = f (nth j idx None).
Proof.
  intros A f idx j H. rewrite <- H at 1. apply map_nth.
Qed.
Lemma gather_ok : forall n a idx, arr_ok n a -> (forall i, In (Some i) idx -> i < n) ->
  arr_ok (length idx) (of_list (d_kind a) (gather a idx)).
Proof.
  intros n a idx O H. replace (length idx) with (length (gather a idx)) by apply map_length. apply of_list_ok.
  intros v Hv. apply in_map_iff in Hv. destruct Hv as ([i|] & G & Hi); [|discriminate].
  destruct (ok_get n a i O (H i Hi)) as [(_ & w & G' & K & _)|(_ & G')]; congruence.
Qed.
Lemma gathered_in : forall s idx v, In (Some v) (gathered s idx) -> exists i, In (Some i) idx /\ item_at s i = Some v.
Proof.
  intros s idx v H. apply in_map_iff in H. destruct H as ([i|] & E & Hi); [|discriminate]. eauto.
Qed.
Definition knows (al : allocs) (s : slice) : Prop :=
  forall i o, i < s_size s -> item_at s i = Some (val KObjectId o) -> covers al (allocation_of o).
Lemma gather_builder : forall ds idx al (f : darr -> darr), slice_wf ds -> (forall i, In (Some i) idx -> i < s_size ds) ->
  (forall a, In a (s_values ds) -> f a = of_list (d_kind a) (gather a idx)) ->
  exists b s, ofold (fun a => insert_array (f a)) (s_values ds) (new_builder (length idx) al) = Some b /\
    finish visit b = Some s /\ slice_wf s /\ s_size s = length idx /\ items s = gathered ds idx /\
    (s_values s <> [] -> s_allocs s = al) /\
    (allocs_ok al -> knows al ds -> good_slice s).
Proof.
  intros ds idx al f W IX F. set (m := length idx).
  assert (OF : forall a, In a (s_values ds) -> arr_ok m (f a)).
  { intros a Ha. rewrite F by auto. apply (gather_ok (s_size ds)); auto. now apply wf_array. }
  destruct (insert_arrays_new m al f (s_values ds) OF) as (b & E & G & A).
  assert (IT : forall i, i < m -> first_of (map (fun a => d_get (f a) i) (s_values ds)) = nth i (gathered ds idx) None).
  { intros i Hi. unfold gathered. rewrite nth_gather by reflexivity.
    rewrite (map_ext_in _ (fun a => match nth i idx None with Some j => d_get a j | None => None end)).
    2:{ intros a Ha. rewrite F by auto. rewrite of_list_get. unfold gather. now rewrite nth_gather. }
    destruct (nth i idx None) as [j|] eqn:N.
    - rewrite item_at_first; auto. apply IX. rewrite <- N. now apply nth_In.
    - apply first_of_none. intros w Hw. apply in_map_iff in Hw. destruct Hw as (a & X & _). discriminate. }
  assert (L : length (gathered ds idx) = m) by apply map_length.
  assert (C : forall i, i < m -> item_of (option_map Some (first_of (map (fun a => d_get (f a) i) (s_values ds)))) = nth i (gathered ds idx) None).
  { intros i Hi. rewrite IT by auto. destruct (nth i (gathered ds idx) None); reflexivity. }
  destruct (finish_ok visit visits m b _ (gathered ds idx) G L C) as (s & Es & Ws & Ss & Is & A1 & A2).
  exists b, s. split; auto. split; auto. split; auto. split; auto. split; auto. split; [intros H; rewrite A1; auto|].
  intros AO KN. destruct (finish_good visit visits m b _ (gathered ds idx) G L C) as (s' & Es' & GS & _).
  - now rewrite A.
  - intros o Ho. rewrite A. destruct (gathered_in _ _ _ Ho) as (i & Hi & Ei). apply (KN i); auto.
  - congruence.
Qed.
Lemma gathered_items : forall s idx, (forall i, In (Some i) idx -> i < s_size s) ->
  gathered s idx = map (fun o => match o with Some i => nth i (items s) None | None => None end) idx.
Proof.
  intros s idx H. apply map_ext_in. intros [i|] Hi; auto. now rewrite nth_items by auto.
Qed.

(** ** at *)
Definition at_index (n : nat) (id : option Z) : option nat :=
  match id with
  | None => None
  | Some z =>
      let z' := if (z <? 0)%Z then (z + Z.of_nat n)%Z else z in
      if (z' <? 0)%Z || (Z.of_nat n <=? z')%Z then None else Some (Z.to_nat z')
  end.
Lemma at_index_lt : forall n id i, at_index n id = Some i -> i < n.
Proof.
  intros n [z|] i H; [|discriminate]. unfold at_index in H. cbv zeta in H. set (z' := if (z <? 0)%Z then _ else _) in *.
  destruct (Z.ltb_spec z' 0); [discriminate|]. destruct (Z.leb_spec (Z.of_nat n) z'); [discriminate|]. cbn in H.
  assert (i = Z.to_nat z') by congruence. lia.
Qed.
Lemma at_fn_gather : forall n a id, arr_ok n a -> at_fn a id = match at_index n id with Some i => d_get a i | None => None end.
Proof.
  intros n a [z|] O; [|reflexivity]. unfold at_fn, at_index. rewrite (ao_size _ _ O). cbv zeta.
  set (z' := if (z <? 0)%Z then _ else _). destruct ((z' <? 0)%Z || (Z.of_nat n <=? z')%Z); auto.
  unfold d_get. destruct (d_present a (Z.to_nat z')); reflexivity.
Qed.
Lemma item_at_index_eq : forall l id, item_at_index l id = match at_index (length l) id with Some i => nth i l None | None => None end.
Proof.
  intros l [z|]; [|reflexivity]. unfold item_at_index, at_index. cbv zeta.
  destruct (Z.ltb_spec z 0) as [H|H].
  - destruct (Z.leb_spec 0 z); [lia|]. cbn [andb].
    destruct (Z.leb_spec (- Z.of_nat (length l)) z); cbn [andb].
    + destruct (Z.ltb_spec (z + Z.of_nat (length l)) 0); [lia|].
      destruct (Z.leb_spec (Z.of_nat (length l)) (z + Z.of_nat (length l))); [lia|]. reflexivity.
    + destruct (Z.ltb_spec (z + Z.of_nat (length l)) 0); [reflexivity|lia].
  - destruct (Z.leb_spec 0 z); [|lia]. cbn [andb orb].
    destruct (Z.ltb_spec z (Z.of_nat (length l))); destruct (Z.leb_spec (Z.of_nat (length l)) z); try lia.
    all: destruct (Z.ltb_spec z 0); try lia; cbn; auto. all: now rewrite andb_false_r.
Qed.
Lemma knows_own : forall ds, good_slice ds -> knows (s_allocs ds) ds.
Proof. intros ds (_ & A & _). exact A. Qed.
Lemma at_ok : forall ds idx, good_slice ds ->
  exists s, at_ visit ds idx = Done s /\ good_slice s /\ s_size s = length idx /\
    items s = map (item_at_index (items ds)) idx.
Proof.
  intros ds idx G. assert (G' := G). destruct G' as (W & AW & AO). unfold at_.
  set (ix := map (at_index (s_size ds)) idx).
  assert (IX : forall i, In (Some i) ix -> i < s_size ds).
  { intros i Hi. apply in_map_iff in Hi. destruct Hi as (z & E & _). now apply at_index_lt in E. }
  assert (RES : gathered ds ix = map (item_at_index (items ds)) idx).
  { rewrite gathered_items by auto. unfold ix. rewrite map_map. apply map_ext. intros z.
    rewrite item_at_index_eq, items_length. reflexivity. }
  assert (F : forall a, In a (s_values ds) -> of_list (d_kind a) (map (at_fn a) idx) = of_list (d_kind a) (gather a ix)).
  { intros a Ha. f_equal. unfold gather, ix. rewrite map_map. apply map_ext. intros z.
    apply at_fn_gather. now apply wf_array. }
  assert (LX : length ix = length idx) by apply map_length.
  destruct (is_empty_unknown ds) eqn:EU.
  { unfold is_empty_unknown in EU. apply Nat.eqb_eq, length_zero_iff_nil in EU.
    destruct (empty_unknown_good (length idx)) as (A & B & C). exists (empty_and_unknown (length idx)).
    split; auto. split; auto. split; auto. rewrite C, <- RES. unfold gathered. rewrite <- LX. clear - EU.
    induction ix as [|o q IH]; auto. cbn. rewrite <- IH. destruct o; auto. now rewrite empty_item_at. }
  destruct (gather_builder ds ix (s_allocs ds) (fun a => of_list (d_kind a) (map (at_fn a) idx)) W IX F)
    as (b & s & E1 & E2 & _ & S' & I & _ & GS).
  destruct (s_values ds) as [|a [|a2 r]] eqn:V.
  - unfold is_empty_unknown in EU. rewrite V in EU. discriminate.
  - assert (Oa : arr_ok (s_size ds) a) by (apply wf_array; auto; rewrite V; now left).
    assert (OG : arr_ok (length idx) (of_list (d_kind a) (map (at_fn a) idx))).
    { rewrite F by now left. rewrite <- LX. now apply (gather_ok (s_size ds)). }
    assert (EL : elements (of_list (d_kind a) (map (at_fn a) idx)) = gathered ds ix).
    { rewrite F by now left. apply nth_ext with (d := None) (d' := None).
      - rewrite elements_length. unfold d_size. cbn. unfold gather, gathered. now rewrite !map_length.
      - intros i Hi. rewrite elements_length in Hi. rewrite (elements_nth _ _ i eq_refl Hi), of_list_get.
        unfold gather, gathered. rewrite !nth_gather by reflexivity. destruct (nth i ix None) as [j|] eqn:N; auto.
        symmetry. apply single_item; auto. apply IX. rewrite <- N. apply nth_In.
        unfold d_size in Hi. cbn in Hi. unfold gather in Hi. rewrite map_length in Hi. exact Hi. }
    destruct (create_with_good (length idx) (s_allocs ds) _ OG AO) as (A & B & C).
    { intros o Ho. rewrite EL in Ho. destruct (gathered_in _ _ _ Ho) as (i & Hi & Ei). apply (AW i); auto. }
    eexists. split; [reflexivity|]. split; auto. split; auto. rewrite C, EL. exact RES.
  - rewrite <- LX, E1. cbn [obind]. rewrite E2. exists s. split; auto. split; [apply GS; auto|]. split; auto.
    rewrite I. exact RES.
Qed.

(** ** expand *)
Lemma flat_repeat_from : forall {A} (g : nat -> A) e k,
  flat_map (fun i => repeat (g i) (nth (i - k) e 0)) (seq k (length e)) =
  concat (map2 (fun x n => repeat x n) (map g (seq k (length e))) e).
Proof.
  intros A g e. induction e as [|n e IH]; intros k; auto. cbn [length seq flat_map map map2 concat].
  rewrite Nat.sub_diag. cbn [nth]. f_equal. rewrite <- IH.
  rewrite !flat_map_concat_map. f_equal. apply map_ext_in. intros i Hi. apply in_seq in Hi.
  replace (i - k) with (S (i - S k)) by lia. reflexivity.
Qed.
Lemma flat_repeat : forall {A} (g : nat -> A) e,
  flat_map (fun i => repeat (g i) (nth i e 0)) (seq 0 (length e)) =
  concat (map2 (fun x n => repeat x n) (map g (seq 0 (length e))) e).
Proof.
  intros A g e. rewrite <- flat_repeat_from. rewrite !flat_map_concat_map. f_equal. apply map_ext_in. intros i Hi.
  now rewrite Nat.sub_0_r.
Qed.
Lemma map2_repeat_length : forall {A} (l : list A) e, length l = length e ->
  length (concat (map2 (fun x n => repeat x n) l e)) = list_sum e.
Proof.
  intros A l e. revert l. induction e as [|n e IH]; intros [|x l] L; auto; try discriminate.
  cbn. rewrite app_length, repeat_length. f_equal. apply IH. cbn in L. lia.
Qed.
Definition expand_idx (e : edge) : list (option nat) :=
  flat_map (fun i => repeat (Some i) (nth i e 0)) (seq 0 (length e)).
Lemma expand_idx_length : forall e, length (expand_idx e) = child_size e.
Proof.
  intros e. unfold expand_idx. rewrite (flat_repeat Some). apply map2_repeat_length. now rewrite map_length, seq_length.
Qed.
Lemma expand_idx_lt : forall e i, In (Some i) (expand_idx e) -> i < length e.
Proof.
  intros e i H. apply in_flat_map in H. destruct H as (j & Hj & Hi). apply repeat_spec in Hi. apply in_seq in Hj.
  assert (i = j) by congruence. lia.
Qed.
Lemma map_expand_idx : forall {A} (f : option nat -> A) e,
  map f (expand_idx e) = flat_map (fun i => repeat (f (Some i)) (nth i e 0)) (seq 0 (length e)).
Proof.
  intros A f e. unfold expand_idx. rewrite !flat_map_concat_map, concat_map, map_map. f_equal. apply map_ext.
  intros i. generalize (nth i e 0) as m. induction m; cbn; congruence.
Qed.
Lemma arr_expand_gather : forall n a e, arr_ok n a -> length e = n -> arr_expand a e = of_list (d_kind a) (gather a (expand_idx e)).
Proof.
  intros n a e O L. unfold arr_expand. f_equal. unfold gather. rewrite map_expand_idx. now rewrite (ao_size _ _ O), L.
Qed.
Lemma gathered_expand : forall ds e, length e = s_size ds -> gathered ds (expand_idx e) = expanded (items ds) e.
Proof.
  intros ds e L. unfold gathered, expanded. rewrite map_expand_idx.
  rewrite (flat_repeat (item_at ds)). unfold items. now rewrite L.
Qed.
Lemma expand_ok : forall ds e, good_slice ds -> length e = s_size ds ->
  exists s, expand visit ds e = Done s /\ good_slice s /\ s_size s = child_size e /\ items s = expanded (items ds) e.
Proof.
  intros ds e G L. assert (G' := G). destruct G' as (W & AW & AO). unfold expand.
  destruct (gather_builder ds (expand_idx e) (al_union no_allocs (s_allocs ds)) (fun a => arr_expand a e) W)
    as (b & s & E1 & E2 & _ & S' & I & _ & GS).
  - intros i Hi. rewrite <- L. now apply expand_idx_lt.
  - intros a Ha. apply (arr_expand_gather (s_size ds)); auto. now apply wf_array.
  - rewrite expand_idx_length in *. rewrite E1. cbn [obind]. rewrite E2. exists s. split; auto. split; [|split; auto].
    + apply GS. { apply union_ok; auto. exact no_allocs_ok. }
      intros i o Hi Ei. apply covers_union; auto. right. now apply (AW i).
    + rewrite I. now apply gathered_expand.
Qed.

(** ** collapse *)
Lemma create_items_ok : forall l,
  exists s, create_items visit l = Some s /\ good_slice s /\ s_size s = length l /\ items s = l.
Proof.
  intros l. unfold create_items. destruct (forallb _ l) eqn:AN.
  - exists (empty_and_unknown (length l)). split; auto. destruct (empty_unknown_good (length l)) as (A & B & C).
    split; auto. split; auto. rewrite C. clear - AN. induction l as [|x l IH]; auto. cbn in *.
    apply andb_prop in AN. destruct AN as [A B]. destruct x; [discriminate|]. f_equal. now apply IH.
  - clear AN. set (n := length l).
    assert (LP : forall q k b c, good n b c -> (forall i, k <= i -> c i = None) -> k + length q <= n ->
      exists b', ofold (fun '(i, x) b => if isSome x then insert_alloc i x b else Some b) (combine (seq k (length q)) q) b = Some b' /\
        good n b' (fun i => if i <? k then c i else option_map Some (nth (i - k) q None)) /\
        b_allocs b' = fold_left add_alloc q (b_allocs b)).
    { induction q as [|x q IH]; intros k b c G N LE.
      - exists b. split; [reflexivity|]. split; auto. eapply good_ext; [|exact G]. intros i Hi.
        destruct (Nat.ltb_spec i k); auto. rewrite N by lia. destruct (i - k); reflexivity.
      - cbn [length seq combine]. rewrite ofold_cons. cbn [length] in LE.
        assert (X : exists b1 c1, (if isSome x then insert_alloc k x b else Some b) = Some b1 /\ good n b1 c1 /\
                      (forall i, c1 i = if i =? k then option_map Some x else c i) /\ b_allocs b1 = add_alloc (b_allocs b) x).
        { destruct x as [v|]; cbn [isSome].
          - destruct (insert_alloc_ok n b c k (Some v) G) as (b1 & E1 & G1 & A1); [lia|].
            exists b1, (over c (at_pos k (Some v))). split; auto. split; auto. split.
            + intros i. unfold over, at_pos. rewrite (Nat.eqb_sym k i). destruct (Nat.eqb_spec i k) as [->|]; [now rewrite N|].
              destruct (c i); reflexivity.
            + rewrite A1, N by auto. reflexivity.
          - exists b, c. split; auto. split; auto. split; auto. intros i. destruct (Nat.eqb_spec i k) as [->|]; [|reflexivity].
            now rewrite N. }
        destruct X as (b1 & c1 & E1 & G1 & C1 & A1). rewrite E1. cbn [obind].
        destruct (IH (S k) b1 c1 G1) as (b' & E & G' & A').
        + intros i Hi. rewrite C1. destruct (Nat.eqb_spec i k); [lia|]. apply N. lia.
        + lia.
        + exists b'. split; auto. split; [|now rewrite A', A1].
          eapply good_ext; [|exact G']. intros i Hi. cbv beta. try rewrite C1.
          destruct (Nat.ltb_spec i (S k)), (Nat.ltb_spec i k), (Nat.eqb_spec i k); try lia; auto.
          * subst i. now rewrite Nat.sub_diag.
          * replace (i - k) with (S (i - S k)) by lia. reflexivity. }
    destruct (LP l 0 (new_builder n no_allocs) (fun _ => None)) as (b & E & G & A); auto.
    { exact (new_builder_good n no_allocs). }
    fold n in E. rewrite E. cbn [obind].
    destruct (alloc_ids_covers l no_allocs (mkOid 0 0 0 0) no_allocs_ok) as (G1 & _ & G3).
    apply (finish_good visit visits n b _ l G eq_refl).
    + intros i Hi. cbn [Nat.ltb Nat.leb]. rewrite Nat.sub_0_r. destruct (nth i l None); reflexivity.
    + rewrite A. exact G1.
    + intros o Ho. rewrite A. now apply G3.
Qed.
Lemma chunks_in : forall {A} e (l : list A) g x, In g (chunks e l) -> In x g -> In x l.
Proof.
  intros A e. induction e as [|n e IH]; intros l g x Hg Hx; [destruct Hg|]. destruct Hg as [<-|Hg].
  - rewrite <- (firstn_skipn n l). apply in_app_iff. now left.
  - rewrite <- (firstn_skipn n l). apply in_app_iff. right. eapply IH; eauto.
Qed.
Lemma chunks_length : forall {A} e (l : list A), length (chunks e l) = length e.
Proof. intros A e. induction e as [|n e IH]; intros l; cbn; auto. Qed.
Lemma collapse_group_spec : forall eqb g v, collapse_group eqb g = Some v <-> collapses eqb g v.
Proof.
  intros eqb g v. unfold collapse_group.
  assert (PV : forall g w, In w (flat_map (fun x : option value => match x with Some v => [v] | None => [] end) g) <-> In (Some w) g).
  { intros g' w. rewrite in_flat_map. split.
    - intros ([y|] & Hy & Hw); [|destruct Hw]. destruct Hw as [->|[]]. exact Hy.
    - intros H. exists (Some w). split; auto. now left. }
  induction g as [|x g IH].
  - cbn. split; [discriminate|]. intros ([|? ?] & g2 & E & _); discriminate.
  - destruct x as [w|].
    + cbn [flat_map app]. split.
      * intros H. destruct (forallb _ _) eqn:F; [|discriminate]. assert (w = v) by congruence. subst w.
        exists [], g. split; auto. split; [intros x []|]. intros u Hu. rewrite forallb_forall in F. apply F. now apply PV.
      * intros (g1 & g2 & E & N & Q). destruct g1 as [|y g1].
        -- cbn in E. assert (w = v) by congruence. assert (g = g2) by congruence. subst w g2.
           replace (forallb _ _) with true; auto. symmetry. apply forallb_forall. intros u Hu. apply Q. now apply PV.
        -- cbn in E. assert (y = Some w) by congruence. specialize (N y (or_introl eq_refl)). congruence.
    + cbn [flat_map app]. rewrite IH. split.
      * intros (g1 & g2 & -> & N & Q). exists (None :: g1), g2. split; auto. split; auto. intros x [<-|Hx]; auto.
      * intros (g1 & g2 & E & N & Q). destruct g1 as [|y g1]; [discriminate|]. cbn in E. exists g1, g2.
        split; [congruence|]. split; auto. intros x Hx. apply N. now right.
Qed.
Lemma collapse_ok : forall eqb ds e, good_slice ds -> child_size e = s_size ds ->
  exists s, collapse visit eqb ds e = Done s /\ good_slice s /\ s_size s = length e /\
    items s = map (collapse_group eqb) (chunks e (items ds)).
Proof.
  intros eqb ds e (W & AW & AO) L. unfold collapse.
  destruct (is_empty_unknown ds) eqn:EU.
  { unfold is_empty_unknown in EU. apply Nat.eqb_eq, length_zero_iff_nil in EU.
    destruct (empty_unknown_good (parent_size e)) as (A & B & C). eexists. split; [reflexivity|].
    split; auto. split; auto. rewrite C. rewrite empty_items by auto.
    assert (Q : forall g, In g (chunks e (repeat None (s_size ds))) -> collapse_group eqb g = None).
    { intros g Hg. destruct (collapse_group eqb g) as [v|] eqn:E; auto. apply collapse_group_spec in E.
      destruct E as (g1 & g2 & -> & _). assert (X : In (Some v) (repeat None (s_size ds))).
      { eapply chunks_in; eauto. apply in_app_iff. right. now left. }
      apply repeat_spec in X. discriminate. }
    unfold parent_size. rewrite <- (chunks_length e (repeat (@None value) (s_size ds))).
    induction (chunks e (repeat None (s_size ds))) as [|g q IH]; auto. cbn. rewrite Q by now left. f_equal.
    apply IH. intros; apply Q; now right. }
  assert (MX : exists s, of_opt (create_items visit (map (collapse_group eqb) (chunks e (as_items ds)))) = Done s /\ good_slice s /\
     s_size s = length e /\ items s = map (collapse_group eqb) (chunks e (items ds))).
  { rewrite as_items_wf by auto.
    destruct (create_items_ok (map (collapse_group eqb) (chunks e (items ds)))) as (s & E & G & S' & I).
    rewrite E. exists s. split; auto. split; auto. split; auto. now rewrite S', map_length, chunks_length. }
  destruct (s_values ds) as [|a [|a2 r]] eqn:V; auto.
  assert (Oa : arr_ok (s_size ds) a) by (apply wf_array; auto; rewrite V; now left).
  assert (EL : elements a = items ds).
  { unfold elements, items. rewrite (ao_size _ _ Oa). apply map_ext_in. intros i Hi. apply in_seq in Hi.
    symmetry. apply single_item; auto. lia. }
  rewrite EL. set (res := map (collapse_group eqb) (chunks e (items ds))).
  assert (OR : arr_ok (length res) (of_list (d_kind a) res)).
  { apply of_list_ok. intros v Hv. apply in_map_iff in Hv. destruct Hv as (g & E & Hg).
    apply collapse_group_spec in E. destruct E as (g1 & g2 & -> & _).
    assert (X : In (Some v) (items ds)) by (eapply chunks_in; eauto; apply in_app_iff; right; now left).
    rewrite <- EL in X. apply in_map_iff in X. destruct X as (i & Gi & Hi). rewrite (ao_size _ _ Oa) in Hi. apply in_seq in Hi.
    destruct (ok_get _ a i Oa ltac:(lia)) as [(_ & w & G' & K & _)|(_ & G')]; congruence. }
  destruct (create_good _ _ OR) as (A & B & C). eexists. split; [reflexivity|]. split; auto.
  split; [rewrite B; unfold res; now rewrite map_length, chunks_length|]. rewrite C.
  apply nth_ext with (d := None) (d' := None).
  - now rewrite elements_length.
  - intros i Hi. rewrite elements_length in Hi. rewrite (elements_nth _ _ i eq_refl Hi). apply of_list_get.
Qed.
End Items.
