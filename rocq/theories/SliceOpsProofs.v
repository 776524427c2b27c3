(** The operators that act on each position, on indices and on groups. *)
From Coq Require Import NArith ZArith List Bool Arith Lia Permutation.
From Verif Require Import ObjectIdModel SchemaModel ItemModel SliceModel SliceSpec SliceProofs SliceBuildProofs
  SliceOpsModel SliceOpsSpec.
Import ListNotations.
Local Open Scope nat_scope.

(** ** Arrays *)
Record arr_ok (n : nat) (a : darr) : Prop := {
  ao_size : d_size a = n;
  ao_bitmap : bitmap_ok n (d_bitmap a);
  ao_values : forall i, i < n -> d_present a i = true ->
    exists v, nth i (d_values a) None = Some v /\ kind_of v = d_kind a
}.
Lemma arr_wf_ok : forall n a, arr_wf n a -> arr_ok n a.
Proof. intros n a []. now constructor. Qed.
Lemma ok_get : forall n a i, arr_ok n a -> i < n ->
  (d_present a i = true /\ exists v, d_get a i = Some v /\ kind_of v = d_kind a /\ nth i (d_values a) None = Some v) \/
  (d_present a i = false /\ d_get a i = None).
Proof.
  intros n a i O Hi. unfold d_get. destruct (d_present a i) eqn:P; auto.
  left. split; auto. destruct (ao_values _ _ O i Hi P) as (v & V1 & V2). exists v. auto.
Qed.
Lemma present_get : forall n a i, arr_ok n a -> i < n -> d_present a i = isSome (d_get a i).
Proof.
  intros n a i O Hi. destruct (ok_get n a i O Hi) as [(-> & v & -> & _)|(-> & ->)]; reflexivity.
Qed.
Lemma bit_map_seq : forall (f : nat -> bool) n i, i < n -> bit (map f (seq 0 n)) i = f i.
Proof.
  intros f n i Hi. unfold bit. destruct (map f (seq 0 n)) eqn:E.
  - destruct n; [lia|discriminate].
  - rewrite <- E. rewrite (nth_indep _ false (f 0)) by now rewrite map_length, seq_length.
    rewrite map_nth, seq_nth; auto.
Qed.
Lemma nth_map_seq : forall {A} (f : nat -> A) n i d, i < n -> nth i (map f (seq 0 n)) d = f i.
Proof.
  intros A f n i d Hi. rewrite (nth_indep _ d (f 0)) by now rewrite map_length, seq_length.
  rewrite map_nth, seq_nth; auto.
Qed.
Lemma bit_map_list : forall {A} (f : A -> bool) (l : list A) i d, i < length l -> bit (map f l) i = f (nth i l d).
Proof.
  intros A f l i d Hi. unfold bit. destruct (map f l) eqn:E.
  - apply map_eq_nil in E. subst. cbn in Hi. lia.
  - rewrite <- E. rewrite (nth_indep _ false (f d)) by now rewrite map_length. apply map_nth.
Qed.

(** arrays with given elements *)
Lemma of_list_get : forall k l i, d_get (of_list k l) i = nth i l None.
Proof.
  intros k l i. unfold d_get, d_present; cbn. destruct (Nat.lt_ge_cases i (length l)) as [H|H].
  - rewrite (bit_map_list isSome l i None) by auto. destruct (nth i l None); reflexivity.
  - rewrite nth_overflow by auto. destruct (bit _ _); auto.
Qed.
Lemma of_list_ok : forall k l, (forall v, In (Some v) l -> kind_of v = k) -> arr_ok (length l) (of_list k l).
Proof.
  intros k l H. constructor; cbn; auto.
  - right. now rewrite map_length.
  - intros i Hi P. unfold d_present in P; cbn in P. rewrite (bit_map_list isSome l i None) in P by auto.
    destruct (nth i l None) as [v|] eqn:E; [|discriminate]. exists v. split; auto. apply H.
    rewrite <- E. now apply nth_In.
Qed.

(** ** Inserting arrays into a builder *)
Definition acell (a : darr) (i : nat) : option (option value) := option_map Some (d_get a i).
Lemma insert_array_ok : forall n b c a, good n b c -> arr_ok n a ->
  exists b', insert_array a b = Some b' /\ good n b' (over c (acell a)) /\ b_allocs b' = b_allocs b.
Proof.
  intros n b c a G O. unfold insert_array.
  destruct (insert_batch_ok n b c (d_kind a) (d_bitmap a) [] (d_values a)) as (b' & E & G' & A); auto.
  - exact (ao_size _ _ O).
  - intros i Hi P _. exact (ao_values _ _ O i Hi P).
  - exists b'. split; auto. split; auto. eapply good_ext; [|exact G'].
    intros i Hi. unfold over. destruct (c i); auto. unfold batch_says, acell, d_get, d_present.
    destruct (bit (d_bitmap a) i) eqn:P; auto.
    destruct (ao_values _ _ O i Hi P) as (v & -> & _). reflexivity.
Qed.

Definition first_of (l : list (option value)) : option value :=
  match find isSome l with Some x => x | None => None end.
Lemma first_of_cons : forall x l, first_of (x :: l) = either x (first_of l).
Proof. intros [v|] l; reflexivity. Qed.
Lemma first_of_only : forall l v, In (Some v) l -> (forall w, In (Some w) l -> w = v) -> first_of l = Some v.
Proof.
  induction l as [|x l IH]; intros v H U; [destruct H|]. rewrite first_of_cons. destruct x as [w|].
  - cbn. f_equal. apply U. now left.
  - cbn. apply IH.
    + destruct H as [H|H]; [discriminate|exact H].
    + intros w Hw. apply U. now right.
Qed.
Lemma first_of_none : forall l, (forall w, ~ In (Some w) l) -> first_of l = None.
Proof.
  induction l as [|x l IH]; intros H; auto. rewrite first_of_cons. destruct x as [w|].
  - exfalso. apply (H w). now left.
  - apply IH. intros w Hw. apply (H w). now right.
Qed.
Lemma first_of_in : forall l v, first_of l = Some v -> In (Some v) l.
Proof.
  induction l as [|x l IH]; intros v H; [discriminate|]. rewrite first_of_cons in H. destruct x as [w|].
  - left. exact H.
  - right. apply IH. exact H.
Qed.

Lemma insert_arrays_ok : forall n {A} (f : A -> darr) l b c, good n b c -> (forall a, In a l -> arr_ok n (f a)) ->
  exists b', ofold (fun a => insert_array (f a)) l b = Some b' /\
    good n b' (over c (fun i => option_map Some (first_of (map (fun a => d_get (f a) i) l)))) /\
    b_allocs b' = b_allocs b.
Proof.
  intros n A f l. induction l as [|a l IH]; intros b c G O.
  - exists b. split; [reflexivity|]. split; auto. eapply good_ext; [|exact G].
    intros i Hi. unfold over. cbn. destruct (c i); auto.
  - destruct (insert_array_ok n b c (f a) G) as (b1 & E1 & G1 & A1). { apply O. now left. }
    destruct (IH b1 _ G1) as (b2 & E2 & G2 & A2). { intros; apply O; now right. }
    exists b2. rewrite ofold_cons, E1. cbn [obind]. split; auto. split; [|congruence].
    eapply good_ext; [|exact G2]. intros i Hi. unfold over, acell. destruct (c i); auto.
    cbn [map]. rewrite first_of_cons. destruct (d_get (f a) i); reflexivity.
Qed.
Lemma insert_arrays_new : forall n al {A} (f : A -> darr) l, (forall a, In a l -> arr_ok n (f a)) ->
  exists b, ofold (fun a => insert_array (f a)) l (new_builder n al) = Some b /\
    good n b (fun i => option_map Some (first_of (map (fun a => d_get (f a) i) l))) /\
    b_allocs b = al.
Proof.
  intros n al A f l O. destruct (insert_arrays_ok n f l _ _ (new_builder_good n al) O) as (b & E & G & A').
  exists b. split; auto.
Qed.

Lemma item_at_first : forall s i, slice_wf s -> i < s_size s ->
  item_at s i = first_of (map (fun a => d_get a i) (s_values s)).
Proof.
  intros s i W Hi. unfold item_at. pose proof (sw_arrays s W) as F.
  induction (s_values s) as [|a l IH]; auto. inversion F as [|? ? F1 F2]; subst.
  cbn [map find]. rewrite first_of_cons. unfold d_get at 1. destruct (d_present a i) eqn:P; auto.
  destruct (aw_values _ _ F1 i Hi P) as (v & -> & _). reflexivity.
Qed.

(** ** The result of a builder *)
Lemma items_length : forall s, length (items s) = s_size s.
Proof. intros s. unfold items. now rewrite map_length, seq_length. Qed.
Lemma nth_items : forall s i, i < s_size s -> nth i (items s) None = item_at s i.
Proof. intros s i Hi. unfold items. now rewrite nth_map_seq. Qed.
Lemma items_eq : forall s l, length l = s_size s -> (forall i, i < s_size s -> item_at s i = nth i l None) -> items s = l.
Proof.
  intros s l L H. apply nth_ext with (d := None) (d' := None); [now rewrite items_length|].
  intros i Hi. rewrite items_length in Hi. rewrite nth_items; auto.
Qed.

Section Finish.
Variable visit : list (kind * storage) -> list (kind * storage).
Hypothesis visits : forall m, Permutation (visit m) m.
Lemma finish_ok : forall n b c l, good n b c -> length l = n -> (forall i, i < n -> item_of (c i) = nth i l None) ->
  exists s, finish visit b = Some s /\ slice_wf s /\ s_size s = n /\ items s = l /\
    (s_values s <> [] -> s_allocs s = b_allocs b) /\ (s_allocs s = b_allocs b \/ s_allocs s = no_allocs).
Proof.
  intros n b c l [C _] L H. destruct (build_ok n b c C (visit (b_map b)) (visits _)) as (s & E & B).
  exists s. split; [exact E|]. destruct B as [B1 B2 B3 B4 B5 B6 B7]. split; auto. split; auto. split; [|auto].
  apply items_eq; [congruence|]. intros i Hi. rewrite B2 in Hi. rewrite B3 by auto. auto.
Qed.
Lemma no_allocs_ok : allocs_ok no_allocs.
Proof. intros a []. Qed.
Lemma item_values : forall s i v, item_at s i = Some v -> s_values s <> [].
Proof. intros s i v H E. unfold item_at in H. rewrite E in H. discriminate. Qed.
(** the objects of the result are among those of slices whose allocations are known *)
Lemma finish_good : forall n b c l, good n b c -> length l = n -> (forall i, i < n -> item_of (c i) = nth i l None) ->
  allocs_ok (b_allocs b) ->
  (forall o, In (Some (val KObjectId o)) l -> covers (b_allocs b) (allocation_of o)) ->
  exists s, finish visit b = Some s /\ good_slice s /\ s_size s = n /\ items s = l.
Proof.
  intros n b c l G L H AO CV. destruct (finish_ok n b c l G L H) as (s & E & W & S' & I & A1 & A2).
  exists s. split; auto. split; auto. split; auto. split.
  - intros i o Hi E'. rewrite A1 by (eapply item_values; eauto). apply CV. rewrite <- I.
    rewrite <- nth_items in E' by auto. rewrite <- E'. apply nth_In. now rewrite items_length.
  - destruct A2 as [->| ->]; auto. exact no_allocs_ok.
Qed.
End Finish.

(** ** DataSliceImpl::Create *)
Lemma elements_nth : forall n a i, d_size a = n -> i < n -> nth i (elements a) None = d_get a i.
Proof. intros n a i S' Hi. unfold elements. rewrite S'. now rewrite nth_map_seq. Qed.
Lemma elements_length : forall a, length (elements a) = d_size a.
Proof. intros a. unfold elements. now rewrite map_length, seq_length. Qed.
Lemma all_missing_spec : forall n a, arr_ok n a -> (all_missing a = false <-> exists i, i < n /\ d_present a i = true).
Proof.
  intros n a O. unfold all_missing, present_count. rewrite (ao_size _ _ O), Nat.eqb_neq. split.
  - intros H. destruct (filter (d_present a) (seq 0 n)) as [|i l] eqn:E; [cbn in H; lia|].
    assert (X : In i (filter (d_present a) (seq 0 n))) by (rewrite E; now left).
    apply filter_In in X. destruct X as [X1 X2]. apply in_seq in X1. exists i. split; auto. lia.
  - intros (i & Hi & P) E. apply length_zero_iff_nil in E.
    assert (X : In i (filter (d_present a) (seq 0 n))) by (apply filter_In; split; auto; apply in_seq; lia).
    rewrite E in X. destruct X.
Qed.
Lemma missing_get : forall n a i, arr_ok n a -> all_missing a = true -> i < n -> d_get a i = None.
Proof.
  intros n a i O M Hi. destruct (ok_get n a i O Hi) as [(P & _)|(_ & G)]; auto.
  assert (all_missing a = false) by (apply (all_missing_spec n a O); eauto). congruence.
Qed.
Lemma create_impl_ok : forall n al a, arr_ok n a ->
  slice_wf (create_impl al a) /\ s_size (create_impl al a) = n /\ items (create_impl al a) = elements a /\
  s_allocs (create_impl al a) = al.
Proof.
  intros n al a O. unfold create_impl. pose proof (ao_size _ _ O) as SZ. destruct (all_missing a) eqn:M.
  - split; [|split; [exact SZ|split; [|reflexivity]]].
    + constructor; cbn; auto; try congruence; try (constructor; fail); try lia.
      intros i t1 t2 a1 a2 _ N. destruct t1; discriminate.
    + apply items_eq; [now rewrite elements_length|]. cbn. intros i Hi. rewrite (elements_nth n) by congruence.
      rewrite (missing_get n a i O M) by congruence. reflexivity.
  - assert (W : arr_wf n a).
    { destruct O as [O1 O2 O3]. constructor; auto. apply (all_missing_spec n a); auto. now constructor. }
    assert (SW : slice_wf (mkSlice (d_size a) (Some (d_kind a)) al [a] [] [])).
    { constructor; cbn; auto; try congruence; try lia.
      - constructor; [now rewrite SZ|constructor].
      - constructor; [easy|constructor].
      - intros i [|t1] [|t2] a1 a2 _ N1 N2; auto; try (destruct t1; discriminate); destruct t2; discriminate. }
    split; [exact SW|]. split; [exact SZ|]. split; [|reflexivity].
    apply items_eq; [now rewrite elements_length|]. intros i Hi. rewrite item_at_first by auto.
    cbn in *. rewrite first_of_cons. cbn. rewrite (elements_nth n) by congruence. destruct (d_get a i); reflexivity.
Qed.
Lemma empty_slice_ok : slice_wf empty_slice /\ items empty_slice = [].
Proof.
  split; [|reflexivity]. constructor; cbn; auto; try congruence; try (constructor; fail); lia.
Qed.
Lemma alloc_ids_covers : forall l s x, allocs_ok s ->
  let r := fold_left add_alloc l s in
  allocs_ok r /\ (covers s x -> covers r x) /\
  (forall o, In (Some (val KObjectId o)) l -> covers r (allocation_of o)).
Proof.
  assert (IO : forall o s, allocs_ok s -> allocs_ok (al_insert o s)).
  { intros o s H a Ha. unfold al_insert in Ha. destruct (is_small_alloc o) eqn:E; cbn in Ha; [now apply H|].
    destruct (in_dec oid_dec o (al_big s)); cbn in Ha; [now apply H|].
    apply in_app_iff in Ha. destruct Ha as [Ha|[<-|[]]]; auto. }
  assert (G : forall l s, allocs_ok s ->
    let r := fold_left add_alloc l s in
    allocs_ok r /\ (forall x, covers s x -> covers r x)).
  { induction l as [|y l IH]; intros s H; cbn [fold_left]; auto.
    assert (Y : allocs_ok (add_alloc s y) /\ forall x, covers s x -> covers (add_alloc s y) x).
    { destruct y as [[[] v]|]; auto. split; [now apply IO|]. intros x Hx. apply covers_insert. auto. }
    destruct Y as [Y1 Y2]. destruct (IH _ Y1) as [I1 I2]. split; auto. }
  intros l s x H. cbv zeta. split; [apply (G l s H)|]. split; [apply (G l s H)|].
  revert s H. induction l as [|y l IH]; intros s H o Ho; [destruct Ho|].
  cbn [fold_left]. destruct Ho as [->|Ho].
  - cbn [val]. apply (G l _ (IO _ _ H)). apply covers_insert. right.
    unfold same_alloc. destruct (is_small_alloc (allocation_of o)) eqn:E; auto.
  - apply IH; auto. destruct y as [[[] v]|]; auto. apply IO. exact H.
Qed.
Lemma create_good : forall n a, arr_ok n a ->
  good_slice (create a) /\ s_size (create a) = n /\ items (create a) = elements a.
Proof.
  intros n a O. unfold create. pose proof (ao_size _ _ O) as SZ. destruct (d_size a =? 0) eqn:E0.
  - apply Nat.eqb_eq in E0. split; [split; [apply empty_slice_ok|split; [intros i o Hi; cbn in Hi; lia|exact no_allocs_ok]]|].
    split; [cbn; congruence|]. unfold elements. rewrite E0. reflexivity.
  - destruct (create_impl_ok n (alloc_ids a no_allocs) a O) as (W & S' & I & A).
    destruct (alloc_ids_covers (elements a) no_allocs (mkOid 0 0 0 0) no_allocs_ok) as (G1 & _ & G3).
    split; [|auto]. split; auto. split; [|rewrite A; exact G1].
    intros i o Hi E. rewrite A. apply G3. rewrite <- I. rewrite <- nth_items in E by auto. rewrite <- E.
    apply nth_In. now rewrite items_length.
Qed.
Lemma create_with_good : forall n al a, arr_ok n a -> allocs_ok al ->
  (forall o, In (Some (val KObjectId o)) (elements a) -> covers al (allocation_of o)) ->
  good_slice (create_with al a) /\ s_size (create_with al a) = n /\ items (create_with al a) = elements a.
Proof.
  intros n al a O AO CV. unfold create_with. pose proof (ao_size _ _ O) as SZ. destruct (d_size a =? 0) eqn:E0.
  - apply Nat.eqb_eq in E0. split; [split; [apply empty_slice_ok|split; [intros i o Hi; cbn in Hi; lia|exact no_allocs_ok]]|].
    split; [cbn; congruence|]. unfold elements. rewrite E0. reflexivity.
  - set (al' := match d_kind a with KObjectId => al | _ => no_allocs end).
    destruct (create_impl_ok n al' a O) as (W & S' & I & A). split; [|auto]. split; auto.
    split; [|rewrite A; unfold al'; destruct (d_kind a); auto; exact no_allocs_ok].
    intros i o Hi E. rewrite A. rewrite S' in Hi. rewrite <- nth_items in E by (rewrite S'; auto).
    rewrite I in E. rewrite (elements_nth n) in E by auto.
    destruct (ok_get n a i O Hi) as [(_ & v & G & K & _)|(_ & G)]; [|congruence].
    assert (v = val KObjectId o) by congruence. subst v. unfold al'. rewrite <- K. cbn. apply CV.
    rewrite <- E, <- (elements_nth n) by auto. apply nth_In. rewrite elements_length. lia.
Qed.
Lemma empty_unknown_good : forall n, good_slice (empty_and_unknown n) /\ s_size (empty_and_unknown n) = n /\
  items (empty_and_unknown n) = repeat None n.
Proof.
  intros n. unfold empty_and_unknown. destruct (n =? 0) eqn:E.
  - apply Nat.eqb_eq in E. subst. split; [|auto]. split; [apply empty_slice_ok|].
    split; [intros i o Hi; cbn in Hi; lia|exact no_allocs_ok].
  - split; [|split; [reflexivity|]].
    + split; [|split; [intros i o Hi E'; discriminate|exact no_allocs_ok]].
      constructor; cbn; auto; try congruence; try (constructor; fail); try lia.
      intros i t1 t2 a1 a2 _ N. destruct t1; discriminate.
    + apply items_eq; [now rewrite repeat_length|]. cbn. intros i Hi. rewrite nth_repeat. reflexivity.
Qed.
Lemma wf_array : forall s a, slice_wf s -> In a (s_values s) -> arr_ok (s_size s) a.
Proof.
  intros s a W Ha. apply arr_wf_ok. pose proof (sw_arrays s W) as F. rewrite Forall_forall in F. auto.
Qed.
Lemma empty_items : forall s, s_values s = [] -> items s = repeat None (s_size s).
Proof.
  intros s E. apply items_eq; [now rewrite repeat_length|]. intros i Hi. rewrite nth_repeat.
  unfold item_at. rewrite E. reflexivity.
Qed.

(** ** has *)
Lemma arr_has_ok : forall n a, arr_ok n a -> arr_ok n (arr_has a) /\ forall i, i < n -> d_get (arr_has a) i = has_item (d_get a i).
Proof.
  intros n a O. pose proof (ao_size _ _ O) as SZ. split.
  - constructor; cbn; [|apply O|].
    + unfold d_size. cbn. now rewrite repeat_length.
    + intros i Hi P. exists the_unit. split; auto. rewrite SZ.
      rewrite nth_indep with (d' := Some the_unit) by now rewrite repeat_length. apply nth_repeat.
  - intros i Hi. unfold d_get at 1. unfold d_present. cbn.
    assert (P : bit (d_bitmap a) i = isSome (d_get a i)) by exact (present_get n a i O Hi). rewrite P.
    destruct (d_get a i); auto. cbn. rewrite SZ.
    rewrite nth_indep with (d' := Some the_unit) by now rewrite repeat_length. apply nth_repeat.
Qed.
Lemma arr_or_ok : forall n a b, arr_ok n a -> arr_ok n b -> d_kind a = d_kind b ->
  arr_ok n (arr_or a b) /\ forall i, i < n -> d_get (arr_or a b) i = either (d_get a i) (d_get b i).
Proof.
  intros n a b Oa Ob K. pose proof (ao_size _ _ Oa) as SZ.
  assert (P : forall i, i < n -> d_present (arr_or a b) i = d_present a i || d_present b i).
  { intros i Hi. unfold d_present at 1. cbn. rewrite SZ. now rewrite bit_map_seq. }
  assert (V : forall i, i < n -> nth i (d_values (arr_or a b)) None =
     if d_present a i then nth i (d_values a) None else nth i (d_values b) None).
  { intros i Hi. cbn. rewrite SZ. now rewrite nth_map_seq. }
  split.
  - constructor.
    + unfold d_size. cbn. now rewrite map_length, seq_length.
    + right. cbn. now rewrite map_length, seq_length.
    + intros i Hi H. rewrite P in H by auto. rewrite V by auto. cbn [d_kind arr_or].
      destruct (d_present a i) eqn:Pa; [now apply Oa|]. rewrite K. now apply Ob.
  - intros i Hi. unfold d_get. rewrite P, V by auto. destruct (d_present a i) eqn:Pa.
    + cbn. destruct (ao_values _ _ Oa i Hi Pa) as (v & -> & _). reflexivity.
    + cbn. reflexivity.
Qed.
Lemma presence_array_ok : forall s, slice_wf s -> arr_ok (s_size s) (presence_array s) /\
  d_kind (presence_array s) = KUnit /\
  forall i, i < s_size s -> d_get (presence_array s) i = has_item (item_at s i).
Proof.
  intros s W. unfold presence_array.
  assert (EM : arr_ok (s_size s) (empty_arr KUnit (s_size s)) /\ d_kind (empty_arr KUnit (s_size s)) = KUnit /\
     (s_values s = [] -> forall i, i < s_size s -> d_get (empty_arr KUnit (s_size s)) i = has_item (item_at s i))).
  { assert (B : forall i, i < s_size s -> d_present (empty_arr KUnit (s_size s)) i = false).
    { intros i Hi. unfold d_present, bit. cbn. destruct (s_size s) as [|k]; [lia|]. cbn [repeat]. destruct i; auto.
      apply nth_repeat. }
    split; [|split; [reflexivity|]].
    - constructor; cbn.
      + unfold d_size. cbn. apply repeat_length.
      + right. apply repeat_length.
      + intros i Hi P. rewrite B in P by auto. discriminate.
    - intros E i Hi. unfold d_get. rewrite B by auto. unfold item_at. rewrite E. reflexivity. }
  unfold is_empty_unknown. destruct (s_values s) as [|a l] eqn:EV; [cbn; destruct EM as (E1 & E2 & E3); auto|]. cbn [length Nat.eqb].
  clear EM.
  assert (F : forall l res g, arr_ok (s_size s) res -> d_kind res = KUnit ->
     (forall a, In a l -> arr_ok (s_size s) a) ->
     (forall i, i < s_size s -> d_get res i = has_item (g i)) ->
     let r := fold_left (fun res a => arr_or (arr_has a) res) l res in
     arr_ok (s_size s) r /\ d_kind r = KUnit /\
     forall i, i < s_size s -> d_get r i = has_item (either (g i) (first_of (map (fun a => d_get a i) l)))).
  { induction l0 as [|x l0 IH]; intros res g Or Kr Ol Hg; cbn [fold_left].
    - split; auto. split; auto. intros i Hi. rewrite Hg by auto. cbn. destruct (g i); reflexivity.
    - destruct (arr_has_ok _ x (Ol x (or_introl eq_refl))) as [H1 H2].
      destruct (arr_or_ok _ _ res H1 Or) as [H3 H4]. { now rewrite Kr. }
      destruct (IH (arr_or (arr_has x) res) (fun i => either (g i) (d_get x i)) H3 eq_refl) as (I1 & I2 & I3).
      { intros; apply Ol; now right. }
      { intros i Hi. rewrite H4, H2, Hg by auto. destruct (d_get x i), (g i); reflexivity. }
      split; auto. split; auto. intros i Hi. rewrite I3 by auto. cbn [map]. rewrite first_of_cons.
      destruct (g i), (d_get x i); reflexivity. }
  assert (Ov : forall x, In x (a :: l) -> arr_ok (s_size s) x) by (intros x Hx; apply wf_array; auto; now rewrite EV).
  destruct (arr_has_ok _ a (Ov a (or_introl eq_refl))) as [H1 H2].
  destruct (F l (arr_has a) (d_get a) H1 eq_refl) as (I1 & I2 & I3).
  { intros; apply Ov; now right. } { exact H2. }
  split; auto. split; auto. intros i Hi. rewrite I3 by auto. rewrite item_at_first by auto. rewrite EV.
  cbn [map]. now rewrite first_of_cons.
Qed.
Lemma has_ok : forall s, slice_wf s -> good_slice (has s) /\ s_size (has s) = s_size s /\
  items (has s) = map has_item (items s).
Proof.
  intros s W. destruct (presence_array_ok s W) as (O & K & G). destruct (create_good _ _ O) as (C1 & C2 & C3).
  split; auto. split; auto. unfold has. rewrite C3. unfold elements, items. rewrite map_map, (ao_size _ _ O).
  apply map_ext_in. intros i Hi. apply in_seq in Hi. apply G. lia.
Qed.

(** ** presence_and *)
Lemma map2_length : forall {A B C} (f : A -> B -> C) l m, length (map2 f l m) = Nat.min (length l) (length m).
Proof. intros A B C f l. induction l as [|x l IH]; intros [|y m]; cbn; auto. Qed.
Lemma nth_map2 : forall {A B C} (f : A -> B -> C) l m i da db dc, i < length l -> i < length m ->
  nth i (map2 f l m) dc = f (nth i l da) (nth i m db).
Proof.
  intros A B C f l. induction l as [|x l IH]; intros [|y m] i da db dc Hl Hm; cbn in *; try lia.
  destruct i; auto. apply IH; lia.
Qed.
Lemma unit_value : forall v, kind_of v = KUnit -> v = the_unit.
Proof. intros [k c] H. cbn in H. subst k. destruct c. reflexivity. Qed.
Lemma get_item : forall s a v i, slice_wf s -> In a (s_values s) -> i < s_size s -> d_get a i = Some v -> item_at s i = Some v.
Proof.
  intros s a v i W Ha Hi G. apply In_nth_error in Ha. destruct Ha as [t Ha].
  unfold d_get in G. destruct (d_present a i) eqn:P; [|discriminate].
  rewrite (item_at_present s t a i W Ha Hi P). exact G.
Qed.
Lemma item_get : forall s v i, slice_wf s -> i < s_size s -> item_at s i = Some v ->
  exists a, In a (s_values s) /\ d_get a i = Some v /\ kind_of v = d_kind a.
Proof.
  intros s v i W Hi E. rewrite item_at_first in E by auto. apply first_of_in in E. apply in_map_iff in E.
  destruct E as (a & G & Ha). exists a. split; auto. split; auto.
  destruct (ok_get _ a i (wf_array s a W Ha) Hi) as [(_ & w & G' & K & _)|(_ & G')]; congruence.
Qed.
Lemma array_some : forall s a, slice_wf s -> In a (s_values s) -> exists i v, i < s_size s /\ d_get a i = Some v /\ kind_of v = d_kind a.
Proof.
  intros s a W Ha. pose proof (sw_arrays s W) as F. rewrite Forall_forall in F. specialize (F a Ha).
  destruct (aw_some _ _ F) as (i & Hi & P). destruct (aw_values _ _ F i Hi P) as (v & V & K).
  exists i, v. split; auto. split; auto. unfold d_get. now rewrite P.
Qed.
Lemma mask_cases : forall m, slice_wf m ->
  (s_values m = [] /\ is_mask (items m)) \/
  (exists a, s_values m = [a] /\ s_dtype m = Some KUnit /\ d_kind a = KUnit /\ is_mask (items m)) \/
  (s_values m <> [] /\ s_dtype m <> Some KUnit /\ ~ is_mask (items m)).
Proof.
  intros m W. pose proof (sw_dtype m W) as D. pose proof (sw_kinds m W) as K.
  assert (U : is_mask (items m) -> forall a, In a (s_values m) -> d_kind a = KUnit).
  { intros IM a Ha. destruct (array_some m a W Ha) as (i & v & Hi & G & Kv).
    pose proof (get_item m a v i W Ha Hi G) as E. unfold is_mask in IM. rewrite Forall_forall in IM.
    rewrite <- nth_items in E by auto.
    destruct (IM (Some v)) as [X|X]; [rewrite <- E; apply nth_In; now rewrite items_length|discriminate|].
    inversion X. subst v. now rewrite <- Kv. }
  destruct (s_values m) as [|a [|b r]] eqn:EV.
  - left. split; auto. rewrite empty_items by auto. apply Forall_forall. intros x Hx. apply repeat_spec in Hx. auto.
  - right. destruct (kind_eq_dec (d_kind a) KUnit) as [Ka|Ka].
    + left. exists a. split; auto. split; [congruence|]. split; auto. apply Forall_forall. intros x Hx.
      apply In_nth with (d := None) in Hx. destruct Hx as (i & Hi & E). rewrite items_length in Hi.
      rewrite nth_items in E by auto. destruct x as [v|]; auto. right. f_equal. apply unit_value.
      destruct (item_get m v i W Hi E) as (a' & Ha & _ & ->). rewrite EV in Ha. destruct Ha as [<-|[]]. exact Ka.
    + right. split; [discriminate|]. split; [congruence|]. intros IM. apply Ka. apply U; auto. now left.
  - right. right. split; [discriminate|]. split; [congruence|]. intros IM. pose proof (U IM) as U'. cbn in K.
    inversion K as [|? ? K1 K2]; subst. apply K1. left. rewrite (U' a), (U' b); auto; cbn; auto.
Qed.
Lemma arr_and_ok : forall n a m, arr_ok n a -> arr_ok n m ->
  arr_ok n (arr_and a m) /\ forall i, i < n -> d_get (arr_and a m) i = masked (d_get a i) (d_get m i).
Proof.
  intros n a m Oa Om. pose proof (ao_size _ _ Oa) as SZ.
  assert (P : forall i, i < n -> d_present (arr_and a m) i = d_present a i && d_present m i).
  { intros i Hi. unfold d_present at 1. cbn. rewrite SZ. now rewrite bit_map_seq. }
  split.
  - constructor.
    + exact SZ.
    + right. cbn. now rewrite map_length, seq_length.
    + intros i Hi H. rewrite P in H by auto. apply andb_true_iff in H. apply Oa; tauto.
  - intros i Hi. unfold d_get at 1. rewrite P by auto.
    destruct (ok_get n m i Om Hi) as [(-> & v & -> & _)|(-> & ->)].
    + cbn. unfold d_get. rewrite andb_true_r. reflexivity.
    + rewrite andb_false_r. reflexivity.
Qed.
Lemma first_of_masked : forall {A} (f : A -> option value) l m,
  first_of (map (fun a => masked (f a) m) l) = masked (first_of (map f l)) m.
Proof.
  intros A f l m. induction l as [|x l IH].
  - cbn. destruct m; reflexivity.
  - cbn [map]. rewrite !first_of_cons, IH. destruct m, (f x); reflexivity.
Qed.

Section OpsProofs.
Variable visit : list (kind * storage) -> list (kind * storage).
Hypothesis visits : forall m, Permutation (visit m) m.
Notation presence_and := (presence_and visit).
Notation finish := (finish visit).

Lemma presence_and_ok : forall ds mask, good_slice ds -> slice_wf mask ->
  (s_size ds <> s_size mask -> presence_and ds mask = Fails ESizes) /\
  (s_size ds = s_size mask -> ~ is_mask (items mask) -> presence_and ds mask = Fails EMask) /\
  (s_size ds = s_size mask -> is_mask (items mask) ->
   exists s, presence_and ds mask = Done s /\ good_slice s /\ s_size s = s_size ds /\
     items s = map2 masked (items ds) (items mask)).
Proof.
  intros ds mask (W & AW & AO) WM. unfold SliceOpsModel.presence_and.
  split. { intros H. apply Nat.eqb_neq in H. now rewrite H. }
  split.
  { intros H NM. rewrite H, Nat.eqb_refl. cbn [negb].
    destruct (mask_cases mask WM) as [[_ X]|[(a & _ & _ & _ & X)|(V & D & _)]]; try tauto.
    unfold is_empty_unknown. destruct (s_values mask) as [|a r]; [congruence|]. cbn [length Nat.eqb].
    destruct (s_dtype mask) as [[]|]; congruence. }
  intros H IM. rewrite H, Nat.eqb_refl. cbn [negb]. rewrite <- H. set (n := s_size ds) in *.
  assert (LM : length (map2 masked (items ds) (items mask)) = n).
  { rewrite map2_length, !items_length. fold n. lia. }
  assert (NM : forall i, i < n -> nth i (map2 masked (items ds) (items mask)) None = masked (item_at ds i) (item_at mask i)).
  { intros i Hi. rewrite nth_map2 with (da := None) (db := None); rewrite ?items_length; fold n; try lia.
    now rewrite !nth_items by (fold n; lia). }
  destruct (mask_cases mask WM) as [[V _]|[(m & V & D & K & _)|(_ & _ & X)]]; [| |tauto].
  - unfold is_empty_unknown. rewrite V. cbn [length Nat.eqb].
    destruct (finish_good visit visits n (new_builder n no_allocs) (fun _ => None) (map2 masked (items ds) (items mask)))
      as (s & E & G & S' & I).
    + apply new_builder_good.
    + exact LM.
    + intros i Hi. rewrite NM by auto. unfold item_at at 2. rewrite V. reflexivity.
    + exact no_allocs_ok.
    + intros o Ho. exfalso. apply In_nth with (d := None) in Ho. destruct Ho as (i & Hi & E). rewrite LM in Hi.
      rewrite NM in E by auto. unfold item_at at 2 in E. rewrite V in E. discriminate.
    + exists s. rewrite E. auto.
  - unfold is_empty_unknown. rewrite V. cbn [length Nat.eqb]. rewrite D.
    assert (Om : arr_ok n m) by (rewrite H; apply wf_array; auto; rewrite V; now left).
    set (body := fun a b => let r := arr_and a m in
                 if all_missing r then Some b else
                 obind (insert_array r b) (fun b =>
                 Some (match d_kind a with KObjectId => set_alloc_ids b (s_allocs ds) | _ => b end))).
    assert (LP : forall l b c, good n b c -> (forall a, In a l -> arr_ok n a) ->
      exists b', ofold body l b = Some b' /\
        good n b' (over c (fun i => option_map Some (first_of (map (fun a => d_get (arr_and a m) i) l)))) /\
        (b_allocs b' = s_allocs ds \/
         (b_allocs b' = b_allocs b /\ forall a, In a l -> d_kind a = KObjectId -> all_missing (arr_and a m) = true))).
    { induction l as [|a l IH]; intros b c G O.
      - exists b. split; [reflexivity|]. split; [|right; split; [auto|intros a []]].
        eapply good_ext; [|exact G]. intros i Hi. unfold over. cbn. destruct (c i); auto.
      - destruct (arr_and_ok n a m (O a (or_introl eq_refl)) Om) as [O1 O2].
        rewrite ofold_cons. unfold body at 1. cbv zeta. destruct (all_missing (arr_and a m)) eqn:AM.
        + cbn [obind]. destruct (IH b c G) as (b' & E & G' & A'). { intros; apply O; now right. }
          exists b'. split; auto. split.
          * eapply good_ext; [|exact G']. intros i Hi. unfold over. destruct (c i); auto. cbn [map].
            rewrite first_of_cons, (missing_get n _ i O1 AM Hi). reflexivity.
          * destruct A' as [A'|[A1 A2]]; auto. right. split; auto. intros a' [<-|Ha]; auto.
        + destruct (insert_array_ok n b c _ G O1) as (b1 & E1 & G1 & A1). rewrite E1. cbn [obind].
          assert (G1' : good n (match d_kind a with KObjectId => set_alloc_ids b1 (s_allocs ds) | _ => b1 end) (over c (acell (arr_and a m)))).
          { destruct (d_kind a); auto. now apply good_allocs. }
          destruct (IH _ _ G1') as (b' & E & G' & A'). { intros; apply O; now right. }
          exists b'. split; auto. split.
          * eapply good_ext; [|exact G']. intros i Hi. unfold over, acell. destruct (c i); auto. cbn [map].
            rewrite first_of_cons. destruct (d_get (arr_and a m) i); reflexivity.
          * destruct A' as [A'|[A2 A3]]; auto. destruct (d_kind a) eqn:Ka; cbn in A2; auto;
              right; (split; [congruence|]); intros a' [<-|Ha] Ka'; auto; congruence. }
    destruct (LP (s_values ds) (new_builder n no_allocs) _ (new_builder_good n no_allocs)) as (b & E & G & A).
    { intros a Ha. now apply wf_array. }
    rewrite E. cbn [obind].
    assert (FI : forall i, i < n -> first_of (map (fun a => d_get (arr_and a m) i) (s_values ds)) = masked (item_at ds i) (item_at mask i)).
    { intros i Hi. rewrite (item_at_first ds) by auto. rewrite (item_at_first mask) by (auto; unfold n in *; lia).
      rewrite V. cbn [map]. rewrite first_of_cons. rewrite <- first_of_masked. f_equal. apply map_ext_in.
      intros a Ha. destruct (arr_and_ok n a m (wf_array ds a W Ha) Om) as [_ Q]. rewrite Q by auto.
      destruct (d_get m i); reflexivity. }
    destruct (finish_good visit visits n b _ (map2 masked (items ds) (items mask)) G LM) as (s & E' & GS & S' & I).
    + intros i Hi. rewrite NM, <- FI by auto. unfold over. cbn [content].
      destruct (first_of (map (fun a => d_get (arr_and a m) i) (s_values ds))); reflexivity.
    + destruct A as [->|[-> _]]; auto. exact no_allocs_ok.
    + intros o Ho. apply In_nth with (d := None) in Ho. destruct Ho as (i & Hi & Eo). rewrite LM in Hi.
      rewrite NM in Eo by auto. assert (Eo' := Eo). rewrite <- FI in Eo' by auto. apply first_of_in in Eo'.
      apply in_map_iff in Eo'. destruct Eo' as (a & Ga & Ha).
      assert (IO : item_at ds i = Some (val KObjectId o)) by (destruct (item_at mask i); [exact Eo|discriminate]).
      assert (Ka : d_kind a = KObjectId).
      { destruct (arr_and_ok n a m (wf_array ds a W Ha) Om) as [O1 O2].
        destruct (ok_get n _ i O1 Hi) as [(_ & v & G' & Kv & _)|(_ & G')]; [|congruence].
        assert (v = val KObjectId o) by congruence. subst v. cbn in Kv. congruence. }
      destruct A as [->|[_ A]]; [now apply (AW i)|].
      destruct (arr_and_ok n a m (wf_array ds a W Ha) Om) as [O1 _].
      rewrite (missing_get n _ i O1 (A a Ha Ka) Hi) in Ga. discriminate.
    + exists s. rewrite E'. auto.
Qed.
End OpsProofs.
