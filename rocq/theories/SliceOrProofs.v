(** presence_or, coalesce_with_filtered, at, expand and collapse. *)
From Coq Require Import NArith ZArith List Bool Arith Lia Permutation.
From Verif Require Import ObjectIdModel SchemaModel ItemModel SliceModel SliceSpec SliceProofs SliceBuildProofs
  SliceOpsModel SliceOpsSpec SliceOpsProofs.
Import ListNotations.
Local Open Scope nat_scope.

(** ** Counting *)
Lemma filter_sub_count : forall {A} (f g : A -> bool) l, (forall x, In x l -> f x = true -> g x = true) ->
  length (filter f l) <= length (filter g l) /\
  (length (filter f l) = length (filter g l) <-> forall x, In x l -> g x = true -> f x = true).
Proof.
  intros A f g l. induction l as [|x l IH]; intros H.
  - cbn. split; auto. split; [intros _ x []|auto].
  - destruct IH as [L E]. { intros y Hy. apply H. now right. }
    cbn [filter]. specialize (H x (or_introl eq_refl)). destruct (f x) eqn:F, (g x) eqn:G; cbn [length].
    + split; [lia|]. split.
      * intros E' y [<-|Hy]; auto. apply E; auto.
      * intros E'. f_equal. apply E. intros y Hy. apply E'. now right.
    + discriminate (H eq_refl).
    + split; [lia|]. split; [lia|]. intros E'. specialize (E' x (or_introl eq_refl) G). congruence.
    + split; [lia|]. split.
      * intros E' y [<-|Hy]; [congruence|]. apply E; auto.
      * intros E'. apply E. intros y Hy. apply E'. now right.
Qed.
Lemma filter_or_count : forall {A} (f g : A -> bool) l,
  length (filter f l) + length (filter g l) =
  length (filter (fun x => f x || g x) l) + length (filter (fun x => f x && g x) l).
Proof. intros A f g l. induction l as [|x l IH]; auto. cbn. destruct (f x), (g x); cbn; lia. Qed.
Lemma filter_zero : forall {A} (f : A -> bool) l, length (filter f l) = 0 <-> forall x, In x l -> f x = false.
Proof.
  intros A f l. induction l as [|x l IH]; cbn; [split; auto; intros _ x []|].
  destruct (f x) eqn:F; cbn.
  - split; [lia|]. intros H. rewrite (H x) in F; auto. discriminate.
  - rewrite IH. split; [intros H y [<-|Hy]; auto|auto].
Qed.
Lemma count_items : forall s, slice_wf s ->
  slice_count s = length (filter (fun i => isSome (item_at s i)) (seq 0 (s_size s))).
Proof.
  intros s W. rewrite slice_count_wf by auto. unfold items. induction (seq 0 (s_size s)) as [|i l IH]; auto.
  cbn [map filter]. destruct (item_at s i); cbn; auto.
Qed.
Lemma count_zero : forall s, slice_wf s -> (slice_count s = 0 <-> forall i, i < s_size s -> item_at s i = None).
Proof.
  intros s W. rewrite count_items by auto. rewrite filter_zero. split.
  - intros H i Hi. specialize (H i). rewrite in_seq in H. specialize (H ltac:(lia)). destruct (item_at s i); [discriminate|auto].
  - intros H i Hi. apply in_seq in Hi. rewrite H by lia. reflexivity.
Qed.
Lemma some_item : forall s, slice_wf s -> s_values s <> [] -> exists i v, i < s_size s /\ item_at s i = Some v.
Proof.
  intros s W NE. destruct (s_values s) as [|a r] eqn:E; [congruence|].
  destruct (array_some s a W) as (i & v & Hi & G & _). { rewrite E. now left. }
  exists i, v. split; auto. eapply get_item; eauto. rewrite E. now left.
Qed.
Lemma empty_item_at : forall s i, s_values s = [] -> item_at s i = None.
Proof. intros s i E. unfold item_at. now rewrite E. Qed.

(** ** Two slices position by position *)
Section Both.
Variables l r : slice.
Hypothesis SZ : s_size l = s_size r.
Lemma either_length : length (map2 either (items l) (items r)) = s_size l.
Proof. rewrite map2_length, !items_length. lia. Qed.
Lemma nth_either : forall i, i < s_size l ->
  nth i (map2 either (items l) (items r)) None = either (item_at l i) (item_at r i).
Proof.
  intros i Hi. rewrite nth_map2 with (da := None) (db := None); rewrite ?items_length; try lia.
  now rewrite !nth_items by lia.
Qed.
Lemma overlap_items : overlap (items l) (items r) <->
  exists i, i < s_size l /\ item_at l i <> None /\ item_at r i <> None.
Proof.
  split.
  - intros (i & A & B). exists i. assert (i < s_size l).
    { rewrite <- items_length. destruct (Nat.lt_ge_cases i (length (items l))); auto. rewrite nth_overflow in A; congruence. }
    rewrite !nth_items in * by lia. auto.
  - intros (i & Hi & A & B). exists i. rewrite !nth_items by lia. auto.
Qed.
End Both.

Lemma arr_not_ok : forall n a, arr_ok n a -> arr_ok n (arr_not a) /\
  forall i, i < n -> d_get (arr_not a) i = match d_get a i with Some _ => None | None => Some the_unit end.
Proof.
  intros n a O. pose proof (ao_size _ _ O) as SZ.
  assert (P : forall i, i < n -> d_present (arr_not a) i = negb (d_present a i)).
  { intros i Hi. unfold d_present at 1. cbn. rewrite SZ. now rewrite bit_map_seq. }
  assert (V : forall i, i < n -> nth i (d_values (arr_not a)) None = Some the_unit).
  { intros i Hi. cbn. rewrite SZ. rewrite nth_indep with (d' := Some the_unit) by now rewrite repeat_length. apply nth_repeat. }
  split.
  - constructor.
    + unfold d_size. cbn. now rewrite repeat_length.
    + right. cbn. now rewrite map_length, seq_length.
    + intros i Hi _. rewrite V by auto. exists the_unit. auto.
  - intros i Hi. unfold d_get at 1. rewrite P, V by auto.
    destruct (ok_get n a i O Hi) as [(-> & v & -> & _)|(-> & ->)]; reflexivity.
Qed.
Lemma present_count_get : forall n a, arr_ok n a ->
  present_count a = length (filter (fun i => isSome (d_get a i)) (seq 0 n)).
Proof.
  intros n a O. unfold present_count. rewrite (ao_size _ _ O). f_equal. apply filter_ext_in. intros i Hi.
  apply in_seq in Hi. apply (present_get n); auto. lia.
Qed.
Lemma single_item : forall s a i, slice_wf s -> s_values s = [a] -> i < s_size s -> item_at s i = d_get a i.
Proof.
  intros s a i W E Hi. rewrite item_at_first by auto. rewrite E. cbn [map]. rewrite first_of_cons.
  cbn. destruct (d_get a i); reflexivity.
Qed.
Lemma kind_unique : forall s a b, slice_wf s -> In a (s_values s) -> In b (s_values s) -> d_kind a = d_kind b -> a = b.
Proof.
  intros s a b W Ha Hb K. pose proof (sw_kinds s W) as ND. apply In_nth_error in Ha, Hb.
  destruct Ha as [i Ha], Hb as [j Hb]. assert (i = j); [|congruence].
  rewrite NoDup_nth_error in ND. apply ND.
  - rewrite map_length. apply nth_error_Some. congruence.
  - rewrite !nth_error_map, Ha, Hb. cbn. congruence.
Qed.
Lemma of_kind_spec : forall s k, slice_wf s ->
  match of_kind k s with
  | Some a => In a (s_values s) /\ d_kind a = k
  | None => forall a, In a (s_values s) -> d_kind a <> k
  end.
Proof.
  intros s k W. unfold of_kind. destruct (find _ (s_values s)) as [a|] eqn:E.
  - apply find_some in E. destruct E as [E1 E2]. split; auto. destruct (kind_eq_dec (d_kind a) k); congruence.
  - intros a Ha Ka. pose proof (find_none _ _ E a Ha) as F. cbn in F. destruct (kind_eq_dec (d_kind a) k); congruence.
Qed.
Lemma of_kind_in : forall s a, slice_wf s -> In a (s_values s) -> of_kind (d_kind a) s = Some a.
Proof.
  intros s a W Ha. pose proof (of_kind_spec s (d_kind a) W) as H. destruct (of_kind (d_kind a) s) as [b|].
  - f_equal. apply (kind_unique s); tauto.
  - exfalso. now apply (H a).
Qed.

Section Or.
Variable visit : list (kind * storage) -> list (kind * storage).
Hypothesis visits : forall m, Permutation (visit m) m.
Notation presence_and := (presence_and visit).
Notation presence_or := (presence_or visit).

Lemma union_covers : forall l r o, good_slice l -> good_slice r -> s_size l = s_size r ->
  In (Some (val KObjectId o)) (map2 either (items l) (items r)) ->
  covers (al_union (s_allocs l) (s_allocs r)) (allocation_of o).
Proof.
  intros l r o (Wl & Al & Ol) (Wr & Ar & Or') SZ H. apply In_nth with (d := None) in H. destruct H as (i & Hi & E).
  rewrite either_length in Hi by auto. rewrite nth_either in E by auto. apply covers_union; auto.
  destruct (item_at l i) as [v|] eqn:El.
  - left. apply (Al i); auto. cbn in E. congruence.
  - right. apply (Ar i); [lia|]. exact E.
Qed.
Lemma union_ok : forall s t, allocs_ok s -> allocs_ok t -> allocs_ok (al_union s t).
Proof.
  intros s t Hs Ht a Ha. unfold al_union in Ha. cbn in Ha.
  assert (IO : forall l s, (forall a, In a l -> is_small_alloc a = false) -> allocs_ok s ->
     allocs_ok (fold_left (fun s a => al_insert a s) l s)).
  { clear. induction l as [|x l IH]; intros s Hl Hs; auto. cbn [fold_left]. apply IH; [intros; apply Hl; now right|].
    intros a Ha. unfold al_insert in Ha. rewrite (Hl x (or_introl eq_refl)) in Ha.
    destruct (in_dec oid_dec x (al_big s)); cbn in Ha; [now apply Hs|].
    apply in_app_iff in Ha. destruct Ha as [Ha|[<-|[]]]; auto. apply Hl. now left. }
  exact (IO _ _ Ht Hs a Ha).
Qed.

Lemma single_type_or_ok : forall d l r a b, good_slice l -> good_slice r -> s_size l = s_size r ->
  s_values l = [a] -> s_values r = [b] -> d_kind a = d_kind b ->
  (d = true -> overlap (items l) (items r) -> single_type_or visit d l r = Fails EOverlap) /\
  ((d = true -> ~ overlap (items l) (items r)) -> exists s, single_type_or visit d l r = Done s /\ good_slice s /\
     s_size s = s_size l /\ items s = map2 either (items l) (items r)).
Proof.
  intros d l r a b GL GR SZ Vl Vr K. assert (GL' := GL). assert (GR' := GR).
  destruct GL' as (Wl & Al & Ol), GR' as (Wr & Ar & Or'). unfold single_type_or. rewrite Vl, Vr.
  set (n := s_size l) in *.
  assert (Oa : arr_ok n a) by (apply wf_array; auto; rewrite Vl; now left).
  assert (Ob : arr_ok n b) by (rewrite SZ; apply wf_array; auto; rewrite Vr; now left).
  destruct (arr_or_ok n a b Oa Ob K) as [Om Gm].
  assert (Ia : forall i, i < n -> d_get a i = item_at l i) by (intros; symmetry; apply single_item; auto).
  assert (Ib : forall i, i < n -> d_get b i = item_at r i) by (intros; symmetry; apply single_item; auto; lia).
  assert (CNT : present_count a + present_count b = present_count (arr_or a b) <-> ~ overlap (items l) (items r)).
  { rewrite (present_count_get n a Oa), (present_count_get n b Ob), (present_count_get n _ Om).
    rewrite filter_or_count.
    rewrite (filter_ext_in (fun i => isSome (d_get (arr_or a b) i)) (fun i => isSome (d_get a i) || isSome (d_get b i))).
    2:{ intros i Hi. apply in_seq in Hi. rewrite Gm by lia. destruct (d_get a i); reflexivity. }
    rewrite overlap_items by auto.
    match goal with |- ?x + ?y = ?x <-> _ => assert (Q : x + y = x <-> y = 0) by lia; rewrite Q end.
    rewrite filter_zero. split.
    - intros H (i & Hi & A & B). specialize (H i). rewrite in_seq in H. specialize (H ltac:(lia)).
      rewrite Ia, Ib in H by auto. destruct (item_at l i), (item_at r i); cbn in H; congruence.
    - intros H i Hi. apply in_seq in Hi. rewrite Ia, Ib by lia. destruct (item_at l i) eqn:E1; auto.
      destruct (item_at r i) eqn:E2; auto. exfalso. apply H. exists i. split; [lia|]. split; congruence. }
  split.
  - intros -> OV. cbv zeta. cbn [andb]. destruct (_ =? _) eqn:E; [|reflexivity].
    apply Nat.eqb_eq in E. apply CNT in E. tauto.
  - intros NO. cbv zeta. replace (d && _) with false.
    2:{ destruct d; auto. cbn. symmetry. apply negb_false_iff. apply Nat.eqb_eq. apply CNT. auto. }
    set (al := match d_kind a with KObjectId => al_union (s_allocs l) (s_allocs r) | _ => no_allocs end).
    destruct (insert_array_ok n (new_builder n al) _ (arr_or a b) (new_builder_good n al) Om) as (b' & E & G & A').
    rewrite E. cbn [obind].
    destruct (finish_good visit visits n b' _ (map2 either (items l) (items r)) G) as (s & E' & GS & S' & I).
    + now apply either_length.
    + intros i Hi. rewrite nth_either by auto. unfold over, acell. rewrite Gm, Ia, Ib by auto.
      cbn. destruct (item_at l i); cbn; auto. destruct (item_at r i); auto.
    + rewrite A'. cbn. unfold al. destruct (d_kind a); try exact no_allocs_ok. now apply union_ok.
    + intros o Ho. rewrite A'. cbn. unfold al.
      assert (Ka : d_kind a = KObjectId).
      { assert (Ho' := Ho). apply In_nth with (d := None) in Ho'. destruct Ho' as (i & Hi & Eo).
        rewrite either_length in Hi by auto. fold n in Hi. rewrite nth_either in Eo by auto.
        rewrite <- Ia, <- Ib, <- Gm in Eo by auto.
        destruct (ok_get n _ i Om Hi) as [(_ & v & G' & Kv & _)|(_ & G')]; [|congruence].
        assert (v = val KObjectId o) by congruence. subst v. cbn in Kv. congruence. }
      rewrite Ka. now apply union_covers.
    + exists s. rewrite E'. auto.
Qed.

Lemma missing_ok : forall l, slice_wf l -> s_values l <> [] ->
  exists m, (if is_mixed l
             then match s_values (has l) with [m] => Some (arr_not m) | _ => None end
             else match s_values l with [a] => Some (arr_not a) | _ => None end) = Some m /\
    arr_ok (s_size l) m /\
    forall i, i < s_size l -> d_get m i = match item_at l i with Some _ => None | None => Some the_unit end.
Proof.
  intros l W NE. set (n := s_size l). destruct (is_mixed l) eqn:MX.
  - destruct (presence_array_ok l W) as (O & K & G). fold n in O, G.
    destruct (some_item l W NE) as (i & v & Hi & Iv). fold n in Hi.
    assert (V : s_values (has l) = [presence_array l]).
    { unfold has, create. rewrite (ao_size _ _ O). destruct (n =? 0) eqn:E0; [apply Nat.eqb_eq in E0; lia|].
      unfold create_impl. replace (all_missing (presence_array l)) with false; [reflexivity|].
      symmetry. apply (all_missing_spec n _ O). exists i. split; auto.
      rewrite (present_get n _ i O Hi), G by auto. now rewrite Iv. }
    rewrite V. destruct (arr_not_ok n _ O) as [O' G']. exists (arr_not (presence_array l)). split; auto. split; auto.
    intros j Hj. rewrite G', G by auto. destruct (item_at l j); reflexivity.
  - unfold is_mixed in MX. destruct (s_values l) as [|a [|b r]] eqn:E; [congruence| |discriminate].
    assert (O : arr_ok n a) by (apply wf_array; auto; rewrite E; now left).
    destruct (arr_not_ok n a O) as [O' G']. exists (arr_not a). split; auto. split; auto.
    intros j Hj. rewrite G' by auto. now rewrite (single_item l a j W E).
Qed.

Lemma or_loops : forall l r', good_slice l -> good_slice r' -> s_size l = s_size r' ->
  (forall i, i < s_size l -> item_at l i <> None -> item_at r' i = None) ->
  exists s, of_opt (obind (ofold (fun a b =>
                        match of_kind (d_kind a) r' with
                        | Some a' => insert_array (arr_or a a') b
                        | None => insert_array a b
                        end) (s_values l) (new_builder (s_size l) (al_union (s_allocs l) (s_allocs r'))))
              (fun b => obind (ofold (fun a b =>
                        match of_kind (d_kind a) l with
                        | Some _ => Some b
                        | None => insert_array a b
                        end) (s_values r') b) (finish visit))) = Done s /\ good_slice s /\ s_size s = s_size l /\
     items s = map2 either (items l) (items r').
Proof.
  intros l r' GL GR SZ EX. assert (GL' := GL). assert (GR' := GR).
  destruct GL' as (Wl & Al & Ol), GR' as (Wr & Ar & Or').
  set (n := s_size l) in *. set (al := al_union (s_allocs l) (s_allocs r')).
  set (f := fun a => match of_kind (d_kind a) r' with Some a' => arr_or a a' | None => a end).
  assert (OF : forall a, In a (s_values l) -> arr_ok n (f a) /\ forall i, i < n ->
     d_get (f a) i = either (d_get a i) (match of_kind (d_kind a) r' with Some a' => d_get a' i | None => None end)).
  { intros a Ha. unfold f. pose proof (of_kind_spec r' (d_kind a) Wr) as S'. pose proof (wf_array l a Wl Ha) as Oa. fold n in Oa.
    destruct (of_kind (d_kind a) r') as [a'|].
    - destruct S' as [S1 S2]. apply arr_or_ok; auto. rewrite SZ. now apply wf_array.
    - split; auto. intros i Hi. destruct (d_get a i); reflexivity. }
  assert (E1 : forall q b, ofold (fun a b =>
                        match of_kind (d_kind a) r' with
                        | Some a' => insert_array (arr_or a a') b
                        | None => insert_array a b
                        end) q b = ofold (fun a => insert_array (f a)) q b).
  { induction q as [|a q IH]; intros b; auto. rewrite !ofold_cons. unfold f at 1.
    destruct (of_kind (d_kind a) r'); destruct (insert_array _ b); cbn [obind]; auto. }
  rewrite E1. destruct (insert_arrays_new n al f (s_values l)) as (b1 & B1 & G1 & A1). { intros a Ha. now apply OF. }
  rewrite B1. cbn [obind].
  set (rest := filter (fun a => match of_kind (d_kind a) l with Some _ => false | None => true end) (s_values r')).
  assert (E2 : forall q b, ofold (fun a b =>
                        match of_kind (d_kind a) l with
                        | Some _ => Some b
                        | None => insert_array a b
                        end) q b = ofold (fun a => insert_array a)
        (filter (fun a => match of_kind (d_kind a) l with Some _ => false | None => true end) q) b).
  { induction q as [|a q IH]; intros b; auto. rewrite ofold_cons. cbn [filter].
    destruct (of_kind (d_kind a) l); [apply IH|]. rewrite ofold_cons. destruct (insert_array a b); cbn [obind]; auto. }
  rewrite E2. fold rest.
  destruct (insert_arrays_ok n (fun a => a) rest b1 _ G1) as (b2 & B2 & G2 & A2).
  { intros a Ha. apply filter_In in Ha. rewrite SZ. apply wf_array; tauto. }
  cbv beta in B2. rewrite B2. cbn [obind].
  assert (LN : forall i, i < n -> item_at l i = None -> forall a, In a (s_values l) -> d_get a i = None).
  { intros i Hi N a Ha. destruct (d_get a i) as [v|] eqn:E; auto. rewrite (get_item l a v i Wl Ha Hi E) in N. discriminate. }
  assert (RN : forall i, i < n -> item_at r' i = None -> forall a, In a (s_values r') -> d_get a i = None).
  { intros i Hi N a Ha. destruct (d_get a i) as [v|] eqn:E; auto. rewrite (get_item r' a v i Wr Ha ltac:(lia) E) in N. discriminate. }
  assert (IT : forall i, i < n ->
    either (first_of (map (fun a => d_get (f a) i) (s_values l))) (first_of (map (fun a => d_get a i) rest)) =
    either (item_at l i) (item_at r' i)).
  { intros i Hi. destruct (item_at l i) as [v|] eqn:El.
    - assert (NR : item_at r' i = None) by (apply EX; auto; congruence). pose proof (RN i Hi NR) as RN'.
      assert (F1 : first_of (map (fun a => d_get (f a) i) (s_values l)) = Some v).
      { rewrite <- El, (item_at_first l i Wl Hi). f_equal. apply map_ext_in. intros a Ha.
        destruct (OF a Ha) as [_ Q]. rewrite Q by auto. pose proof (of_kind_spec r' (d_kind a) Wr) as S'.
        destruct (of_kind (d_kind a) r') as [a'|]; [rewrite (RN' a') by tauto|]; destruct (d_get a i); reflexivity. }
      now rewrite F1.
    - cbn [either]. pose proof (LN i Hi El) as LN'. destruct (item_at r' i) as [v|] eqn:Er.
      + assert (UN : forall a w, In a (s_values r') -> d_get a i = Some w -> w = v).
        { intros a w Ha Gw. rewrite (get_item r' a w i Wr Ha ltac:(lia) Gw) in Er. congruence. }
        destruct (item_get r' v i Wr ltac:(lia) Er) as (a' & Ha' & Ga' & _).
        assert (U1 : forall w, In (Some w) (map (fun a => d_get (f a) i) (s_values l)) -> w = v).
        { intros w Hw. apply in_map_iff in Hw. destruct Hw as (a & Gw & Ha). destruct (OF a Ha) as [_ Q].
          rewrite Q in Gw by auto. rewrite (LN' a Ha) in Gw. cbn in Gw.
          pose proof (of_kind_spec r' (d_kind a) Wr) as S'. destruct (of_kind (d_kind a) r') as [a''|]; [|discriminate].
          apply (UN a''); tauto. }
        assert (U2 : forall w, In (Some w) (map (fun a => d_get a i) rest) -> w = v).
        { intros w Hw. apply in_map_iff in Hw. destruct Hw as (a & Gw & Ha). apply filter_In in Ha. apply (UN a); tauto. }
        destruct (of_kind (d_kind a') l) as [a|] eqn:K.
        * pose proof (of_kind_spec l (d_kind a') Wl) as S'. rewrite K in S'. destruct S' as [Ha Ka].
          assert (F1 : first_of (map (fun a => d_get (f a) i) (s_values l)) = Some v).
          { apply first_of_only; auto. apply in_map_iff. exists a. split; auto. destruct (OF a Ha) as [_ Q].
            rewrite Q by auto. rewrite (LN' a Ha). cbn. rewrite Ka, (of_kind_in r' a' Wr Ha'). exact Ga'. }
          now rewrite F1.
        * assert (F2 : first_of (map (fun a => d_get a i) rest) = Some v).
          { apply first_of_only; auto. apply in_map_iff. exists a'. split; auto. apply filter_In. rewrite K. auto. }
          rewrite F2. destruct (first_of (map (fun a => d_get (f a) i) (s_values l))) as [w|] eqn:F1; auto.
          apply first_of_in in F1. cbn. f_equal. now apply U1.
      + pose proof (RN i Hi Er) as RN'.
        rewrite !first_of_none; auto.
        * intros w Hw. apply in_map_iff in Hw. destruct Hw as (a & Gw & Ha). apply filter_In in Ha.
          rewrite (RN' a) in Gw by tauto. discriminate.
        * intros w Hw. apply in_map_iff in Hw. destruct Hw as (a & Gw & Ha). destruct (OF a Ha) as [_ Q].
          rewrite Q in Gw by auto. rewrite (LN' a Ha) in Gw. cbn in Gw.
          pose proof (of_kind_spec r' (d_kind a) Wr) as S'. destruct (of_kind (d_kind a) r') as [a''|]; [|discriminate].
          rewrite (RN' a'') in Gw by tauto. discriminate. }
  destruct (finish_good visit visits n b2 _ (map2 either (items l) (items r')) G2) as (s & E' & GS & S' & I).
  - now apply either_length.
  - intros i Hi. rewrite nth_either by auto. rewrite <- IT by auto. unfold over.
    destruct (first_of (map (fun a => d_get (f a) i) (s_values l))); cbn; auto.
    destruct (first_of (map (fun a => d_get a i) rest)); cbn; auto.
  - rewrite A2, A1. now apply union_ok.
  - intros o Ho. rewrite A2, A1. now apply union_covers.
  - exists s. rewrite E'. auto.
Qed.

Lemma split_under : forall A B C : Prop, (A -> B /\ C) -> (A -> B) /\ (A -> C).
Proof. tauto. Qed.
Lemma presence_or_ok : forall d l r, good_slice l -> good_slice r ->
  (s_size l <> s_size r -> presence_or d l r = Fails ESizes) /\
  (s_size l = s_size r -> d = true -> overlap (items l) (items r) -> presence_or d l r = Fails EOverlap) /\
  (s_size l = s_size r -> (d = true -> ~ overlap (items l) (items r)) ->
   exists s, presence_or d l r = Done s /\ good_slice s /\ s_size s = s_size l /\
     items s = map2 either (items l) (items r)).
Proof.
  intros d l r GL GR. assert (GL' := GL). assert (GR' := GR).
  destruct GL' as (Wl & Al & Ol), GR' as (Wr & Ar & Or'). unfold SliceOpsModel.presence_or.
  split. { intros H. apply Nat.eqb_neq in H. now rewrite H. }
  apply split_under. intros SZ.
  replace (s_size l =? s_size r) with true by (symmetry; now apply Nat.eqb_eq). cbn [negb].
  pose proof (overlap_items l r SZ) as OV.
  assert (IE : forall s, slice_wf s -> s_size s = s_size l -> (forall i, i < s_size l -> item_at s i = either (item_at l i) (item_at r i)) ->
     items s = map2 either (items l) (items r)).
  { intros s Ws Ss H. apply items_eq; [rewrite either_length; auto|]. intros i Hi. rewrite nth_either by (auto; lia).
    apply H. lia. }
  destruct (slice_count r =? 0) eqn:C0.
  { apply Nat.eqb_eq in C0. pose proof (proj1 (count_zero r Wr) C0) as N. split.
    - intros _ O. apply OV in O. destruct O as (i & Hi & _ & B). rewrite N in B by lia. tauto.
    - intros _. exists l. split; auto. split; auto. split; auto. apply IE; auto. intros i Hi.
      rewrite (N i) by lia. destruct (item_at l i); reflexivity. }
  destruct (is_empty_unknown l) eqn:EU.
  { unfold is_empty_unknown in EU. apply Nat.eqb_eq, length_zero_iff_nil in EU. split.
    - intros _ O. apply OV in O. destruct O as (i & Hi & A & _). rewrite (empty_item_at l i EU) in A. tauto.
    - intros _. exists r. split; auto. split; auto. split; [congruence|]. apply IE; auto. intros i Hi.
      now rewrite (empty_item_at l i EU). }
  assert (NL : s_values l <> []) by (intros E; unfold is_empty_unknown in EU; rewrite E in EU; discriminate).
  assert (NR : s_values r <> []).
  { intros E. apply Nat.eqb_neq in C0. apply C0. unfold slice_count. rewrite E. reflexivity. }
  destruct (negb (is_mixed l) && negb (is_mixed r) && same_dtype l r) eqn:ST.
  { apply andb_prop in ST. destruct ST as [ST SD]. apply andb_prop in ST. destruct ST as [M1 M2].
    unfold is_mixed in M1, M2. destruct (s_values l) as [|a [|? ?]] eqn:Vl; try congruence; [|discriminate].
    destruct (s_values r) as [|b [|? ?]] eqn:Vr; try congruence; [|discriminate].
    assert (K : d_kind a = d_kind b).
    { unfold same_dtype in SD. rewrite (sw_dtype l Wl), (sw_dtype r Wr), Vl, Vr in SD.
      destruct (kind_eq_dec (d_kind a) (d_kind b)); auto. discriminate. }
    destruct (single_type_or_ok d l r a b) as [X1 X2]; auto. }
  clear ST. destruct (missing_ok l Wl NL) as (m & EM & OM & GM). cbv zeta. rewrite EM.
  destruct (create_good (s_size l) m OM) as ((Wm & _) & Sm & Im).
  assert (ISM : is_mask (items (create m))).
  { rewrite Im. unfold elements. apply Forall_forall. intros x Hx. apply in_map_iff in Hx. destruct Hx as (i & <- & Hi).
    rewrite (ao_size _ _ OM) in Hi. apply in_seq in Hi. rewrite GM by lia. destruct (item_at l i); auto. }
  destruct (presence_and_ok visit visits r (create m) GR Wm) as (_ & _ & PA).
  destruct PA as (r' & E' & GR2 & S' & I'); [congruence|exact ISM|]. rewrite E'. cbn [bind_out].
  assert (R' : forall i, i < s_size l -> item_at r' i = match item_at l i with Some _ => None | None => item_at r i end).
  { intros i Hi. rewrite <- nth_items by lia. rewrite I'. rewrite nth_map2 with (da := None) (db := None);
      rewrite ?items_length; try lia. rewrite nth_items by lia. rewrite Im.
    rewrite (elements_nth (s_size l)) by (auto; apply OM). rewrite GM by auto. destruct (item_at l i); reflexivity. }
  assert (GR3 := GR2). destruct GR3 as (W' & _).
  assert (CNT : slice_count r = slice_count r' <-> ~ overlap (items l) (items r)).
  { rewrite (count_items r Wr), (count_items r' W'). rewrite S', OV.
    destruct (filter_sub_count (fun i => isSome (item_at r' i)) (fun i => isSome (item_at r i)) (seq 0 (s_size r))) as [_ Q].
    { intros i Hi. apply in_seq in Hi. rewrite R' by lia. destruct (item_at l i); auto. discriminate. }
    split.
    - intros E (i & Hi & A & B). symmetry in E. apply Q with (x := i) in E.
      + rewrite R' in E by auto. destruct (item_at l i); [discriminate|congruence].
      + apply in_seq. lia.
      + destruct (item_at r i); auto.
    - intros NO. symmetry. apply Q. intros i Hi Hr. apply in_seq in Hi. rewrite R' by lia.
      destruct (item_at l i) eqn:E; auto. exfalso. apply NO. exists i. split; [lia|]. split; [congruence|].
      destruct (item_at r i); [congruence|discriminate]. }
  split.
  { intros -> O. cbn [andb]. destruct (slice_count r =? slice_count r') eqn:E; [|reflexivity].
    apply Nat.eqb_eq in E. apply CNT in E. tauto. }
  intros NO. replace (d && _) with false.
  2:{ destruct d; auto. cbn. symmetry. apply negb_false_iff. apply Nat.eqb_eq. apply CNT. auto. }
  assert (EE : forall i, i < s_size l -> either (item_at l i) (item_at r' i) = either (item_at l i) (item_at r i)).
  { intros i Hi. rewrite R' by auto. destruct (item_at l i); reflexivity. }
  destruct (slice_count r' =? 0) eqn:C1.
  { apply Nat.eqb_eq in C1. pose proof (proj1 (count_zero r' W') C1) as N.
    exists l. split; auto. split; auto. split; auto. apply IE; auto. intros i Hi.
    rewrite <- EE by auto. rewrite (N i) by lia. destruct (item_at l i); reflexivity. }
  destruct (or_loops l r' GL GR2) as (s & E2 & GS & SS & IS); [congruence| |].
  { intros i Hi H. rewrite R' by auto. destruct (item_at l i); congruence. }
  exists s. split; [exact E2|]. split; auto. split; auto. rewrite IS. apply nth_ext with (d := None) (d' := None).
  - rewrite !either_length by congruence. reflexivity.
  - intros i Hi. rewrite either_length in Hi by congruence. rewrite !nth_either by (auto; congruence). auto.
Qed.
End Or.
