(** * The laws of views in the form stated in ViewProps. *)

From Coq Require Import List Arith Bool ZArith Lia ZifyBool Permutation
  Sorted.
From Verif Require Import ViewModel ViewSpec ViewProofs ViewOpsProofs
  ViewLawsProofs ViewFlattenProofs ViewGroupProofs.
Import ListNotations.
Local Open Scope nat_scope.
Local Arguments Nat.leb : simpl never.
Local Arguments Nat.ltb : simpl never.
Local Arguments Nat.eqb : simpl never.
Local Arguments Nat.sub : simpl never.

(** ** map *)

Lemma map_calls : forall vs v,
  vs <> [] -> Forall good vs -> aligned vs ->
  In v vs -> v_depth v = depth_of vs ->
  exists rows,
    Forall2 (row vs) (positions (depth_of vs) (v_obj v)) rows /\
    forall f inc h,
      match mapM (call f inc) rows h with
      | (h', Raise e) => map_ f 0 (Some inc) vs h = (h', Raise e)
      | (h', Ok ys) =>
          exists r, map_ f 0 (Some inc) vs h = (h', Ok r) /\
            v_depth r = depth_of vs /\ good r /\
            (forall e, e <= depth_of vs ->
               positions e (v_obj r) = positions e (v_obj v)) /\
            leaves (depth_of vs) (v_obj r) = ys
      end.
Proof.
  intros vs v NE G A J D.
  destruct (views_run vs v G A J D) as [rows [F R]].
  exists rows. split; [exact F|]. intros f inc h. specialize (R f inc h).
  destruct (mapM (call f inc) rows h) as [h' [ys|e]].
  - destruct R as [r [E [S0 [P L]]]].
    exists (View r (depth_of vs)). rewrite map_unfold by exact NE.
    rewrite E. auto.
  - rewrite map_unfold by exact NE. rewrite R. reflexivity.
Qed.

Lemma map_default : forall f vs,
  map_ f 0 None vs = map_ f 0 (Some false) vs.
Proof. reflexivity. Qed.

Lemma map_rejects : forall f inc vs h h' r,
  map_ f 0 inc vs h = (h', Ok r) ->
  vs <> [] /\ Forall good vs /\ aligned vs.
Proof.
  intros f inc vs h h' r E. destruct vs as [|v vs]; [discriminate|].
  rewrite map_unfold in E by discriminate.
  destruct (on_views _ _ _ h) as [h1 [o|e]] eqn:O; [|discriminate].
  split; [discriminate|]. eapply views_ok; [discriminate|exact O].
Qed.

Lemma map_pointwise : forall f inc vs h h' r,
  map_ (pure f) 0 (Some inc) vs h = (h', Ok r) ->
  h' = h /\ Forall good vs /\ aligned vs /\
  v_depth r = depth_of vs /\ good r /\
  (forall p, length p <= depth_of vs ->
     ((exists o, at_ p (v_obj r) = Some o) <-> exists xs, row vs p xs)) /\
  (forall p y, length p = depth_of vs ->
     (at_ p (v_obj r) = Some y <->
      exists xs, row vs p xs /\ applied f inc xs y)).
Proof.
  intros f inc vs h h' r E. destruct vs as [|v vs]; [discriminate|].
  rewrite map_unfold in E by discriminate.
  destruct (on_views _ _ _ h) as [h1 [o|e]] eqn:O; [|discriminate].
  assert (h1 = h' /\ r = View o (depth_of (v :: vs)))
    by (split; congruence).
  destruct H as [-> ->].
  apply views_pure_ok with (g := f) in O; [|discriminate|reflexivity].
  cbn [v_depth v_obj]. destruct O as [-> [G [A [S0 [P1 P2]]]]].
  split; [reflexivity|]. split; [exact G|]. split; [exact A|].
  split; [reflexivity|]. split; [exact S0|]. split; assumption.
Qed.

Lemma map_total : forall f inc vs h,
  vs <> [] -> Forall good vs -> aligned vs ->
  (forall p xs, length p = depth_of vs -> row vs p xs ->
     exists y, applied f inc xs y) ->
  exists r, map_ (pure f) 0 (Some inc) vs h = (h, Ok r).
Proof.
  intros f inc vs h NE G A T.
  destruct (views_pure_total vs (pure f) f inc h NE) as [o O];
    [reflexivity|assumption|assumption|exact T|].
  rewrite map_unfold by exact NE. rewrite O. eexists. reflexivity.
Qed.

Lemma Forall2_views : forall D ws p (xs : list obj),
  length p <= D ->
  (row (map (fun w => View (v_obj w) D) ws) p xs <->
   Forall2 (fun w x => at_ p (v_obj w) = Some x) ws xs).
Proof. intros. apply row_imploded. assumption. Qed.

Lemma map_ndim : forall f n vs h h' r,
  0 < n -> Forall good vs ->
  map_ (pure f) (Z.of_nat n) None vs h = (h', Ok r) ->
  h' = h /\ aligned vs /\ n <= depth_of vs /\
  v_depth r = depth_of vs - n /\ good r /\
  exists ws, Forall2 (aligned_to (depth_of vs)) vs ws /\
    forall p y, length p = depth_of vs - n ->
      (at_ p (v_obj r) = Some y <->
       exists xs, Forall2 (fun w x => at_ p (v_obj w) = Some x) ws xs /\
                  f xs = Ok y).
Proof.
  intros f n vs h h' r P G E. destruct vs as [|v vs].
  { unfold map_ in E. replace (Z.of_nat n =? 0)%Z with false in E by lia.
    replace (Z.of_nat n <? 0)%Z with false in E by lia. discriminate. }
  rewrite map_ndim_unfold in E; [|exact P|discriminate|exact G|discriminate].
  set (D := depth_of (v :: vs)) in *.
  destruct (align (v :: vs) h) as [h1 [ws|e]] eqn:AL; [|discriminate].
  destruct (align_ok _ _ _ _ G AL) as [-> [F [_ A]]].
  destruct (D <? n) eqn:L; [discriminate|].
  destruct (on_views (pure f) true _ h) as [h2 [o|e]] eqn:O; [|discriminate].
  assert (h2 = h' /\ r = View o (D - n)) by (split; congruence).
  destruct H as [-> ->].
  assert (NW : ws <> []) by (inversion F; discriminate).
  apply views_pure_ok with (g := f) in O; [| |reflexivity].
  2:{ destruct ws; [congruence|discriminate]. }
  rewrite depth_same in O by exact NW.
  cbn [v_depth v_obj]. destruct O as [-> [_ [_ [S0 [_ P2]]]]].
  split; [reflexivity|]. split; [exact A|]. split; [lia|].
  split; [reflexivity|]. split; [exact S0|].
  exists ws. split; [exact F|]. intros p y Lp. rewrite (P2 p y Lp).
  split; intros [xs [R B]]; exists xs; split; auto.
  - apply row_imploded in R; [exact R|lia].
  - apply row_imploded; [lia|exact R].
Qed.

(** ** explode and implode *)

Section Iter.
Variable iterate : Z -> option (list obj).

Lemma explode_unfold : forall n v h,
  explode iterate (Z.of_nat n) v h = explode_times iterate n v h.
Proof.
  intros n v h. unfold explode.
  replace (Z.of_nat n <? 0)%Z with false by lia. rewrite Nat2Z.id.
  reflexivity.
Qed.

Lemma explode_one : forall v h h' r,
  good v -> explode iterate 1 v h = (h', Ok r) ->
  h' = h /\ v_depth r = S (v_depth v) /\ good r /\
  same_shape (v_depth v) (v_obj r) (v_obj v) /\
  (forall p x, length p = v_depth v -> at_ p (v_obj v) = Some x ->
     exists xs, elements iterate h x = Some xs /\
                at_ p (v_obj r) = Some (PTuple xs)).
Proof.
  intros v h h' r G E. change 1%Z with (Z.of_nat 1) in E.
  rewrite explode_unfold in E. eapply explode_one_ok; eassumption.
Qed.

Lemma explode_succeeds : forall v h,
  good v ->
  (forall p x, length p = v_depth v -> at_ p (v_obj v) = Some x ->
     exists xs, elements iterate h x = Some xs) ->
  exists r, explode iterate 1 v h = (h, Ok r).
Proof.
  intros v h G T. change 1%Z with (Z.of_nat 1).
  destruct (explode_one_total iterate v h G T) as [r R].
  exists r. rewrite explode_unfold. exact R.
Qed.

Lemma explode_more : forall n m v h,
  explode iterate (Z.of_nat n + Z.of_nat m) v h =
  bind (explode iterate (Z.of_nat n) v) (explode iterate (Z.of_nat m)) h.
Proof.
  intros n m v h. rewrite <- Nat2Z.inj_add, explode_unfold,
    explode_times_add.
  unfold bind. rewrite explode_unfold.
  destruct (explode_times iterate n v h) as [h' [r|e]]; [|reflexivity].
  rewrite explode_unfold. reflexivity.
Qed.

Lemma explode_implode : forall n v w h,
  good v -> implode (Z.of_nat n) v = Ok w ->
  explode iterate (Z.of_nat n) w h = (h, Ok v).
Proof.
  intros n v w h G E. unfold implode in E.
  replace (Z.of_nat n <? 0)%Z with false in E by lia.
  destruct (Z.of_nat n <=? Z.of_nat (v_depth v))%Z eqn:L; [|discriminate].
  rewrite Nat2Z.id in E.
  assert (w = View (v_obj v) (v_depth v - n)) by congruence. subst w.
  rewrite explode_unfold, explode_tuples.
  - replace (v_depth v - n + n) with (v_depth v) by lia.
    destruct v; reflexivity.
  - replace (v_depth v - n + n) with (v_depth v) by lia. exact G.
Qed.

Lemma implode_explode : forall n v h,
  shaped (v_depth v + n) (v_obj v) ->
  exists r, explode iterate (Z.of_nat n) v h = (h, Ok r) /\
            implode (Z.of_nat n) r = Ok v.
Proof.
  intros n [o d] h S0. cbn [v_depth v_obj] in S0.
  exists (View o (d + n)). rewrite explode_unfold, explode_tuples by exact S0.
  split; [reflexivity|]. rewrite implode_ok by (cbn; lia). cbn.
  f_equal. f_equal. lia.
Qed.

Lemma implode_spec : forall z v,
  implode z v =
  if (z <? 0)%Z then Ok (View (v_obj v) 0)
  else if (Z.of_nat (v_depth v) <? z)%Z then Raise TooManyDims
  else Ok (View (v_obj v) (v_depth v - Z.to_nat z)).
Proof.
  intros z v. unfold implode. destruct (z <? 0)%Z; [reflexivity|].
  destruct (z <=? Z.of_nat (v_depth v))%Z eqn:E;
  destruct (Z.of_nat (v_depth v) <? z)%Z eqn:E2; try lia; reflexivity.
Qed.

Lemma flatten_all : forall v h,
  good v ->
  exists h' r, flatten iterate 0 None v h = (h', Ok r) /\
    heap_grew h h' /\
    r = View (PTuple (leaves (v_depth v) (v_obj v))) 1.
Proof.
  intros v h G. destruct (flatten_ok iterate 0 None v h G)
    as [h' [r [E [HG [D [_ [_ IT]]]]]]].
  exists h', r. split; [exact E|]. split; [exact HG|].
  assert (C : clipped 0 (v_depth v) = 0) by (unfold clipped; cbn; lia).
  rewrite C in *. cbn [last_dim] in *. destruct r as [o d].
  cbn [v_depth v_obj] in *.
  specialize (IT [] (v_obj v) eq_refl eq_refl). cbn [at_] in IT.
  replace (v_depth v - 0) with (v_depth v) in IT by lia.
  f_equal; [congruence|lia].
Qed.

End Iter.

(** ** Masks *)

Lemma and_ok : forall v m h h' r,
  presence_and v m h = (h', Ok r) ->
  h' = h /\ aligned [v; m] /\
  v_depth r = Nat.max (v_depth v) (v_depth m) /\ good r /\
  (forall p z, length p = v_depth r ->
     (at_ p (v_obj r) = Some z <->
      exists x b, at_ (firstn (v_depth v) p) (v_obj v) = Some x /\
                  at_ (firstn (v_depth m) p) (v_obj m) = Some b /\
                  ((b = PPresent /\ z = x) \/
                   ((b = PNone \/ x = PNone) /\ z = PNone)))).
Proof.
  intros v m h h' r E.
  apply map2_ok with (g := gand) in E.
  2:{ intros x y. unfold presence_and_impl, gand.
      destruct (is_present y); reflexivity. }
  destruct E as [-> [_ [_ [A [D [G [_ P]]]]]]].
  split; [reflexivity|]. split; [exact A|]. split; [exact D|].
  split; [exact G|]. intros p z L. rewrite (P p z L).
  split; intros [x [b [X [B H]]]]; exists x, b; split; auto; split; auto.
  - unfold applied in H. destruct H as [[J ->]|[J H]].
    + right. split; [|reflexivity]. destruct J as [<-|[<-|[]]]; auto.
    + unfold two, gand in H. destruct b; try discriminate. left.
      split; [reflexivity|]. cbn in H. congruence.
  - unfold applied. destruct H as [[-> ->]|[J ->]].
    + destruct (is_none x) eqn:N0.
      * destruct x; try discriminate. left. split; [left|]; reflexivity.
      * right. split; [|reflexivity]. intros [->|[E|[]]];
          [discriminate|discriminate].
    + left. split; [|reflexivity]. destruct J as [->| ->]; cbn; auto.
Qed.

Lemma coalesce_ok : forall v w h h' r,
  coalesce v w h = (h', Ok r) ->
  h' = h /\ aligned [v; w] /\
  v_depth r = Nat.max (v_depth v) (v_depth w) /\ good r /\
  (forall p z, length p = v_depth r ->
     (at_ p (v_obj r) = Some z <->
      exists x y, at_ (firstn (v_depth v) p) (v_obj v) = Some x /\
                  at_ (firstn (v_depth w) p) (v_obj w) = Some y /\
                  (x <> PNone /\ z = x \/ x = PNone /\ z = y))).
Proof.
  intros v w h h' r E.
  apply map2_ok with (g := fun x y => Ok (if is_none x then y else x)) in E;
    [|reflexivity].
  destruct E as [-> [_ [_ [A [D [G [_ P]]]]]]].
  split; [reflexivity|]. split; [exact A|]. split; [exact D|].
  split; [exact G|]. intros p z L. rewrite (P p z L).
  split; intros [x [y [X [Y H]]]]; exists x, y; split; auto; split; auto.
  - cbn in H. destruct x; cbn in H; (left; split; congruence) || auto.
    right. split; congruence.
  - cbn. destruct H as [[H ->]|[-> ->]]; [|reflexivity].
    destruct x; try reflexivity. congruence.
Qed.

Lemma coalesce_total : forall v w h,
  good v -> good w -> aligned [v; w] ->
  exists r, coalesce v w h = (h, Ok r).
Proof.
  intros v w h G1 G2 A.
  apply map2_total with (g := fun x y => Ok (if is_none x then y else x));
    auto.
  intros p x y _ _ _. eexists. reflexivity.
Qed.

(** ** Groups *)

Section Group.
Variable py_eq : obj -> obj -> bool.
Variable hashable : obj -> bool.
Variable key_less : list obj -> list obj -> bool.
Hypothesis eq_refl : forall a, py_eq a a = true.
Hypothesis eq_sym : forall a b, py_eq a b = true -> py_eq b a = true.
Hypothesis eq_trans : forall a b c,
  py_eq a b = true -> py_eq b c = true -> py_eq a c = true.

Lemma grouped_laws : forall kxs,
  let gs := grouped (key_eq py_eq) kxs in
  Permutation (concat (map snd gs)) (map snd (present_rows kxs)) /\
  ForallOrdPairs (fun a b => key_eq py_eq (fst a) (fst b) = false) gs /\
  (forall k ys, In (k, ys) gs ->
     ys = map snd (filter (fun kx => key_eq py_eq k (fst kx))
                          (present_rows kxs)) /\ ys <> []) /\
  (forall k x, In (k, x) (present_rows kxs) ->
     exists d ys, In (d, ys) gs /\ key_eq py_eq d k = true /\ In x ys).
Proof.
  intros kxs gs. unfold gs. rewrite grouped_groups_of.
  split; [apply groups_partition; assumption|].
  split; [apply groups_apart|].
  split.
  - intros k ys J. unfold groups_of in J. apply in_map_iff in J.
    destruct J as [d [E J]].
    assert (d = k /\ ys = with_key (key_eq py_eq) d (present_rows kxs))
      by (split; congruence).
    destruct H as [-> ->]. split; [reflexivity|].
    apply distinct_sub in J. apply in_map_iff in J.
    destruct J as [[k' x] [E2 J]]. cbn in E2. subst k'.
    intros Z0.
    assert (X : In x (with_key (key_eq py_eq) k (present_rows kxs))).
    { unfold with_key. apply in_map_iff. exists (k, x).
      split; [reflexivity|]. apply filter_In. split; [exact J|].
      apply same_refl. assumption. }
    rewrite Z0 in X. destruct X.
  - apply in_some_group; assumption.
Qed.

Lemma group_unsorted : forall keys v h h' r,
  good v -> Forall good keys ->
  group_by py_eq hashable key_less false keys v h = (h', Ok r) ->
  h' = h /\ v_depth r = v_depth v + 1 /\ good r /\
  same_shape (v_depth v - 1) (v_obj r) (v_obj v) /\
  (forall p xs, length p = v_depth v - 1 ->
     at_ p (v_obj v) = Some (PTuple xs) ->
     exists kxs, keyed keys p xs kxs /\
       at_ p (v_obj r) =
       Some (PTuple (map (fun g => PTuple (snd g))
                         (grouped (key_eq py_eq) kxs)))).
Proof.
  intros keys v h h' r Gv Gk E.
  destruct (group_by_ok py_eq hashable key_less eq_refl eq_sym eq_trans
              false keys v h h' r Gv Gk E)
    as [-> [_ [_ [D [Gr [SH IT]]]]]].
  split; [reflexivity|]. split; [exact D|]. split; [exact Gr|].
  split; [exact SH|]. intros p xs L X.
  destruct (IT p xs L X) as [kxs [gs [K [-> A]]]]. exists kxs.
  split; assumption.
Qed.

Lemma group_sorted : forall keys v h h' r,
  (forall a b c, key_less a b = true -> key_less b c = true ->
     key_less a c = true) ->
  (forall a b, key_eq py_eq a b = false ->
     key_less a b = true \/ key_less b a = true) ->
  good v -> Forall good keys ->
  group_by py_eq hashable key_less true keys v h = (h', Ok r) ->
  h' = h /\ v_depth r = v_depth v + 1 /\ good r /\
  same_shape (v_depth v - 1) (v_obj r) (v_obj v) /\
  (forall p xs, length p = v_depth v - 1 ->
     at_ p (v_obj v) = Some (PTuple xs) ->
     exists kxs gs, keyed keys p xs kxs /\
       Permutation gs (grouped (key_eq py_eq) kxs) /\
       StronglySorted (fun a b => key_less (fst a) (fst b) = true) gs /\
       at_ p (v_obj r) = Some (PTuple (map (fun g => PTuple (snd g)) gs))).
Proof.
  intros keys v h h' r LT LE Gv Gk E.
  destruct (group_by_ok py_eq hashable key_less eq_refl eq_sym eq_trans
              true keys v h h' r Gv Gk E)
    as [-> [_ [_ [D [Gr [SH IT]]]]]].
  split; [reflexivity|]. split; [exact D|]. split; [exact Gr|].
  split; [exact SH|]. intros p xs L X.
  destruct (IT p xs L X) as [kxs [gs [K [-> A]]]].
  exists kxs, (sort_groups key_less (grouped (key_eq py_eq) kxs)).
  destruct (sort_spec py_eq key_less LT LE (grouped (key_eq py_eq) kxs))
    as [P S0].
  { rewrite grouped_groups_of. apply groups_apart. }
  split; [exact K|]. split; [exact P|]. split; [exact S0|exact A].
Qed.

End Group.
