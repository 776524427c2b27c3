(** * Proofs about flatten and collapse. *)

From Coq Require Import List Arith Bool ZArith Lia ZifyBool Permutation.
From Verif Require Import ViewModel ViewSpec ViewProofs ViewOpsProofs
  ViewLawsProofs.
Import ListNotations.
Local Open Scope nat_scope.
Local Arguments Nat.leb : simpl never.
Local Arguments Nat.ltb : simpl never.
Local Arguments Nat.eqb : simpl never.
Local Arguments Nat.sub : simpl never.

Lemma positions_same_shape : forall d o o',
  shaped d o -> shaped d o' ->
  (forall e, e <= d -> positions e o = positions e o') -> same_shape d o o'.
Proof.
  intros d o o' S1 S2 P p L.
  pose proof (positions_in (length p) o p (shaped_below _ _ _ L S1)) as Q1.
  pose proof (positions_in (length p) o' p (shaped_below _ _ _ L S2)) as Q2.
  rewrite (P _ L) in Q1. tauto.
Qed.

(** Positions further down, grouped by the position above. *)
Lemma combine_app_eq {A B} (l1 l2 : list A) (m1 m2 : list B) :
  length l1 = length m1 ->
  combine (l1 ++ l2) (m1 ++ m2) = combine l1 m1 ++ combine l2 m2.
Proof.
  revert m1. induction l1 as [|a l1 IH]; intros [|b m1] L; cbn in L;
    try discriminate; [reflexivity|]. cbn. f_equal. apply IH. lia.
Qed.

Lemma combine_map_l {A B C} (f : A -> B) (l : list A) (m : list C) :
  combine (map f l) m = map (fun ac => (f (fst ac), snd ac)) (combine l m).
Proof.
  revert m. induction l as [|a l IH]; intros [|c m]; cbn; congruence.
Qed.

Definition below_all (b : nat) (qxs : list (list nat * obj))
  : list (list nat) :=
  flat_map (fun qx => map (app (fst qx)) (positions b (snd qx))) qxs.

Lemma positions_add : forall a b o,
  positions (a + b) o = below_all b (combine (positions a o) (leaves a o)).
Proof.
  induction a as [|a IH]; intros b o.
  - cbn. rewrite app_nil_r, map_id. reflexivity.
  - cbn [Nat.add positions leaves]. destruct o; try reflexivity.
    generalize 0. induction items as [|x xs IHx]; intros s; [reflexivity|].
    cbn [length seq combine flat_map fst snd].
    rewrite combine_app_eq
      by (rewrite map_length; apply positions_length).
    unfold below_all. rewrite flat_map_app. f_equal; [|apply IHx].
    rewrite combine_map_l, flat_map_map_. cbn [fst snd].
    rewrite IH. unfold below_all. rewrite map_flat_map_.
    apply flat_map_ext_in. intros [q y] _. cbn [fst snd].
    rewrite map_map. apply map_ext. reflexivity.
Qed.

Lemma leaves_shaped : forall a b o,
  shaped (a + b) o -> Forall (shaped b) (leaves a o).
Proof.
  induction a as [|a IH]; intros b o S0; cbn.
  - constructor; [exact S0|constructor].
  - destruct S0 as [xs [-> F]]. apply Forall_flat_map.
    eapply Forall_impl; [|exact F]. intros x X. apply IH. exact X.
Qed.

(** ** Making the lists *)

Lemma new_lists : forall rows h,
  Forall (fun xs => exists x, xs = [x]) rows ->
  mapM (call (fun1 (fun _ => new_list)) true) rows h =
  (h ++ repeat [] (length rows),
   Ok (map PRef (seq (length h) (length rows)))).
Proof.
  induction rows as [|xs rows IH]; intros h F; cbn [mapM].
  - cbn. rewrite app_nil_r. reflexivity.
  - inversion F as [|? ? [x ->] F2]; subst.
    unfold bind, call. cbn [negb andb fun1]. unfold new_list.
    fold (call (fun1 (fun _ => new_list)) true).
    change (fun h0 : list (list obj) => _) with new_list.
    rewrite IH by exact F2.
    unfold ret. cbn [length repeat seq map].
    rewrite <- app_assoc. cbn [app]. rewrite app_length. cbn [length].
    replace (length h + 1) with (S (length h)) by lia. reflexivity.
Qed.

(** ** Filling the lists *)

Lemma update_nth_app : forall A (f : A -> A) l a l',
  update_nth (length l) f (l ++ a :: l') = l ++ f a :: l'.
Proof. induction l as [|b l IH]; intros; cbn; [reflexivity|]. congruence. Qed.

Lemma append_one_list : forall ys pre acc post,
  mapM (call (fun2 append) true)
    (map (fun y => [PRef (length pre); y]) ys) (pre ++ acc :: post) =
  (pre ++ (acc ++ ys) :: post, Ok (repeat PNone (length ys))).
Proof.
  induction ys as [|y ys IH]; intros pre acc post; cbn [map mapM].
  - rewrite app_nil_r. reflexivity.
  - unfold bind, call. cbn [negb andb fun2]. unfold append.
    replace (length pre <? length (pre ++ acc :: post)) with true
      by (rewrite app_length; cbn; lia).
    rewrite update_nth_app.
    change (mapM _ (map (fun y0 => [PRef (length pre); y0]) ys))
      with (mapM (call (fun2 append) true)
              (map (fun y0 => [PRef (length pre); y0]) ys)).
    rewrite IH. unfold ret. rewrite <- app_assoc. reflexivity.
Qed.

Definition fill_rows (b : nat) (lxs : list (obj * obj)) : list (list obj) :=
  flat_map (fun lx => map (fun y => [fst lx; y]) (leaves b (snd lx))) lxs.

Lemma append_all : forall b xs pre,
  mapM (call (fun2 append) true)
    (fill_rows b (combine (map PRef (seq (length pre) (length xs))) xs))
    (pre ++ repeat [] (length xs)) =
  (pre ++ map (leaves b) xs,
   Ok (repeat PNone (length (flat_map (leaves b) xs)))).
Proof.
  intros b. induction xs as [|x xs IH]; intros pre.
  - cbn. reflexivity.
  - cbn [length seq map combine fill_rows flat_map fst snd repeat].
    rewrite mapM_app, append_one_list. cbn [app].
    specialize (IH (pre ++ [leaves b x])).
    rewrite <- !app_assoc in IH. cbn [app] in IH.
    rewrite app_length in IH. cbn [length] in IH.
    replace (length pre + 1) with (S (length pre)) in IH by lia.
    unfold fill_rows in IH. rewrite IH.
    rewrite app_length, repeat_app. reflexivity.
Qed.

(** The calls made are these. *)
Lemma fill_rows_spec : forall r o f b,
  shaped f r -> shaped (f + b) o ->
  positions f r = positions f o ->
  Forall2 (row [View r f; View o (f + b)]) (positions (f + b) o)
          (fill_rows b (combine (leaves f r) (leaves f o))).
Proof.
  intros r o f b Sr So P. rewrite positions_add.
  assert (AR : forall q l, In (q, l) (combine (positions f o) (leaves f r)) ->
                           at_ q r = Some l).
  { intros q l J. eapply at_positions; [exact P|reflexivity|exact J]. }
  assert (AO : forall q x, In (q, x) (combine (positions f o) (leaves f o)) ->
                           at_ q o = Some x).
  { intros q x J. eapply at_positions; [reflexivity|reflexivity|exact J]. }
  assert (LQ : forall q, In q (positions f o) -> length q = f).
  { intros q J. apply positions_in in J; [tauto|].
    eapply shaped_below; [|exact So]. lia. }
  assert (LEN : length (leaves f r) = length (leaves f o)).
  { rewrite <- !positions_length, P. reflexivity. }
  assert (LEN2 : length (positions f o) = length (leaves f o))
    by apply positions_length.
  assert (BELOW : forall x p, In x (leaves f o) -> In p (positions b x) ->
             length p = b).
  { intros x p J K. apply positions_in in K; [tauto|].
    pose proof (leaves_shaped f b o So) as F. rewrite Forall_forall in F.
    apply F. exact J. }
  revert AR AO LQ LEN LEN2 BELOW.
  generalize (positions f o) as qs, (leaves f r) as ls, (leaves f o) as xs.
  clear P Sr So.
  induction qs as [|q qs IH]; intros [|l ls] [|x xs] AR AO LQ L1 L2 BELOW;
    cbn in L1, L2; try discriminate; [constructor|].
  cbn [combine below_all fill_rows flat_map fst snd].
  apply Forall2_app.
  - assert (Q1 : at_ q r = Some l) by (apply AR; left; reflexivity).
    assert (Q2 : at_ q o = Some x) by (apply AO; left; reflexivity).
    assert (Q3 : length q = f) by (apply LQ; left; reflexivity).
    pose proof (leaves_at b x) as LA.
    assert (B : forall p, In p (positions b x) -> length p = b)
      by (intros p J; apply (BELOW x p); [left; reflexivity|exact J]).
    revert LA B. generalize (positions b x) as ps, (leaves b x) as ys.
    induction ps as [|p ps IHp]; intros [|y ys] LA B; cbn in LA;
      try discriminate; cbn [map]; constructor.
    + inversion LA as [[A1 A2]].
      assert (Lp : length p = b) by (apply B; left; reflexivity).
      apply row_two. exists l, y. cbn [v_depth v_obj].
      split; [reflexivity|]. split.
      * rewrite firstn_app, Q3, Nat.sub_diag. cbn [firstn].
        rewrite app_nil_r, firstn_self by exact Q3. exact Q1.
      * rewrite firstn_all2 by (rewrite app_length; lia).
        rewrite at_app, Q2. exact A1.
    + inversion LA as [[A1 A2]].
      apply IHp; [exact A2|]. intros p' J. apply B. right. exact J.
  - apply IH.
    + intros q' l' J. apply AR. right. exact J.
    + intros q' x' J. apply AO. right. exact J.
    + intros q' J. apply LQ. right. exact J.
    + lia.
    + lia.
    + intros x' p J. apply BELOW. right. exact J.
Qed.

Lemma rows_unique : forall vs ps r1 r2,
  Forall2 (row vs) ps r1 -> Forall2 (row vs) ps r2 -> r1 = r2.
Proof.
  intros vs ps r1 r2 F. revert r2.
  induction F as [|p x ps r1 H F IH]; intros r2 F2; inversion F2; subst;
    [reflexivity|].
  f_equal; [eapply row_unique; eassumption|]. apply IH. assumption.
Qed.

Section Flatten.
Variable iterate : Z -> option (list obj).

(** The computation between line 416 and line 427 of view.py. *)
Definition flatten_core (f t : nat) (v : view) : M view :=
  bind (map1 (fun _ => new_list) true (View (v_obj v) f)) (fun res =>
  bind (map2 append true res (View (v_obj v) t)) (fun _ =>
  bind (explode iterate 1 res) (fun tuples =>
  ret (View (v_obj tuples) (v_depth v - (t - f) + 1))))).

Lemma flatten_core_ok : forall f t v h,
  good v -> f <= t -> t <= v_depth v ->
  exists h' r, flatten_core f t v h = (h', Ok r) /\
    heap_grew h h' /\
    v_depth r = v_depth v - (t - f) + 1 /\ good r /\
    same_shape f (v_obj r) (v_obj v) /\
    (forall p x, length p = f -> at_ p (v_obj v) = Some x ->
       at_ p (v_obj r) = Some (PTuple (leaves (t - f) x))).
Proof.
  intros f t v h G Lft Lt. destruct v as [o d]. cbn [v_depth v_obj] in *.
  unfold good in G. cbn [v_depth v_obj] in G.
  assert (Sf : shaped f o) by (eapply shaped_below; [|exact G]; lia).
  assert (St : shaped t o) by (eapply shaped_below; [|exact G]; lia).
  set (b := t - f) in *. assert (Et : t = f + b) by lia. clearbody b. subst t.
  unfold flatten_core. cbn [v_obj v_depth].
  (* the fresh lists *)
  destruct (views_run [View o f] (View o f)) as [rows1 [P1 R1]].
  { constructor; [exact Sf|constructor]. }
  { apply aligned_one. exact Sf. }
  { left. reflexivity. }
  { rewrite depth_one. reflexivity. }
  rewrite depth_one in P1, R1. cbn [v_depth v_obj] in P1, R1.
  assert (F1 : Forall (fun xs => exists x, xs = [x]) rows1).
  { apply Forall_forall. intros xs J.
    destruct (Forall2_in_r _ _ _ _ _ _ P1 J) as [p [_ Rw]].
    apply row_one in Rw. destruct Rw as [x [-> _]]. exists x. reflexivity. }
  assert (N1 : length rows1 = length (leaves f o)).
  { rewrite <- positions_length. symmetry. eapply Forall2_length_eq.
    exact P1. }
  specialize (R1 (fun1 (fun _ => new_list)) true h).
  rewrite new_lists in R1 by exact F1. rewrite N1 in R1.
  destruct R1 as [r [E1 [Sr [Pr Lr]]]].
  unfold bind at 1. rewrite map1_views, E1. cbn [v_depth v_obj].
  set (n := length (leaves f o)) in *.
  set (h1 := h ++ repeat [] n) in *.
  (* appending *)
  assert (A2 : aligned [View r f; View o (f + b)]).
  { apply shape_aligned; [exact Sr|exact St|]. cbn [v_depth v_obj].
    replace (Nat.min f (f + b)) with f by lia.
    apply positions_same_shape; assumption. }
  destruct (views_run [View r f; View o (f + b)] (View o (f + b)))
    as [rows2 [P2 R2]].
  { repeat constructor; [exact Sr|exact St]. }
  { exact A2. }
  { right. left. reflexivity. }
  { rewrite depth_two. cbn [v_depth]. lia. }
  rewrite depth_two in P2, R2. cbn [v_depth v_obj] in P2, R2.
  replace (Nat.max f (f + b)) with (f + b) in P2, R2 by lia.
  assert (rows2 = fill_rows b (combine (leaves f r) (leaves f o))).
  { eapply rows_unique; [exact P2|].
    apply fill_rows_spec; [exact Sr|exact St|]. apply Pr. lia. }
  subst rows2. rewrite Lr in R2.
  specialize (R2 (fun2 append) true h1).
  pose proof (append_all b (leaves f o) h) as AA. fold n in AA. fold h1 in AA.
  rewrite AA in R2.
  destruct R2 as [r2 [E2 _]].
  unfold bind at 1. rewrite map2_views, E2.
  set (h2 := h ++ map (leaves b) (leaves f o)) in *.
  (* reading back *)
  assert (Gr : good (View r f)) by exact Sr.
  assert (REF : forall p x, length p = f -> at_ p o = Some x ->
    exists l, at_ p r = Some (PRef l) /\
              nth_error h2 l = Some (leaves b x)).
  { intros p x Lp X.
    pose proof (at_full f o p x Sf Lp X) as J.
    apply In_nth_error in J. destruct J as [j J].
    assert (Jp : nth_error (positions f o) j = Some p /\
                 nth_error (leaves f o) j = Some x).
    { clear - J. revert J. generalize (positions f o) as l, (leaves f o) as m.
      intros l. revert j. induction l as [|a l IH]; intros [|j] [|c m] J;
        cbn in J; try discriminate.
      - inversion J; subst. split; reflexivity.
      - cbn. apply IH. exact J. }
    destruct Jp as [J1 J2].
    assert (JL : j < n) by (apply nth_error_Some; congruence).
    exists (length h + j). split.
    - apply (at_positions f r (positions f o)
               (map PRef (seq (length h) n))).
      + apply Pr. lia.
      + exact Lr.
      + apply nth_error_In with (n := j).
        assert (JS : nth_error (map PRef (seq (length h) n)) j =
                     Some (PRef (length h + j))).
        { rewrite nth_error_map, nth_error_nth' with (d := 0)
            by (rewrite seq_length; exact JL).
          rewrite seq_nth by exact JL. reflexivity. }
        clear - J1 JS. revert J1 JS.
        generalize (positions f o) as l, (map PRef (seq (length h) n)) as m.
        intros l. revert j. generalize (length h). intros k j.
        generalize (PRef (k + j)) as z. intros z.
        revert j. induction l as [|a l IH]; intros [|j] [|c m] J K;
          cbn in J, K |- *; try discriminate.
        * congruence.
        * apply IH; assumption.
    - unfold h2. rewrite nth_error_app2 by lia.
      replace (length h + j - length h) with j by lia.
      rewrite nth_error_map, J2. reflexivity. }
  assert (SH1 : same_shape f r o)
    by (apply positions_same_shape; assumption).
  destruct (explode_one_total iterate (View r f) h2 Gr) as [fin E3].
  { cbn [v_depth v_obj]. intros p x Lp X.
    destruct (SH1 p) as [Q _]; [lia|]. destruct Q as [y Y];
      [eexists; exact X|].
    destruct (REF p y Lp Y) as [l [L1 L2]].
    assert (x = PRef l) by congruence. subst x. exists (leaves b y).
    exact L2. }
  destruct (explode_one_ok iterate (View r f) _ _ _ Gr E3)
    as [_ [D3 [G3 [S3 IT3]]]]. cbn [v_depth v_obj] in *.
  unfold bind, explode. change (1 <? 0)%Z with false. cbn iota.
  change (Z.to_nat 1) with 1. rewrite E3. unfold ret.
  exists h2, (View (v_obj fin) (d - b + 1)).
  split; [replace (f + b - f) with b by lia; reflexivity|].
  split; [eexists; reflexivity|].
  cbn [v_depth v_obj]. split; [reflexivity|].
  assert (ITEM : forall p x, length p = f -> at_ p o = Some x ->
            at_ p (v_obj fin) = Some (PTuple (leaves b x))).
  { intros p x Lp X. destruct (REF p x Lp X) as [l [L1 L2]].
    destruct (IT3 p (PRef l) Lp L1) as [xs [X1 X2]].
    cbn in X1. congruence. }
  assert (SHF : same_shape f (v_obj fin) o)
    by (eapply same_shape_trans; [exact S3|exact SH1]).
  split; [|split; [exact SHF|exact ITEM]].
  unfold good. cbn [v_depth v_obj].
  replace (d - b + 1) with (f + S (d - (f + b))) by lia.
  apply shaped_from.
  - eapply shaped_below; [|exact G3]. lia.
  - intros p x Lp X. destruct (SHF p) as [Q _]; [lia|].
    destruct Q as [y Y]; [eexists; exact X|].
    pose proof (ITEM p y Lp Y) as Z0.
    assert (x = PTuple (leaves b y)) by congruence. subst x.
    apply shaped_tuple. apply leaves_shaped.
    apply (shaped_at p _ o); [|exact Y].
    replace (length p + (b + (d - (f + b)))) with d by lia. exact G.
Qed.

Lemma flatten_from_clipped : forall z d,
  flatten_from z d = Z.of_nat (clipped z d).
Proof.
  intros z d. unfold flatten_from, clipped.
  destruct (z <? 0)%Z eqn:E; lia.
Qed.

Lemma flatten_to_clipped : forall f t d,
  flatten_to (Z.of_nat f) t d = Z.of_nat (last_dim f t d).
Proof.
  intros f t d. unfold flatten_to, last_dim, clipped.
  destruct t as [z|]; [|reflexivity]. destruct (z <? 0)%Z eqn:E; lia.
Qed.

Lemma clipped_le : forall z d, clipped z d <= d.
Proof. intros. unfold clipped. destruct (z <? 0)%Z; lia. Qed.

Lemma flatten_ok : forall from_dim to_dim v h,
  good v ->
  let d := v_depth v in
  let f := clipped from_dim d in
  let t := last_dim f to_dim d in
  exists h' r, flatten iterate from_dim to_dim v h = (h', Ok r) /\
    heap_grew h h' /\
    v_depth r = d - (t - f) + 1 /\ good r /\
    same_shape f (v_obj r) (v_obj v) /\
    (forall p x, length p = f -> at_ p (v_obj v) = Some x ->
       at_ p (v_obj r) = Some (PTuple (leaves (t - f) x))).
Proof.
  intros from_dim to_dim v h G d f t.
  assert (Lf : f <= d) by apply clipped_le.
  assert (Lt : f <= t /\ t <= d).
  { unfold t, last_dim. destruct to_dim as [z|]; [|lia].
    pose proof (clipped_le z d). lia. }
  unfold flatten. fold d. rewrite flatten_from_clipped. fold f.
  rewrite flatten_to_clipped. fold t. cbv zeta.
  destruct (Z.of_nat f + 1 =? Z.of_nat t)%Z eqn:E1.
  - assert (t = f + 1) by lia. exists h, v.
    split; [reflexivity|]. split; [exists []; symmetry; apply app_nil_r|].
    split; [fold d; lia|]. split; [exact G|].
    split; [intros p Lp; tauto|].
    intros p x Lp X. destruct (good_tuple v p x G) as [xs ->];
      [fold d; lia|exact X|].
    rewrite X. replace (t - f) with 1 by lia. cbn [leaves].
    rewrite flat_map_concat_map. f_equal. f_equal.
    clear. induction xs as [|x xs IH]; cbn; [reflexivity|].
    f_equal. exact IH.
  - replace (Z.of_nat d - Z.of_nat f)%Z with (Z.of_nat (d - f)) by lia.
    replace (Z.of_nat d - Z.of_nat t)%Z with (Z.of_nat (d - t)) by lia.
    rewrite !implode_ok by (fold d; lia). fold d.
    replace (d - (d - f)) with f by lia.
    replace (d - (d - t)) with t by lia.
    destruct (flatten_core_ok f t v h G) as [h' [r [E R]]];
      [lia|fold d; lia|].
    exists h', r. split; [|exact R]. rewrite <- E.
    unfold flatten_core. fold d. unfold bind at 1 2, lift at 1 2.
    replace (Z.to_nat (Z.of_nat d - (Z.of_nat t - Z.of_nat f) + 1))
      with (d - (t - f) + 1) by lia.
    reflexivity.
Qed.

End Flatten.
