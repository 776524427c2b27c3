(** * Proofs about the operations on views. *)

From Coq Require Import List Arith Bool ZArith Lia ZifyBool Permutation.
From Verif Require Import ViewModel ViewSpec ViewProofs.
Import ListNotations.
Local Open Scope nat_scope.
Local Arguments Nat.leb : simpl never.
Local Arguments Nat.ltb : simpl never.
Local Arguments Nat.eqb : simpl never.
Local Arguments Nat.sub : simpl never.

Lemma nth_error_ext_eq : forall A (l l' : list A),
  length l = length l' ->
  (forall i a b, nth_error l i = Some a -> nth_error l' i = Some b -> a = b) ->
  l = l'.
Proof.
  induction l as [|a l IH]; intros [|b l'] L E; cbn in L; try discriminate;
    [reflexivity|].
  f_equal; [apply (E 0); reflexivity|].
  apply IH; [lia|]. intros i. apply (E (S i)).
Qed.

(** ** Maps over one and two views *)

Definition two (g : obj -> obj -> outcome obj) (xs : list obj) : outcome obj :=
  match xs with [x; y] => g x y | _ => Raise Unreachable end.

Definition one (g : obj -> outcome obj) (xs : list obj) : outcome obj :=
  match xs with [x] => g x | _ => Raise Unreachable end.

Definition fun2 (F : obj -> obj -> M obj) (args : list obj) : M obj :=
  match args with [x; y] => F x y | _ => raise Unreachable end.

Definition fun1 (F : obj -> M obj) (args : list obj) : M obj :=
  match args with [x] => F x | _ => raise Unreachable end.

Lemma row_two : forall v w p xs,
  row [v; w] p xs <->
  exists x y, xs = [x; y] /\
    at_ (firstn (v_depth v) p) (v_obj v) = Some x /\
    at_ (firstn (v_depth w) p) (v_obj w) = Some y.
Proof.
  intros. unfold row. split.
  - intros H. inversion H as [|? x ? ? H1 H2]; subst.
    inversion H2 as [|? y ? ? H3 H4]; subst. inversion H4; subst.
    exists x, y. auto.
  - intros [x [y [-> [H1 H2]]]]. repeat constructor; assumption.
Qed.

Lemma row_one : forall v p xs,
  row [v] p xs <->
  exists x, xs = [x] /\ at_ (firstn (v_depth v) p) (v_obj v) = Some x.
Proof.
  intros. unfold row. split.
  - intros H. inversion H as [|? x ? ? H1 H2]; subst.
    inversion H2; subst. exists x. auto.
  - intros [x [-> H1]]. repeat constructor; assumption.
Qed.

Lemma depth_two : forall v w,
  depth_of [v; w] = Nat.max (v_depth v) (v_depth w).
Proof. intros. unfold depth_of. cbn. lia. Qed.

Lemma depth_one : forall v, depth_of [v] = v_depth v.
Proof. intros. unfold depth_of. cbn. lia. Qed.

Lemma map2_views : forall F inc v w h,
  map2 F inc v w h =
  match on_views (fun2 F) inc [v; w] h with
  | (h', Ok o) => (h', Ok (View o (Nat.max (v_depth v) (v_depth w))))
  | (h', Raise e) => (h', Raise e)
  end.
Proof. reflexivity. Qed.

Lemma map1_views : forall F inc v h,
  map1 F inc v h =
  match on_views (fun1 F) inc [v] h with
  | (h', Ok o) => (h', Ok (View o (v_depth v)))
  | (h', Raise e) => (h', Raise e)
  end.
Proof. reflexivity. Qed.

Lemma map2_ok : forall F g inc v w h h' r,
  (forall x y, F x y h = (h, g x y)) ->
  map2 F inc v w h = (h', Ok r) ->
  h' = h /\ good v /\ good w /\ aligned [v; w] /\
  v_depth r = Nat.max (v_depth v) (v_depth w) /\ good r /\
  (forall p, length p <= v_depth r ->
     ((exists o, at_ p (v_obj r) = Some o) <->
      (exists x, at_ (firstn (v_depth v) p) (v_obj v) = Some x) /\
      (exists y, at_ (firstn (v_depth w) p) (v_obj w) = Some y))) /\
  (forall p z, length p = v_depth r ->
     (at_ p (v_obj r) = Some z <->
      exists x y, at_ (firstn (v_depth v) p) (v_obj v) = Some x /\
                  at_ (firstn (v_depth w) p) (v_obj w) = Some y /\
                  applied (two g) inc [x; y] z)).
Proof.
  intros F g inc v w h h' r PF E. rewrite map2_views in E.
  destruct (on_views _ inc [v; w] h) as [h1 [o|e]] eqn:O; [|discriminate].
  assert (h1 = h' /\ r = View o (Nat.max (v_depth v) (v_depth w)))
    by (split; congruence).
  destruct H as [-> ->]. clear E.
  apply views_pure_ok with (g := two g) in O; [|discriminate|].
  2:{ intros [|x [|y [|z xs]]]; try reflexivity. apply PF. }
  rewrite depth_two in O. destruct O as [Eh [G [A [S0 [P1 P2]]]]].
  inversion G as [|? ? G1 G2]; subst. inversion G2 as [|? ? G3 G4]; subst.
  cbn [v_depth v_obj].
  split; [reflexivity|]. split; [exact G1|]. split; [exact G3|].
  split; [exact A|]. split; [reflexivity|]. split; [exact S0|]. split.
  - intros p L. rewrite (P1 p L). split.
    + intros [xs R]. apply row_two in R. destruct R as [x [y [-> [R1 R2]]]].
      split; eexists; eassumption.
    + intros [[x X] [y Y]]. exists [x; y]. apply row_two. exists x, y. auto.
  - intros p z L. rewrite (P2 p z L). split.
    + intros [xs [R B]]. apply row_two in R.
      destruct R as [x [y [-> [R1 R2]]]]. exists x, y. auto.
    + intros [x [y [X [Y B]]]]. exists [x; y]. split; [|exact B].
      apply row_two. exists x, y. auto.
Qed.

Lemma map2_total : forall F g inc v w h,
  (forall x y, F x y h = (h, g x y)) ->
  good v -> good w -> aligned [v; w] ->
  (forall p x y, length p = Nat.max (v_depth v) (v_depth w) ->
     at_ (firstn (v_depth v) p) (v_obj v) = Some x ->
     at_ (firstn (v_depth w) p) (v_obj w) = Some y ->
     exists z, applied (two g) inc [x; y] z) ->
  exists r, map2 F inc v w h = (h, Ok r).
Proof.
  intros F g inc v w h PF G1 G2 A T.
  destruct (views_pure_total [v; w]
    (fun2 F) (two g) inc h) as [o O].
  - discriminate.
  - intros [|x [|y [|z xs]]]; try reflexivity. apply PF.
  - repeat constructor; assumption.
  - exact A.
  - intros p xs L R. rewrite depth_two in L. apply row_two in R.
    destruct R as [x [y [-> [R1 R2]]]]. eapply T; eassumption.
  - exists (View o (Nat.max (v_depth v) (v_depth w))).
    rewrite map2_views, O. reflexivity.
Qed.

Lemma aligned_one : forall v, good v -> aligned [v].
Proof.
  intros v G u w p xs [<-|[]] [<-|[]] L _ E. exists xs. auto.
Qed.

Lemma map1_ok : forall F g inc v h h' r,
  (forall x, F x h = (h, g x)) ->
  map1 F inc v h = (h', Ok r) ->
  h' = h /\ good v /\ v_depth r = v_depth v /\ good r /\
  (forall p, length p <= v_depth v ->
     ((exists o, at_ p (v_obj r) = Some o) <->
      (exists x, at_ p (v_obj v) = Some x))) /\
  (forall p z, length p = v_depth v ->
     (at_ p (v_obj r) = Some z <->
      exists x, at_ p (v_obj v) = Some x /\ applied (one g) inc [x] z)).
Proof.
  intros F g inc v h h' r PF E. rewrite map1_views in E.
  destruct (on_views _ inc [v] h) as [h1 [o|e]] eqn:O; [|discriminate].
  assert (h1 = h' /\ r = View o (v_depth v)) by (split; congruence).
  destruct H as [-> ->]. clear E.
  apply views_pure_ok with (g := one g) in O; [|discriminate|].
  2:{ intros [|x [|y xs]]; try reflexivity. apply PF. }
  rewrite depth_one in O. destruct O as [Eh [G [A [S0 [P1 P2]]]]].
  inversion G as [|? ? G1 G2]; subst.
  cbn [v_depth v_obj].
  split; [reflexivity|]. split; [exact G1|].
  split; [reflexivity|]. split; [exact S0|]. split.
  - intros p L. rewrite (P1 p L). split.
    + intros [xs R]. apply row_one in R. destruct R as [x [-> R]].
      rewrite firstn_all2 in R by exact L. eexists; eassumption.
    + intros [x X]. exists [x]. apply row_one. exists x.
      rewrite firstn_all2 by exact L. auto.
  - intros p z L. rewrite (P2 p z L). split.
    + intros [xs [R B]]. apply row_one in R. destruct R as [x [-> R]].
      rewrite firstn_all2 in R by lia. exists x. auto.
    + intros [x [X B]]. exists [x]. split; [|exact B].
      apply row_one. exists x. rewrite firstn_all2 by lia. auto.
Qed.

Lemma map1_total : forall F g inc v h,
  (forall x, F x h = (h, g x)) -> good v ->
  (forall p x, length p = v_depth v -> at_ p (v_obj v) = Some x ->
     exists z, applied (one g) inc [x] z) ->
  exists r, map1 F inc v h = (h, Ok r).
Proof.
  intros F g inc v h PF G1 T.
  destruct (views_pure_total [v]
    (fun1 F) (one g) inc h) as [o O].
  - discriminate.
  - intros [|x [|y xs]]; try reflexivity. apply PF.
  - repeat constructor; assumption.
  - apply aligned_one; assumption.
  - intros p xs L R. rewrite depth_one in L. apply row_one in R.
    destruct R as [x [-> R]]. rewrite firstn_all2 in R by lia.
    eapply T; eassumption.
  - eexists. rewrite map1_views, O. reflexivity.
Qed.

Lemma good_tuple : forall v p o,
  good v -> length p < v_depth v -> at_ p (v_obj v) = Some o ->
  exists xs, o = PTuple xs.
Proof.
  intros v p o G L E. unfold good in G.
  replace (v_depth v) with (length p + S (v_depth v - length p - 1)) in G
    by lia.
  pose proof (shaped_at _ _ _ _ G E) as [xs [-> _]]. exists xs. reflexivity.
Qed.

Lemma applied_not_none : forall g inc xs y,
  ~ In PNone xs -> (applied g inc xs y <-> g xs = Ok y).
Proof.
  intros g inc xs y N0. unfold applied. destruct inc; [tauto|].
  split; [intros [[X _]|[_ X]]; [contradiction|exact X]|].
  intros X. right. split; assumption.
Qed.

(** ** select *)

Lemma select_loop_spec : forall xs fs ys,
  select_loop xs fs = Ok ys <->
  length xs = length fs /\ Forall mask fs /\ ys = kept xs fs.
Proof.
  induction xs as [|x xs IH]; intros [|b fs] ys; cbn [select_loop].
  - split; [intros E; repeat split; [constructor|cbn; congruence]|].
    intros [_ [_ ->]]. reflexivity.
  - split; [discriminate|]. intros [L _]. discriminate.
  - split; [discriminate|]. intros [L _]. discriminate.
  - destruct b; cbn [is_present is_none].
    + rewrite IH. cbn. split; intros [L [F E]]; repeat split; try lia; auto.
      * constructor; [right; reflexivity|exact F].
      * inversion F; assumption.
    + destruct (select_loop xs fs) as [zs|e] eqn:S0.
      * apply IH in S0. destruct S0 as [L [F E]]. split.
        -- intros X. cbn. split; [lia|]. split.
           ++ constructor; [left; reflexivity|exact F].
           ++ congruence.
        -- intros [_ [_ ->]]. cbn. congruence.
      * split; [discriminate|]. intros [L [F E]]. inversion F; subst.
        assert (X : select_loop xs fs = Ok (kept xs fs)).
        { apply IH. cbn in L. split; [lia|]. split; [assumption|reflexivity]. }
        congruence.
    + split; [discriminate|]. intros [_ [F _]]. inversion F as [|? ? [X|X] _];
        discriminate.
    + split; [discriminate|]. intros [_ [F _]]. inversion F as [|? ? [X|X] _];
        discriminate.
    + split; [discriminate|]. intros [_ [F _]]. inversion F as [|? ? [X|X] _];
        discriminate.
Qed.

Lemma inverse_loop_spec : forall fs xs ys,
  inverse_loop xs fs = Ok (ys, []) <->
  Forall mask fs /\ length ys = length fs /\ kept ys fs = xs /\
  masked ys fs = ys.
Proof.
  assert (GEN : forall fs xs ys rest,
    inverse_loop xs fs = Ok (ys, rest) <->
    Forall mask fs /\ length ys = length fs /\ kept ys fs ++ rest = xs /\
    masked ys fs = ys).
  { induction fs as [|b fs IH]; intros xs ys rest; cbn [inverse_loop].
    - split.
      + intros E. assert (ys = [] /\ rest = xs) by (split; congruence).
        destruct H as [-> ->]. repeat split. constructor.
      + intros [_ [L [E _]]]. destruct ys; [|discriminate]. cbn in E.
        congruence.
    - destruct b; cbn [is_present is_none].
      + destruct (inverse_loop xs fs) as [[zs r]|e] eqn:E.
        * split.
          -- intros X. assert (ys = PNone :: zs /\ r = rest)
               by (split; congruence).
             destruct H as [-> ->]. apply IH in E.
             destruct E as [F [L [K Q]]].
             split; [constructor; [right; reflexivity|exact F]|].
             cbn. split; [lia|]. split; [exact K|]. congruence.
          -- intros [F [L [K Q]]]. destruct ys as [|y ys]; [discriminate|].
             cbn in L, K, Q. inversion Q as [[Q1 Q2]]. rewrite Q2.
             inversion F; subst.
             assert (X : inverse_loop (kept ys fs ++ rest) fs = Ok (ys, rest)).
             { apply IH. repeat split; try assumption. lia. }
             congruence.
        * split; [discriminate|]. intros [F [L [K Q]]].
          destruct ys as [|y ys]; [discriminate|].
          cbn in L, K, Q. inversion Q as [[Q1 Q2]]. inversion F; subst.
          assert (X : inverse_loop (kept ys fs ++ rest) fs = Ok (ys, rest)).
          { apply IH. repeat split; try assumption. lia. }
          congruence.
      + destruct xs as [|x xs].
        * split; [discriminate|]. intros [F [L [K Q]]].
          destruct ys as [|y ys]; [discriminate|]. cbn in K. discriminate.
        * destruct (inverse_loop xs fs) as [[zs r]|e] eqn:E.
          -- split.
             ++ intros X. assert (ys = x :: zs /\ r = rest)
                  by (split; congruence).
                destruct H as [-> ->]. apply IH in E.
                destruct E as [F [L [K Q]]].
                split; [constructor; [left; reflexivity|exact F]|].
                cbn. split; [lia|]. split; congruence.
             ++ intros [F [L [K Q]]]. destruct ys as [|y ys]; [discriminate|].
                cbn in L, K, Q. inversion K as [[K1 K2]].
                inversion Q as [[Q2]].
                inversion F; subst.
                assert (X : inverse_loop (kept ys fs ++ rest) fs
                            = Ok (ys, rest)).
                { apply IH. repeat split; try assumption. lia. }
                rewrite Q2. congruence.
          -- split; [discriminate|]. intros [F [L [K Q]]].
             destruct ys as [|y ys]; [discriminate|].
             cbn in L, K, Q. inversion K as [[K1 K2]].
             inversion Q as [[Q2]]. inversion F; subst.
             assert (X : inverse_loop (kept ys fs ++ rest) fs
                         = Ok (ys, rest)).
             { apply IH. repeat split; try assumption. lia. }
             congruence.
      + split; [discriminate|]. intros [F _].
        inversion F as [|? ? [X|X] _]; discriminate.
      + split; [discriminate|]. intros [F _].
        inversion F as [|? ? [X|X] _]; discriminate.
      + split; [discriminate|]. intros [F _].
        inversion F as [|? ? [X|X] _]; discriminate. }
  intros fs xs ys. rewrite GEN, app_nil_r. tauto.
Qed.

Lemma aligned_swap : forall v w, aligned [v; w] -> aligned [w; v].
Proof.
  intros v w A a b p xs J1 J2. apply A; cbn in *; tauto.
Qed.

Lemma aligned_two : forall v w p,
  good v -> good w -> aligned [v; w] ->
  length p <= v_depth v -> (exists x, at_ p (v_obj v) = Some x) ->
  exists y, at_ (firstn (v_depth w) p) (v_obj w) = Some y.
Proof.
  intros v w p G1 G2 A. apply (aligned_at [v; w]).
  - repeat constructor; assumption.
  - exact A.
  - left. reflexivity.
  - right. left. reflexivity.
Qed.

Lemma shaped_from : forall d k o,
  shaped d o ->
  (forall p x, length p = d -> at_ p o = Some x -> shaped k x) ->
  shaped (d + k) o.
Proof.
  induction d as [|d IH]; intros k o S0 H.
  - apply (H []); reflexivity.
  - destruct S0 as [xs [-> F]]. cbn [Nat.add]. apply shaped_tuple.
    rewrite Forall_forall in F |- *. intros x J.
    apply IH; [apply F; exact J|]. intros p y L A.
    apply In_nth_error in J. destruct J as [i N0].
    apply (H (i :: p)); [cbn; lia|]. cbn. rewrite N0. exact A.
Qed.

Lemma kept_incl : forall xs fs, incl (kept xs fs) xs.
Proof.
  induction xs as [|x xs IH]; intros [|b fs] y J; cbn in J; try tauto.
  destruct b; cbn in J;
    try (right; eapply IH; exact J).
  destruct J as [->|J]; [left; reflexivity|right; eapply IH; exact J].
Qed.

Definition gselect (x y : obj) : outcome obj :=
  match items x with
  | Raise e => Raise e
  | Ok xs =>
      match items y with
      | Raise e => Raise e
      | Ok fs => match select_loop xs fs with
                 | Ok res => Ok (PTuple res)
                 | Raise e => Raise e
                 end
      end
  end.

Lemma select_impl_pure : forall x y h, select_impl x y h = (h, gselect x y).
Proof.
  intros x y h. unfold select_impl, gselect, bind, lift, ret.
  destruct (items x) as [xs|e]; [|reflexivity].
  destruct (items y) as [fs|e]; [|reflexivity].
  destruct (select_loop xs fs); reflexivity.
Qed.

Definition gconst (x y : obj) : outcome obj :=
  if is_present y then Ok x else if is_none y then Ok (PTuple [])
  else Raise NotMask.

Lemma select_constant_pure : forall x y h,
  select_constant x y h = (h, gconst x y).
Proof.
  intros x y h. unfold select_constant, gconst.
  destruct (is_present y); [reflexivity|].
  destruct (is_none y); reflexivity.
Qed.

Lemma implode_ok : forall n v, n <= v_depth v ->
  implode (Z.of_nat n) v = Ok (View (v_obj v) (v_depth v - n)).
Proof.
  intros n v L. unfold implode.
  replace (Z.of_nat n <? 0)%Z with false by lia.
  replace (Z.of_nat n <=? Z.of_nat (v_depth v))%Z with true by lia.
  rewrite Nat2Z.id. reflexivity.
Qed.

Lemma select_list : forall fltr e v h,
  v_depth fltr <= v_depth v -> 0 < v_depth fltr ->
  (e = true -> v_depth fltr = v_depth v) ->
  select fltr e v h =
  match map2 select_impl false (View (v_obj v) (v_depth fltr - 1))
          (View (v_obj fltr) (v_depth fltr - 1)) h with
  | (h', Ok res) => (h', Ok (View (v_obj res) (v_depth v)))
  | (h', Raise x) => (h', Raise x)
  end.
Proof.
  intros fltr e v h L P E. unfold select.
  replace (v_depth v <? v_depth fltr) with false by lia.
  set (sd := if e then _ else _).
  assert (SD : sd = Z.of_nat (v_depth fltr - 1)).
  { unfold sd. destruct e; [rewrite <- E by reflexivity|]; lia. }
  clearbody sd. subst sd.
  replace (Z.of_nat (v_depth fltr - 1) <? 0)%Z with false by lia.
  replace (Z.of_nat (v_depth v) - Z.of_nat (v_depth fltr - 1))%Z
    with (Z.of_nat (v_depth v - (v_depth fltr - 1))) by lia.
  rewrite implode_ok by lia.
  replace (v_depth v - (v_depth v - (v_depth fltr - 1)))
    with (v_depth fltr - 1) by lia.
  unfold bind at 1, lift at 1.
  replace (Z.of_nat (v_depth fltr - 1) <? Z.of_nat (v_depth fltr))%Z
    with true by lia.
  replace (Z.of_nat (v_depth fltr) =? Z.of_nat (v_depth fltr - 1) + 1)%Z
    with true by lia.
  cbn [negb]. change 1%Z with (Z.of_nat 1). rewrite implode_ok by lia.
  unfold bind, lift. reflexivity.
Qed.

Lemma select_const : forall fltr v h,
  v_depth fltr < v_depth v ->
  select fltr true v h =
  match map2 select_constant true (View (v_obj v) (v_depth v - 1)) fltr h with
  | (h', Ok res) => (h', Ok (View (v_obj res) (v_depth v)))
  | (h', Raise x) => (h', Raise x)
  end.
Proof.
  intros fltr v h L. unfold select.
  replace (v_depth v <? v_depth fltr) with false by lia.
  replace (Z.of_nat (v_depth v) - 1)%Z with (Z.of_nat (v_depth v - 1)) by lia.
  replace (Z.of_nat (v_depth v - 1) <? 0)%Z with false by lia.
  replace (Z.of_nat (v_depth v) - Z.of_nat (v_depth v - 1))%Z
    with (Z.of_nat 1) by lia.
  rewrite implode_ok by lia.
  unfold bind at 1, lift at 1.
  replace (Z.of_nat (v_depth v - 1) <? Z.of_nat (v_depth fltr))%Z
    with false by lia.
  reflexivity.
Qed.

(** The ways [select] can fail before looking at the data. *)
Lemma select_cases : forall fltr e v h h' r,
  select fltr e v h = (h', Ok r) ->
  v_depth fltr <= v_depth v /\ 0 < v_depth v /\
  (e = false -> 0 < v_depth fltr).
Proof.
  intros fltr e v h h' r E. unfold select in E.
  destruct (v_depth v <? v_depth fltr) eqn:L; [discriminate|].
  destruct (_ <? 0)%Z eqn:S0 in E.
  - destruct (v_depth v =? 0); discriminate.
  - split; [lia|]. destruct e; split; try discriminate; lia.
Qed.

Lemma firstn_self : forall (p : list nat) n, length p = n -> firstn n p = p.
Proof. intros p n <-. apply firstn_all. Qed.

Lemma select_ok_list : forall fltr e v h h' r,
  good v -> good fltr ->
  v_depth fltr <= v_depth v -> 0 < v_depth fltr ->
  (e = true -> v_depth fltr = v_depth v) ->
  select fltr e v h = (h', Ok r) ->
  h' = h /\ aligned [v; fltr] /\ v_depth r = v_depth v /\ good r /\
  same_shape (v_depth fltr - 1) (v_obj r) (v_obj v) /\
  (forall p xs, length p = v_depth fltr - 1 ->
     at_ p (v_obj v) = Some (PTuple xs) ->
     exists fs, filters_at fltr p (length xs) fs /\ Forall mask fs /\
                at_ p (v_obj r) = Some (PTuple (kept xs fs))).
Proof.
  intros fltr e v h h' r Gv Gf L P E H.
  rewrite select_list in H by assumption. clear e E.
  set (sd := v_depth fltr - 1) in *.
  destruct (map2 _ _ _ _ h) as [h1 [res|x]] eqn:M2; [|discriminate].
  assert (h1 = h' /\ r = View (v_obj res) (v_depth v)) by (split; congruence).
  destruct H0 as [-> ->]. clear H.
  apply map2_ok with (g := gselect) in M2;
    [|intros; apply select_impl_pure].
  cbn [v_depth v_obj] in M2. rewrite Nat.max_id in M2.
  destruct M2 as [-> [G1 [G2 [A [D [G3 [P1 P2]]]]]]].
  rewrite D in P1, P2. unfold good in G3. rewrite D in G3.
  cbn [v_obj v_depth].
  assert (ITEMS : forall p xs, length p = sd ->
     at_ p (v_obj v) = Some (PTuple xs) ->
     exists fs, at_ p (v_obj fltr) = Some (PTuple fs) /\
       length xs = length fs /\ Forall mask fs /\
       at_ p (v_obj res) = Some (PTuple (kept xs fs))).
  { intros p xs Lp X.
    destruct (aligned_two _ _ p G1 G2 A) as [y Y].
    - cbn. lia.
    - eexists. exact X.
    - cbn [v_depth v_obj] in Y. rewrite firstn_self in Y by exact Lp.
      destruct (good_tuple fltr p y Gf) as [fs ->]; [lia|exact Y|].
      destruct (P1 p) as [_ P1b]; [lia|].
      rewrite firstn_self in P1b by exact Lp.
      destruct P1b as [o O]; [split; eexists; eassumption|].
      assert (O2 := O). apply P2 in O2; [|exact Lp].
      rewrite firstn_self in O2 by exact Lp.
      destruct O2 as [x' [y' [X' [Y' B]]]].
      assert (x' = PTuple xs) by congruence.
      assert (y' = PTuple fs) by congruence. subst x' y'.
      apply applied_not_none in B;
        [|intros [J|[J|[]]]; discriminate].
      cbn in B. destruct (select_loop xs fs) as [zs|ex] eqn:SL;
        [|discriminate].
      apply select_loop_spec in SL. destruct SL as [SL1 [SL2 ->]].
      exists fs. repeat split; try assumption. congruence. }
  split; [reflexivity|].
  assert (AL : forall u w q xs, (u = v /\ w = fltr) \/ (u = fltr /\ w = v) ->
     length q < v_depth fltr -> at_ q (v_obj u) = Some (PTuple xs) ->
     exists ys, at_ q (v_obj w) = Some (PTuple ys) /\ length ys = length xs).
  { intros u w q xs UW Lq Q.
    destruct (Nat.eq_dec (length q) sd) as [Eq|Ne].
    - destruct UW as [[-> ->]|[-> ->]].
      + destruct (ITEMS q xs Eq Q) as [fs [F1 [F2 _]]].
        exists fs. split; [exact F1|congruence].
      + destruct (aligned_two _ _ q G2 G1 (aligned_swap _ _ A)) as [y Y].
        * cbn. lia.
        * eexists. exact Q.
        * cbn [v_depth v_obj] in Y. rewrite firstn_self in Y by exact Eq.
          destruct (good_tuple v q y Gv) as [ys ->]; [lia|exact Y|].
          destruct (ITEMS q ys Eq Y) as [fs [F1 [F2 _]]].
          exists ys. split; [exact Y|]. congruence.
    - destruct UW as [[-> ->]|[-> ->]].
      + apply (A (View (v_obj v) sd) (View (v_obj fltr) sd) q xs);
          cbn; auto; lia.
      + apply (A (View (v_obj fltr) sd) (View (v_obj v) sd) q xs);
          cbn; auto; lia. }
  split.
  { intros u w q xs [<-|[<-|[]]] [<-|[<-|[]]] L1 L2 Q.
    - exists xs. auto.
    - eapply AL; [left; split; reflexivity|exact L2|exact Q].
    - eapply AL; [right; split; reflexivity|exact L1|exact Q].
    - exists xs. auto. }
  split; [reflexivity|].
  assert (SH : same_shape sd (v_obj res) (v_obj v)).
  { intros p Lp. rewrite P1 by exact Lp. rewrite firstn_all2 by exact Lp.
    split; [tauto|]. intros X. split; [exact X|].
    destruct (aligned_two _ _ p G1 G2 A) as [y Y].
    - exact Lp.
    - exact X.
    - exists y. cbn [v_depth v_obj] in Y. rewrite firstn_all2 in Y by exact Lp.
      exact Y. }
  split; [|split; [exact SH|]].
  - unfold good. cbn [v_depth v_obj].
    replace (v_depth v) with (sd + S (v_depth v - v_depth fltr)) by lia.
    apply shaped_from; [exact G3|]. intros p x Lp X.
    destruct (SH p) as [SH1 _]; [lia|].
    destruct SH1 as [o O]; [eexists; exact X|].
    destruct (good_tuple v p o Gv) as [xs ->]; [lia|exact O|].
    destruct (ITEMS p xs Lp O) as [fs [_ [_ [_ R]]]].
    assert (x = PTuple (kept xs fs)) by congruence. subst x.
    apply shaped_tuple. apply Forall_forall. intros y Y.
    apply kept_incl in Y. apply In_nth_error in Y. destruct Y as [i N0].
    apply (shaped_at (p ++ [i]) _ (v_obj v)).
    + unfold good in Gv. rewrite app_length. cbn [length].
      replace (length p + 1 + (v_depth v - v_depth fltr)) with (v_depth v)
        by lia. exact Gv.
    + rewrite at_app, O. cbn. rewrite N0. reflexivity.
  - intros p xs Lp X. destruct (ITEMS p xs Lp X) as [fs [F1 [F2 [F3 F4]]]].
    exists fs. split; [|auto]. split; [congruence|].
    intros i b B. rewrite firstn_all2 by (rewrite app_length; cbn; lia).
    rewrite at_app, F1. cbn. rewrite B. reflexivity.
Qed.

Lemma kept_present : forall xs, kept xs (repeat PPresent (length xs)) = xs.
Proof. induction xs as [|x xs IH]; cbn; [reflexivity|]. f_equal. exact IH. Qed.

Lemma kept_missing : forall xs, kept xs (repeat PNone (length xs)) = [].
Proof. induction xs as [|x xs IH]; cbn; [reflexivity|exact IH]. Qed.

Lemma select_ok_const : forall fltr v h h' r,
  good v -> good fltr -> v_depth fltr < v_depth v ->
  select fltr true v h = (h', Ok r) ->
  h' = h /\ aligned [v; fltr] /\ v_depth r = v_depth v /\ good r /\
  same_shape (v_depth v - 1) (v_obj r) (v_obj v) /\
  (forall p xs, length p = v_depth v - 1 ->
     at_ p (v_obj v) = Some (PTuple xs) ->
     exists fs, filters_at fltr p (length xs) fs /\ Forall mask fs /\
                at_ p (v_obj r) = Some (PTuple (kept xs fs))).
Proof.
  intros fltr v h h' r Gv Gf L H.
  rewrite select_const in H by assumption.
  set (sd := v_depth v - 1) in *.
  destruct (map2 _ _ _ _ h) as [h1 [res|x]] eqn:M2; [|discriminate].
  assert (h1 = h' /\ r = View (v_obj res) (v_depth v)) by (split; congruence).
  destruct H0 as [-> ->]. clear H.
  apply map2_ok with (g := gconst) in M2;
    [|intros; apply select_constant_pure].
  cbn [v_depth v_obj] in M2.
  replace (Nat.max sd (v_depth fltr)) with sd in M2 by lia.
  destruct M2 as [-> [G1 [G2 [A [D [G3 [P1 P2]]]]]]].
  rewrite D in P1, P2. unfold good in G3. rewrite D in G3.
  cbn [v_obj v_depth].
  assert (FL : forall p, length p <= sd ->
    (exists x, at_ p (v_obj v) = Some x) ->
    exists y, at_ (firstn (v_depth fltr) p) (v_obj fltr) = Some y).
  { intros p Lp X.
    apply (aligned_two _ _ p G1 G2 A).
    - exact Lp.
    - exact X. }
  assert (ITEMS : forall p xs, length p = sd ->
     at_ p (v_obj v) = Some (PTuple xs) ->
     exists b, at_ (firstn (v_depth fltr) p) (v_obj fltr) = Some b /\ mask b /\
       at_ p (v_obj res) =
         Some (PTuple (kept xs (repeat b (length xs))))).
  { intros p xs Lp X. destruct (FL p) as [b B]; [lia|eexists; exact X|].
    exists b. split; [exact B|].
    destruct (P1 p) as [_ P1b]; [lia|].
    rewrite firstn_self in P1b by exact Lp.
    destruct P1b as [o O]; [split; eexists; eassumption|].
    assert (O2 := O). apply P2 in O2; [|exact Lp].
    rewrite firstn_self in O2 by exact Lp.
    destruct O2 as [x' [y' [X' [Y' C]]]].
    assert (x' = PTuple xs) by congruence.
    assert (y' = b) by congruence. subst x' y'.
    unfold applied, two, gconst in C.
    destruct b; try discriminate; cbn in C.
    - split; [right; reflexivity|]. rewrite kept_missing. congruence.
    - split; [left; reflexivity|]. rewrite kept_present. congruence. }
  split; [reflexivity|].
  split.
  { intros u w q xs Ju Jw L1 L2 Q.
    destruct Ju as [<-|[<-|[]]], Jw as [<-|[<-|[]]];
      try (exists xs; split; [exact Q|reflexivity]).
    - apply (A (View (v_obj v) sd) fltr q xs); cbn; auto; lia.
    - apply (A fltr (View (v_obj v) sd) q xs); cbn; auto; lia. }
  split; [reflexivity|].
  assert (SH : same_shape sd (v_obj res) (v_obj v)).
  { intros p Lp. rewrite P1 by exact Lp. rewrite firstn_all2 by exact Lp.
    split; [tauto|]. intros X. split; [exact X|]. apply FL; assumption. }
  split; [|split; [exact SH|]].
  - unfold good. cbn [v_depth v_obj].
    replace (v_depth v) with (sd + 1) by lia.
    apply shaped_from; [exact G3|]. intros p x Lp X.
    destruct (SH p) as [SH1 _]; [lia|].
    destruct SH1 as [o O]; [eexists; exact X|].
    destruct (good_tuple v p o Gv) as [xs ->]; [lia|exact O|].
    destruct (ITEMS p xs Lp O) as [b [_ [_ R]]].
    assert (x = PTuple (kept xs (repeat b (length xs)))) by congruence.
    subst x. apply shaped_tuple. apply Forall_forall. intros y _. exact I.
  - intros p xs Lp X. destruct (ITEMS p xs Lp X) as [b [F1 [F2 F3]]].
    exists (repeat b (length xs)). split; [|split; [|exact F3]].
    + split; [apply repeat_length|]. intros i c C.
      assert (c = b) by (apply nth_error_In in C; apply repeat_spec in C;
                         exact C). subst c.
      rewrite firstn_app. replace (v_depth fltr - length p) with 0 by lia.
      cbn [firstn]. rewrite app_nil_r. exact F1.
    + apply Forall_forall. intros c C. apply repeat_spec in C. subst c.
      exact F2.
Qed.

Lemma select_ok : forall fltr e v h h' r,
  good v -> good fltr -> select fltr e v h = (h', Ok r) ->
  let below := if e then v_depth v else v_depth fltr in
  h' = h /\ v_depth fltr <= v_depth v /\ 0 < below /\
  aligned [v; fltr] /\ v_depth r = v_depth v /\ good r /\
  same_shape (below - 1) (v_obj r) (v_obj v) /\
  (forall p xs, length p = below - 1 ->
     at_ p (v_obj v) = Some (PTuple xs) ->
     exists fs, filters_at fltr p (length xs) fs /\ Forall mask fs /\
                at_ p (v_obj r) = Some (PTuple (kept xs fs))).
Proof.
  intros fltr e v h h' r Gv Gf H below.
  destruct (select_cases _ _ _ _ _ _ H) as [L [Pv Pf]].
  assert (C : (0 < v_depth fltr /\ below = v_depth fltr /\
               (e = true -> v_depth fltr = v_depth v)) \/
              (v_depth fltr < v_depth v /\ e = true)).
  { unfold below. destruct e.
    - destruct (Nat.eq_dec (v_depth fltr) (v_depth v)); [left|right];
        repeat split; lia.
    - left. repeat split; [auto|discriminate]. }
  destruct C as [[P [EB E]]|[Lt ->]].
  - destruct (select_ok_list _ _ _ _ _ _ Gv Gf L P E H)
      as [H1 [H2 [H3 [H4 [H5 H6]]]]].
    rewrite EB. auto 12.
  - destruct (select_ok_const _ _ _ _ _ Gv Gf Lt H)
      as [H1 [H2 [H3 [H4 [H5 H6]]]]].
    unfold below. auto 12.
Qed.

(** It succeeds whenever the filter fits and has only mask values. *)
Lemma select_total : forall fltr (e : bool) v h,
  good v -> good fltr -> v_depth fltr <= v_depth v ->
  0 < (if e then v_depth v else v_depth fltr) ->
  aligned [v; fltr] ->
  (forall p b, length p = v_depth fltr -> at_ p (v_obj fltr) = Some b ->
     mask b) ->
  exists r, select fltr e v h = (h, Ok r).
Proof.
  intros fltr e v h Gv Gf L P A MK.
  assert (C : (0 < v_depth fltr /\ (e = true -> v_depth fltr = v_depth v)) \/
              (v_depth fltr < v_depth v /\ e = true)).
  { destruct e.
    - destruct (Nat.eq_dec (v_depth fltr) (v_depth v)); [left|right];
        repeat split; lia.
    - left. repeat split; [auto|discriminate]. }
  destruct C as [[Pf E]|[Lt ->]].
  - rewrite select_list by assumption.
    destruct (map2_total select_impl gselect false
                (View (v_obj v) (v_depth fltr - 1))
                (View (v_obj fltr) (v_depth fltr - 1)) h) as [r R].
    + intros; apply select_impl_pure.
    + unfold good. cbn. eapply shaped_below; [|exact Gv]. lia.
    + unfold good. cbn. eapply shaped_below; [|exact Gf]. lia.
    + intros u w q xs Ju Jw L1 L2 Q.
      destruct Ju as [<-|[<-|[]]], Jw as [<-|[<-|[]]]; cbn in *;
        try (exists xs; split; [exact Q|reflexivity]).
      * apply (A v fltr q xs); cbn; auto; lia.
      * apply (A fltr v q xs); cbn; auto; lia.
    + cbn [v_depth v_obj]. rewrite Nat.max_id. intros p x y Lp X Y.
      rewrite firstn_self in X, Y by exact Lp.
      destruct (good_tuple v p x Gv) as [xs ->]; [lia|exact X|].
      destruct (A v fltr p xs) as [fs [F1 F2]];
        [left; reflexivity|right; left; reflexivity|lia|lia|exact X|].
      assert (y = PTuple fs) by congruence. subst y.
      exists (PTuple (kept xs fs)).
      rewrite applied_not_none by (intros [J|[J|[]]]; discriminate).
      cbn. replace (select_loop xs fs) with (Ok (kept xs fs));
        [reflexivity|]. symmetry. apply select_loop_spec.
      split; [congruence|]. split; [|reflexivity].
      apply Forall_forall. intros b B. apply In_nth_error in B.
      destruct B as [i N0]. apply (MK (p ++ [i])).
      * rewrite app_length. cbn. lia.
      * rewrite at_app, Y. cbn. rewrite N0. reflexivity.
    + rewrite R. eexists. reflexivity.
  - rewrite select_const by assumption.
    destruct (map2_total select_constant gconst true
                (View (v_obj v) (v_depth v - 1)) fltr h) as [r R].
    + intros; apply select_constant_pure.
    + unfold good. cbn. eapply shaped_below; [|exact Gv]. lia.
    + exact Gf.
    + intros u w q xs Ju Jw L1 L2 Q.
      destruct Ju as [<-|[<-|[]]], Jw as [<-|[<-|[]]]; cbn in *;
        try (exists xs; split; [exact Q|reflexivity]).
      * apply (A v fltr q xs); cbn; auto; lia.
      * apply (A fltr v q xs); cbn; auto; lia.
    + cbn [v_depth v_obj]. intros p x y Lp X Y.
      destruct (MK (firstn (v_depth fltr) p) y) as [->| ->];
        [rewrite firstn_length; lia|exact Y| |];
        eexists; reflexivity.
    + rewrite R. eexists. reflexivity.
Qed.

(** ** Shapes of two views of the same depth *)

Lemma same_shape_sym : forall d o o', same_shape d o o' -> same_shape d o' o.
Proof. intros d o o' S0 p L. rewrite (S0 p L). reflexivity. Qed.

Lemma same_shape_trans : forall d o1 o2 o3,
  same_shape d o1 o2 -> same_shape d o2 o3 -> same_shape d o1 o3.
Proof.
  intros d o1 o2 o3 S1 S2 p L. rewrite (S1 p L). apply S2. exact L.
Qed.

Lemma same_shape_le : forall d e o o',
  e <= d -> same_shape d o o' -> same_shape e o o'.
Proof. intros d e o o' L S0 p Lp. apply S0. lia. Qed.

Lemma same_width : forall d o o' p xs ys,
  same_shape d o o' -> length p < d ->
  at_ p o = Some (PTuple xs) -> at_ p o' = Some (PTuple ys) ->
  length ys = length xs.
Proof.
  intros d o o' p xs ys S0 L X Y.
  assert (E : forall i, i < length xs <-> i < length ys).
  { intros i. specialize (S0 (p ++ [i])).
    rewrite !at_app, X, Y in S0. cbn in S0.
    rewrite app_length in S0. cbn in S0.
    rewrite <- !nth_error_Some.
    assert (Q : length p + 1 <= d) by lia. specialize (S0 Q).
    destruct (nth_error xs i), (nth_error ys i).
    - split; congruence.
    - destruct S0 as [[z Z0] _]; [eexists; reflexivity|discriminate].
    - destruct S0 as [_ [z Z0]]; [eexists; reflexivity|discriminate].
    - split; congruence. }
  pose proof (E (length xs)). pose proof (E (length ys)). lia.
Qed.

Lemma shape_aligned : forall v w,
  good v -> good w ->
  same_shape (Nat.min (v_depth v) (v_depth w)) (v_obj v) (v_obj w) ->
  aligned [v; w].
Proof.
  intros v w G1 G2 S0 a b p xs Ja Jb L1 L2 E.
  destruct Ja as [<-|[<-|[]]], Jb as [<-|[<-|[]]];
    try (exists xs; split; [exact E|reflexivity]).
  - destruct (S0 p) as [H _]; [lia|]. destruct H as [y Y];
      [eexists; exact E|].
    destruct (good_tuple w p y G2) as [ys ->]; [lia|exact Y|].
    exists ys. split; [exact Y|]. apply (same_width _ _ _ p xs ys S0);
      [lia|exact E|exact Y].
  - destruct (S0 p) as [_ H]; [lia|]. destruct H as [y Y];
      [eexists; exact E|].
    destruct (good_tuple v p y G1) as [ys ->]; [lia|exact Y|].
    exists ys. split; [exact Y|].
    apply (same_width _ _ _ p xs ys (same_shape_sym _ _ _ S0));
      [lia|exact E|exact Y].
Qed.

Lemma aligned_shape : forall v w,
  good v -> good w -> aligned [v; w] ->
  same_shape (Nat.min (v_depth v) (v_depth w)) (v_obj v) (v_obj w).
Proof.
  intros v w G1 G2 A p L. split; intros X.
  - destruct (aligned_two v w p G1 G2 A) as [y Y]; [lia|exact X|].
    rewrite firstn_all2 in Y by lia. exists y. exact Y.
  - destruct (aligned_two w v p G2 G1 (aligned_swap _ _ A)) as [y Y];
      [lia|exact X|].
    rewrite firstn_all2 in Y by lia. exists y. exact Y.
Qed.

(** ** inverse_select *)

Definition ginverse (x y : obj) : outcome obj :=
  match items x with
  | Raise e => Raise e
  | Ok xs =>
      match items y with
      | Raise e => Raise e
      | Ok fs => match inverse_loop xs fs with
                 | Ok (res, []) => Ok (PTuple res)
                 | Ok (_, _ :: _) => Raise CountMismatch
                 | Raise e => Raise e
                 end
      end
  end.

Lemma inverse_impl_pure : forall x y h,
  inverse_select_impl x y h = (h, ginverse x y).
Proof.
  intros x y h. unfold inverse_select_impl, ginverse, bind, lift, ret.
  destruct (items x) as [xs|e]; [|reflexivity].
  destruct (items y) as [fs|e]; [|reflexivity].
  destruct (inverse_loop xs fs) as [[res [|z rest]]|e]; reflexivity.
Qed.

Lemma inverse_unfold : forall m w h,
  v_depth m = v_depth w -> 0 < v_depth w ->
  inverse_select m w h =
  match map2 inverse_select_impl false (View (v_obj w) (v_depth w - 1))
          (View (v_obj m) (v_depth w - 1)) h with
  | (h', Ok res) => (h', Ok (View (v_obj res) (v_depth w)))
  | (h', Raise x) => (h', Raise x)
  end.
Proof.
  intros m w h E P. unfold inverse_select. rewrite E, Nat.eqb_refl.
  cbn [negb]. replace (v_depth w =? 0) with false by lia.
  change 1%Z with (Z.of_nat 1). rewrite !implode_ok by lia.
  unfold bind, lift. rewrite E. reflexivity.
Qed.

Lemma inverse_cases : forall m w h h' r,
  inverse_select m w h = (h', Ok r) ->
  v_depth m = v_depth w /\ 0 < v_depth w.
Proof.
  intros m w h h' r E. unfold inverse_select in E.
  destruct (v_depth m =? v_depth w) eqn:Q; [|discriminate].
  cbn [negb] in E. destruct (v_depth w =? 0) eqn:Z0; [discriminate|].
  lia.
Qed.

Lemma inverse_ok : forall m w h h' r,
  good w -> good m -> inverse_select m w h = (h', Ok r) ->
  h' = h /\ v_depth m = v_depth w /\ 0 < v_depth w /\
  v_depth r = v_depth w /\ good r /\
  same_shape (v_depth w) (v_obj r) (v_obj m) /\
  same_shape (v_depth w - 1) (v_obj r) (v_obj w) /\
  (forall p xs fs, length p = v_depth w - 1 ->
     at_ p (v_obj w) = Some (PTuple xs) ->
     at_ p (v_obj m) = Some (PTuple fs) ->
     exists ys, at_ p (v_obj r) = Some (PTuple ys) /\ filled xs fs ys).
Proof.
  intros m w h h' r Gw Gm H.
  destruct (inverse_cases _ _ _ _ _ H) as [Em P].
  rewrite inverse_unfold in H by assumption.
  set (sd := v_depth w - 1) in *.
  destruct (map2 _ _ _ _ h) as [h1 [res|x]] eqn:M2; [|discriminate].
  assert (h1 = h' /\ r = View (v_obj res) (v_depth w)) by (split; congruence).
  destruct H0 as [-> ->]. clear H.
  apply map2_ok with (g := ginverse) in M2;
    [|intros; apply inverse_impl_pure].
  cbn [v_depth v_obj] in M2. rewrite Nat.max_id in M2.
  destruct M2 as [-> [G1 [G2 [A [D [G3 [P1 P2]]]]]]].
  rewrite D in P1, P2. unfold good in G3. rewrite D in G3.
  cbn [v_obj v_depth].
  pose proof (aligned_shape _ _ G1 G2 A) as SWM. cbn [v_depth v_obj] in SWM.
  rewrite Nat.min_id in SWM.
  assert (SW : same_shape sd (v_obj res) (v_obj w)).
  { intros p Lp. rewrite P1 by exact Lp. rewrite firstn_all2 by exact Lp.
    rewrite <- (SWM p Lp). tauto. }
  assert (ITEMS : forall p xs fs, length p = sd ->
     at_ p (v_obj w) = Some (PTuple xs) ->
     at_ p (v_obj m) = Some (PTuple fs) ->
     exists ys, at_ p (v_obj res) = Some (PTuple ys) /\ filled xs fs ys).
  { intros p xs fs Lp X Y.
    destruct (SW p) as [_ Q]; [lia|]. destruct Q as [o O];
      [eexists; exact X|].
    assert (O2 := O). apply P2 in O2; [|exact Lp].
    rewrite firstn_self in O2 by exact Lp.
    destruct O2 as [x' [y' [X' [Y' B]]]].
    assert (x' = PTuple xs) by congruence.
    assert (y' = PTuple fs) by congruence. subst x' y'.
    apply applied_not_none in B; [|intros [J|[J|[]]]; discriminate].
    cbn in B. destruct (inverse_loop xs fs) as [[zs [|z rest]]|ex] eqn:SL;
      try discriminate.
    apply inverse_loop_spec in SL. exists zs. split; [congruence|exact SL]. }
  assert (TW : forall p, length p = sd -> (exists o, at_ p (v_obj res) = Some o)
    -> exists xs fs ys, at_ p (v_obj w) = Some (PTuple xs) /\
       at_ p (v_obj m) = Some (PTuple fs) /\
       at_ p (v_obj res) = Some (PTuple ys) /\ filled xs fs ys).
  { intros p Lp X. apply SW in X; [|lia]. assert (X2 := X).
    apply SWM in X2; [|lia]. destruct X as [x X]. destruct X2 as [y Y].
    destruct (good_tuple w p x Gw) as [xs ->]; [lia|exact X|].
    destruct (good_tuple m p y Gm) as [fs ->]; [lia|exact Y|].
    destruct (ITEMS p xs fs Lp X Y) as [ys [Z1 Z2]].
    exists xs, fs, ys. auto. }
  split; [reflexivity|]. split; [exact Em|]. split; [exact P|].
  split; [reflexivity|]. split.
  { unfold good. cbn [v_depth v_obj].
    replace (v_depth w) with (sd + 1) by lia.
    apply shaped_from; [exact G3|]. intros p x Lp X.
    destruct (TW p Lp) as [xs [fs [ys [_ [_ [Y _]]]]]];
      [eexists; exact X|].
    assert (x = PTuple ys) by congruence. subst x.
    apply shaped_tuple. apply Forall_forall. intros; exact I. }
  split; [|split; [exact SW|exact ITEMS]].
  intros p Lp. destruct (Nat.eq_dec (length p) (v_depth w)) as [E|NE].
  - destruct (exists_last (l := p)) as [q [i ->]].
    { intros ->. cbn in E. lia. }
    rewrite app_length in E. cbn in E. assert (Lq : length q = sd) by lia.
    split.
    + intros [x X]. rewrite at_app in X.
      destruct (at_ q (v_obj res)) as [o|] eqn:O; [|discriminate].
      destruct (TW q Lq) as [xs [fs [ys [_ [T2 [T3 [_ [T4 _]]]]]]]];
        [eexists; exact O|].
      assert (o = PTuple ys) by congruence. subst o. cbn in X.
      destruct (nth_error ys i) eqn:N0; [|discriminate].
      assert (i < length ys) by (apply nth_error_Some; congruence).
      rewrite at_app, T2. cbn.
      destruct (nth_error fs i) eqn:N1; [eexists; reflexivity|].
      apply nth_error_None in N1. lia.
    + intros [x X]. rewrite at_app in X.
      destruct (at_ q (v_obj m)) as [o|] eqn:O; [|discriminate].
      destruct (TW q Lq) as [xs [fs [ys [_ [T2 [T3 [_ [T4 _]]]]]]]].
      { apply SW; [lia|]. apply SWM; [lia|]. eexists; exact O. }
      assert (o = PTuple fs) by congruence. subst o. cbn in X.
      destruct (nth_error fs i) eqn:N0; [|discriminate].
      assert (i < length fs) by (apply nth_error_Some; congruence).
      rewrite at_app, T3. cbn.
      destruct (nth_error ys i) eqn:N1; [eexists; reflexivity|].
      apply nth_error_None in N1. lia.
  - rewrite (SW p) by lia. apply SWM. lia.
Qed.

Lemma filled_exists : forall fs xs,
  Forall mask fs -> length xs = length (filter is_present fs) ->
  exists ys, filled xs fs ys.
Proof.
  unfold filled. induction fs as [|b fs IH]; intros xs F L.
  - destruct xs; [|discriminate]. exists []. repeat split; constructor.
  - inversion F as [|? ? [->| ->] F2]; subst; cbn in L.
    + destruct xs as [|x xs]; [discriminate|]. cbn in L.
      destruct (IH xs F2) as [ys [H1 [H2 [H3 H4]]]]; [lia|].
      exists (x :: ys). cbn. repeat split; [exact F|lia|congruence|congruence].
    + destruct (IH xs F2) as [ys [H1 [H2 [H3 H4]]]]; [lia|].
      exists (PNone :: ys). cbn.
      repeat split; [exact F|lia|congruence|congruence].
Qed.

Lemma kept_length : forall fs xs,
  Forall mask fs -> length xs = length fs ->
  length (kept xs fs) = length (filter is_present fs).
Proof.
  induction fs as [|b fs IH]; intros [|x xs] F L; try discriminate;
    [reflexivity|].
  inversion F as [|? ? [->| ->] F2]; subst; cbn in *; rewrite IH by (auto; lia);
    reflexivity.
Qed.

Lemma inverse_total : forall m w h,
  good w -> good m -> v_depth m = v_depth w -> 0 < v_depth w ->
  same_shape (v_depth w - 1) (v_obj w) (v_obj m) ->
  (forall p xs fs, length p = v_depth w - 1 ->
     at_ p (v_obj w) = Some (PTuple xs) ->
     at_ p (v_obj m) = Some (PTuple fs) ->
     Forall mask fs /\ length xs = length (filter is_present fs)) ->
  exists r, inverse_select m w h = (h, Ok r).
Proof.
  intros m w h Gw Gm E P S0 C. rewrite inverse_unfold by assumption.
  destruct (map2_total inverse_select_impl ginverse false
              (View (v_obj w) (v_depth w - 1))
              (View (v_obj m) (v_depth w - 1)) h) as [r R].
  - intros; apply inverse_impl_pure.
  - unfold good. cbn. eapply shaped_below; [|exact Gw]. lia.
  - unfold good. cbn. eapply shaped_below; [|exact Gm]. lia.
  - apply shape_aligned.
    + unfold good. cbn. eapply shaped_below; [|exact Gw]. lia.
    + unfold good. cbn. eapply shaped_below; [|exact Gm]. lia.
    + cbn [v_depth v_obj]. rewrite Nat.min_id. exact S0.
  - cbn [v_depth v_obj]. rewrite Nat.max_id. intros p x y Lp X Y.
    rewrite firstn_self in X, Y by exact Lp.
    destruct (good_tuple w p x Gw) as [xs ->]; [lia|exact X|].
    destruct (good_tuple m p y Gm) as [fs ->]; [lia|exact Y|].
    destruct (C p xs fs Lp X Y) as [MK CT].
    destruct (filled_exists fs xs MK CT) as [ys F].
    exists (PTuple ys).
    rewrite applied_not_none by (intros [J|[J|[]]]; discriminate).
    cbn. apply inverse_loop_spec in F. rewrite F. reflexivity.
  - rewrite R. eexists. reflexivity.
Qed.

Lemma filled_masked : forall fs xs ys,
  length xs = length fs -> filled (kept xs fs) fs ys -> ys = masked xs fs.
Proof.
  unfold filled. induction fs as [|b fs IH]; intros xs ys L [F [L2 [K Q]]].
  - destruct ys; [|discriminate]. destruct xs; [reflexivity|discriminate].
  - destruct ys as [|y ys]; [discriminate|].
    destruct xs as [|x xs]; [discriminate|].
    inversion F as [|? ? [->| ->] F2]; subst; cbn in *.
    + inversion K as [[K1 K2]]. inversion Q as [[Q2]].
      f_equal. rewrite Q2. apply IH; [lia|]. repeat split; try assumption. lia.
    + inversion Q as [[Q1 Q2]]. rewrite Q2. f_equal. apply IH; [lia|].
      repeat split; try assumption. lia.
Qed.

Definition gand (x y : obj) : outcome obj :=
  if is_present y then Ok x else Raise NotMask.

Lemma masked_nth : forall fs xs i x b,
  Forall mask fs -> nth_error xs i = Some x -> nth_error fs i = Some b ->
  nth_error (masked xs fs) i = Some (if is_present b then x else PNone).
Proof.
  induction fs as [|c fs IH]; intros xs i x b F X B.
  - destruct i; discriminate.
  - destruct xs as [|y xs]; [destruct i; discriminate|].
    inversion F as [|? ? [->| ->] F2]; subst.
    + destruct i as [|i]; cbn in *.
      * inversion X. inversion B. subst. reflexivity.
      * eapply IH; eassumption.
    + destruct i as [|i]; cbn in *.
      * inversion X. inversion B. subst. reflexivity.
      * eapply IH; eassumption.
Qed.

(** What comes back is the data with the rest masked out. *)
Lemma select_then_inverse : forall m e v h h1 r,
  good v -> good m -> v_depth m = v_depth v ->
  select m e v h = (h1, Ok r) ->
  exists r', inverse_select m r h = (h, Ok r') /\
             presence_and v m h = (h, Ok r').
Proof.
  intros m e v h h1 r Gv Gm Em H.
  destruct (select_ok _ _ _ _ _ _ Gv Gm H) as
    [-> [L [P [A [Dr [Gr [SH IT]]]]]]].
  replace (if e then v_depth v else v_depth m) with (v_depth v) in *
    by (destruct e; lia).
  pose proof (aligned_shape _ _ Gv Gm A) as SVM. rewrite Em, Nat.min_id in SVM.
  set (sd := v_depth v - 1) in *.
  assert (TM : forall p xs, length p = sd -> at_ p (v_obj v) = Some (PTuple xs)
     -> exists fs, at_ p (v_obj m) = Some (PTuple fs) /\ Forall mask fs /\
          length xs = length fs /\
          at_ p (v_obj r) = Some (PTuple (kept xs fs))).
  { intros p xs Lp X. destruct (IT p xs Lp X) as [fs [[F1 F2] [F3 F4]]].
    destruct (A v m p xs) as [gs [Q1 Q2]];
      [left; reflexivity|right; left; reflexivity|lia|lia|exact X|].
    exists fs. assert (fs = gs).
    { apply nth_error_ext_eq; [congruence|]. intros i b c B C.
      apply F2 in B. rewrite firstn_all2 in B
        by (rewrite app_length; cbn; lia).
      rewrite at_app, Q1 in B. cbn in B. rewrite C in B. congruence. }
    subst gs. auto. }
  destruct (inverse_total m r h) as [r' R'].
  - exact Gr.
  - exact Gm.
  - lia.
  - lia.
  - rewrite Dr. eapply same_shape_trans; [exact SH|].
    eapply same_shape_le; [|exact SVM]. lia.
  - rewrite Dr. intros p xs fs Lp X Y.
    destruct (SH p) as [Q _]; [lia|]. destruct Q as [o O];
      [eexists; exact X|].
    destruct (good_tuple v p o Gv) as [zs ->]; [lia|exact O|].
    destruct (TM p zs Lp O) as [gs [G1 [G2 [G3 G4]]]].
    assert (gs = fs) by congruence. subst gs.
    assert (xs = kept zs fs) by congruence. subst xs.
    split; [exact G2|]. apply kept_length; [exact G2|congruence].
  - exists r'. split; [exact R'|].
    destruct (inverse_ok _ _ _ _ _ Gr Gm R')
      as [_ [_ [_ [Dr' [Gr' [S1 [S2 IT']]]]]]].
    rewrite Dr in *.
    destruct (map2_total presence_and_impl gand false v m h) as [a AND].
    + intros x y. unfold presence_and_impl, gand.
      destruct (is_present y); reflexivity.
    + exact Gv.
    + exact Gm.
    + exact A.
    + rewrite Em, Nat.max_id. intros p x y Lp X Y.
      rewrite firstn_self in X, Y by exact Lp.
      destruct (exists_last (l := p)) as [q [i ->]].
      { intros ->. cbn in Lp. lia. }
      rewrite app_length in Lp. cbn in Lp.
      rewrite at_app in X, Y.
      destruct (at_ q (v_obj v)) as [o|] eqn:O; [|discriminate].
      destruct (good_tuple v q o Gv) as [xs ->]; [lia|exact O|].
      destruct (TM q xs ltac:(lia) O) as [fs [F1 [F2 [F3 F4]]]].
      rewrite F1 in Y. cbn in X, Y.
      destruct (nth_error fs i) as [b|] eqn:N0; [|discriminate].
      assert (b = y) by congruence. subst b. apply nth_error_In in N0.
      rewrite Forall_forall in F2. destruct (F2 y N0) as [->| ->].
      * destruct x; eexists; cbn;
          first [ left; split; [left; reflexivity|reflexivity]
                | right; split; [intros [J|[J|[]]]; discriminate
                                |reflexivity] ].
      * exists PNone. left. split; [right; left; reflexivity|reflexivity].
    + assert (EQ : a = r').
      { apply map2_ok with (g := gand) in AND.
        2:{ intros x y. unfold presence_and_impl, gand.
            destruct (is_present y); reflexivity. }
        rewrite Em, Nat.max_id in AND.
        destruct AND as [_ [_ [_ [_ [Da [Ga [P1 P2]]]]]]].
        rewrite Da in P1, P2.
        assert (SA : same_shape (v_depth v) (v_obj a) (v_obj v)).
        { intros p Lp. rewrite P1 by exact Lp.
          rewrite firstn_all2 by exact Lp.
          rewrite <- (SVM p Lp). tauto. }
        destruct a as [oa da], r' as [ob db]. cbn [v_depth v_obj] in *.
        subst da db. f_equal. apply (shape_ext (v_depth v)).
        - exact Ga.
        - exact Gr'.
        - eapply same_shape_trans; [exact SA|].
          eapply same_shape_trans; [exact SVM|].
          apply same_shape_sym. exact S1.
        - intros p x y Lp X Y.
          destruct (exists_last (l := p)) as [q [i ->]].
          { intros ->. cbn in Lp. lia. }
          apply P2 in X; [|exact Lp]. rewrite firstn_self in X by exact Lp.
          destruct X as [x0 [b [X0 [B AP]]]].
          rewrite app_length in Lp. cbn in Lp.
          rewrite at_app in X0, B, Y.
          destruct (at_ q (v_obj v)) as [o|] eqn:O; [|discriminate].
          destruct (good_tuple v q o Gv) as [xs ->]; [lia|exact O|].
          destruct (TM q xs ltac:(lia) O) as [fs [F1 [F2 [F3 F4]]]].
          destruct (IT' q (kept xs fs) fs ltac:(lia) F4 F1) as [ys [Y1 Y2]].
          apply filled_masked in Y2; [|exact F3]. subst ys.
          rewrite F1 in B. rewrite Y1 in Y. cbn in X0, B, Y.
          destruct (nth_error xs i) as [x1|] eqn:N1; [|discriminate].
          destruct (nth_error fs i) as [b1|] eqn:N2; [|discriminate].
          assert (x1 = x0) by congruence. assert (b1 = b) by congruence.
          subst x1 b1.
          rewrite (masked_nth _ _ _ _ _ F2 N1 N2) in Y.
          assert (MB : mask b).
          { rewrite Forall_forall in F2. apply F2.
            eapply nth_error_In. exact N2. }
          destruct MB as [->| ->]; cbn in Y, AP; inversion Y; subst.
          + destruct AP as [[[J|[J|[]]] ->]|[_ AP]]; congruence.
          + destruct AP as [[_ ->]|[J _]]; [reflexivity|].
            exfalso. apply J. right. left. reflexivity. }
      subst a. exact AND.
Qed.

(** Selecting from what was put back gives the data again. *)
Lemma inverse_then_select : forall m e w h h1 r,
  good w -> good m -> inverse_select m w h = (h1, Ok r) ->
  select m e r h = (h, Ok w).
Proof.
  intros m e w h h1 r Gw Gm H.
  destruct (inverse_ok _ _ _ _ _ Gw Gm H)
    as [-> [Em [P [Dr [Gr [S1 [S2 IT]]]]]]].
  assert (TW : forall p xs, length p = v_depth w - 1 ->
     at_ p (v_obj w) = Some (PTuple xs) ->
     exists fs ys, at_ p (v_obj m) = Some (PTuple fs) /\
       at_ p (v_obj r) = Some (PTuple ys) /\ filled xs fs ys).
  { intros p xs Lp X.
    destruct (S2 p) as [_ Q]; [lia|]. destruct Q as [o O];
      [eexists; exact X|].
    destruct (S1 p) as [Q _]; [lia|]. destruct Q as [b B];
      [eexists; exact O|].
    destruct (good_tuple m p b Gm) as [fs ->]; [lia|exact B|].
    destruct (IT p xs fs Lp X B) as [ys [Y1 Y2]]. exists fs, ys. auto. }
  assert (A : aligned [r; m]).
  { apply shape_aligned; [exact Gr|exact Gm|]. rewrite Dr, Em, Nat.min_id.
    exact S1. }
  destruct (select_total m e r h) as [w' W].
  - exact Gr.
  - exact Gm.
  - lia.
  - destruct e; lia.
  - exact A.
  - rewrite Em. intros p b Lp B.
    destruct (exists_last (l := p)) as [q [i ->]].
    { intros ->. cbn in Lp. lia. }
    rewrite app_length in Lp. cbn in Lp. rewrite at_app in B.
    destruct (at_ q (v_obj m)) as [o|] eqn:O; [|discriminate].
    assert (X : exists x, at_ q (v_obj w) = Some x).
    { apply S2; [lia|]. apply S1; [lia|]. eexists; exact O. }
    destruct X as [x X].
    destruct (good_tuple w q x Gw) as [xs ->]; [lia|exact X|].
    destruct (TW q xs ltac:(lia) X) as [fs [ys [T1 [T2 [T3 _]]]]].
    assert (o = PTuple fs) by congruence. subst o. cbn in B.
    destruct (nth_error fs i) as [c|] eqn:N0; [|discriminate].
    assert (c = b) by congruence. subst c.
    rewrite Forall_forall in T3. apply T3. eapply nth_error_In; exact N0.
  - rewrite W. f_equal. f_equal.
    destruct (select_ok _ _ _ _ _ _ Gr Gm W)
      as [_ [_ [_ [_ [Dw [Gw' [SH IT2]]]]]]].
    replace (if e then v_depth r else v_depth m) with (v_depth w) in *
      by (destruct e; lia).
    rewrite Dr in Dw.
    destruct w as [ow dw], w' as [ow' dw']. cbn [v_depth v_obj] in *.
    subst dw'. f_equal. apply (shape_ext (dw - 1)).
    + eapply shaped_below; [|exact Gw']. cbn. lia.
    + eapply shaped_below; [|exact Gw]. cbn. lia.
    + eapply same_shape_trans; [exact SH|exact S2].
    + intros p x y Lp X Y.
      destruct (good_tuple (View ow dw) p y Gw) as [xs ->];
        [cbn; lia|exact Y|].
      destruct (TW p xs Lp Y) as [fs [ys [T1 [T2 [T3 [T4 [T5 T6]]]]]]].
      destruct (IT2 p ys Lp T2) as [gs [[G1 G2] [G3 G4]]].
      assert (gs = fs).
      { apply nth_error_ext_eq; [congruence|]. intros i b c B C.
        apply G2 in B. rewrite firstn_all2 in B
          by (rewrite app_length; cbn; lia).
        rewrite at_app, T1 in B. cbn in B. rewrite C in B. congruence. }
      subst gs. congruence.
Qed.
