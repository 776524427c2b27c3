(** * Proofs of the laws of explode, implode, expand_to, align and map. *)

From Coq Require Import List Arith Bool ZArith Lia ZifyBool Permutation.
From Verif Require Import ViewModel ViewSpec ViewProofs ViewOpsProofs.
Import ListNotations.
Local Open Scope nat_scope.
Local Arguments Nat.leb : simpl never.
Local Arguments Nat.ltb : simpl never.
Local Arguments Nat.eqb : simpl never.
Local Arguments Nat.sub : simpl never.

Lemma Forall2_weaken : forall A B (R Q : A -> B -> Prop) l l',
  (forall a b, R a b -> Q a b) -> Forall2 R l l' -> Forall2 Q l l'.
Proof. induction 2; constructor; auto. Qed.

Section Explode.
Variable iterate : Z -> option (list obj).

Definition gexplode (h : heap) (x : obj) : outcome obj :=
  match elements iterate h x with
  | Some xs => Ok (PTuple xs)
  | None => match x with PRef _ => Raise Unreachable | _ => Raise NotIterable end
  end.

Lemma explode_fn_pure : forall h x,
  explode_fn iterate x h = (h, gexplode h x).
Proof.
  intros h x. unfold explode_fn, gexplode, elements, to_tuple.
  destruct x; cbn [is_none]; try reflexivity.
  - destruct (nth_error h address); reflexivity.
  - destruct (iterate z); reflexivity.
Qed.

(** One level. *)
Lemma explode_one_ok : forall v h h' r,
  good v ->
  explode_times iterate 1 v h = (h', Ok r) ->
  h' = h /\ v_depth r = S (v_depth v) /\ good r /\
  same_shape (v_depth v) (v_obj r) (v_obj v) /\
  (forall p x, length p = v_depth v -> at_ p (v_obj v) = Some x ->
     exists xs, elements iterate h x = Some xs /\
                at_ p (v_obj r) = Some (PTuple xs)).
Proof.
  intros v h h' r G E. cbn [explode_times] in E. unfold bind in E.
  destruct (map1 (explode_fn iterate) true v h) as [h1 [s|e]] eqn:M1;
    [|discriminate].
  unfold ret in E.
  assert (h1 = h' /\ r = View (v_obj s) (S (v_depth s)))
    by (split; congruence). destruct H as [-> ->]. clear E.
  apply map1_ok with (g := gexplode h) in M1;
    [|intros; apply explode_fn_pure].
  destruct M1 as [-> [_ [D [Gs [P1 P2]]]]]. cbn [v_depth v_obj].
  assert (IT : forall p x, length p = v_depth v -> at_ p (v_obj v) = Some x ->
     exists xs, elements iterate h x = Some xs /\
                at_ p (v_obj s) = Some (PTuple xs)).
  { intros p x L X. destruct (P1 p) as [_ Q]; [lia|].
    destruct Q as [o O]; [eexists; exact X|]. assert (O2 := O).
    apply P2 in O2; [|exact L]. destruct O2 as [x' [X' B]].
    assert (x' = x) by congruence. subst x'.
    unfold applied, one, gexplode in B.
    destruct (elements iterate h x) as [xs|]; [|destruct x; discriminate].
    exists xs. split; [reflexivity|]. congruence. }
  split; [reflexivity|]. split; [lia|]. split; [|split; [exact P1|exact IT]].
  unfold good. cbn [v_depth v_obj]. rewrite D.
  replace (S (v_depth v)) with (v_depth v + 1) by lia.
  unfold good in Gs. rewrite D in Gs.
  apply shaped_from; [exact Gs|]. intros p x L X.
  destruct (P1 p) as [Q _]; [lia|]. destruct Q as [o O]; [eexists; exact X|].
  destruct (IT p o L O) as [xs [_ Y]].
  assert (x = PTuple xs) by congruence. subst x.
  apply shaped_tuple. apply Forall_forall. intros; exact I.
Qed.

Lemma explode_one_total : forall v h,
  good v ->
  (forall p x, length p = v_depth v -> at_ p (v_obj v) = Some x ->
     exists xs, elements iterate h x = Some xs) ->
  exists r, explode_times iterate 1 v h = (h, Ok r).
Proof.
  intros v h G T.
  destruct (map1_total (explode_fn iterate) (gexplode h) true v h) as [r R].
  - intros; apply explode_fn_pure.
  - exact G.
  - intros p x L X. destruct (T p x L X) as [xs E].
    exists (PTuple xs). unfold applied, one, gexplode. rewrite E. reflexivity.
  - cbn [explode_times]. unfold bind. rewrite R. eexists. reflexivity.
Qed.

(** Several levels are levels one after another. *)
Lemma explode_times_add : forall n m v h,
  explode_times iterate (n + m) v h =
  bind (explode_times iterate n v) (explode_times iterate m) h.
Proof.
  induction n as [|n IH]; intros m v h; [reflexivity|].
  cbn [Nat.add explode_times]. unfold bind.
  destruct (map1 (explode_fn iterate) true v h) as [h1 [s|e]]; [|reflexivity].
  apply IH.
Qed.

(** On items that are tuples already, only the depth changes. *)
Lemma explode_tuples : forall n o d h,
  shaped (d + n) o ->
  explode_times iterate n (View o d) h = (h, Ok (View o (d + n))).
Proof.
  induction n as [|n IH]; intros o d h S0.
  - rewrite Nat.add_0_r. reflexivity.
  - change (S n) with (1 + n). rewrite explode_times_add.
    assert (G : good (View o d)).
    { unfold good. cbn. eapply shaped_below; [|exact S0]. lia. }
    assert (TUP : forall p x, length p = d -> at_ p o = Some x ->
              exists xs, x = PTuple xs).
    { intros p x L X. apply (good_tuple (View o (d + S n)) p x);
        [exact S0|cbn; lia|exact X]. }
    destruct (explode_one_total (View o d) h G) as [r R].
    { intros p x L X. destruct (TUP p x L X) as [xs ->].
      exists xs. reflexivity. }
    unfold bind. rewrite R.
    destruct (explode_one_ok _ _ _ _ G R) as [_ [D [Gr [SH IT]]]].
    cbn [v_depth v_obj] in *.
    assert (EQ : v_obj r = o).
    { apply (shape_ext d).
      - eapply shaped_below; [|exact Gr]. lia.
      - exact G.
      - exact SH.
      - intros p x y L X Y. destruct (IT p y L Y) as [xs [E1 E2]].
        destruct (TUP p y L Y) as [ys ->]. cbn in E1. congruence. }
    destruct r as [o' d']. cbn in *. subst.
    rewrite IH; [f_equal; f_equal; f_equal; lia|].
    replace (S d + n) with (d + S n) by lia. exact S0.
Qed.

End Explode.

(** ** expand_to *)

Lemma expand_ok : forall same other ndim v h h' r,
  good v -> good other -> (same = true -> other = v) ->
  expand_to same other ndim v h = (h', Ok r) ->
  exists n, ndim = Z.of_nat n /\
  h' = h /\ n <= v_depth v /\ v_depth v - n <= v_depth other /\
  aligned [View (v_obj v) (v_depth v - n); other] /\
  v_depth r = v_depth other + n /\ good r /\
  same_shape (v_depth other) (v_obj r) (v_obj other) /\
  (forall p q, length p = v_depth other ->
     (exists y, at_ p (v_obj other) = Some y) ->
     at_ (p ++ q) (v_obj r) = at_ (firstn (v_depth v - n) p ++ q) (v_obj v)).
Proof.
  intros same other ndim v h h' r Gv Go SM E. unfold expand_to in E.
  destruct (ndim =? 0)%Z eqn:Z0; cbn [negb andb] in E.
  - exists 0. split; [lia|]. rewrite Nat.sub_0_r.
    replace (View (v_obj v) (v_depth v)) with v by (destruct v; reflexivity).
    destruct same.
    + assert (other = v) by (apply SM; reflexivity). subst other.
      unfold ret in E. assert (h' = h /\ r = v) by (split; congruence).
      destruct H as [-> ->].
      split; [reflexivity|]. split; [lia|]. split; [lia|].
      split.
      { apply shape_aligned; auto. intros p Lp. tauto. }
      split; [lia|]. split; [exact Gv|]. split.
      { intros p Lp. tauto. }
      intros p q L _. rewrite firstn_self by exact L. reflexivity.
    + unfold lift, bind in E.
      destruct (v_depth v <=? v_depth other) eqn:LE; [|discriminate].
      destruct (map2 _ true v other h) as [h1 [s|e]] eqn:M2; [|discriminate].
      unfold ret in E. assert (h1 = h' /\ s = r) by (split; congruence).
      destruct H as [-> ->]. clear E.
      apply map2_ok with (g := fun x _ => Ok x) in M2;
        [|intros; reflexivity].
      replace (Nat.max (v_depth v) (v_depth other)) with (v_depth other)
        in M2 by lia.
      destruct M2 as [-> [_ [_ [A [D [Gr [P1 P2]]]]]]].
      rewrite D in P1, P2.
      split; [reflexivity|]. split; [lia|]. split; [lia|].
      split; [exact A|]. split; [lia|]. split; [exact Gr|].
      assert (SH : same_shape (v_depth other) (v_obj r) (v_obj other)).
      { intros p Lp. rewrite P1 by exact Lp.
        rewrite (firstn_all2 (n := v_depth other)) by exact Lp.
        split; [tauto|]. intros X. split; [|exact X].
        apply (aligned_two other v p Go Gv (aligned_swap _ _ A)); auto. }
      split; [exact SH|].
      intros p q L X. rewrite !at_app.
      destruct (SH p) as [_ Q]; [lia|]. destruct (Q X) as [o O].
      rewrite O. apply P2 in O; [|exact L].
      destruct O as [x [y [X1 [Y1 B]]]]. rewrite X1.
      unfold applied, two in B. congruence.
  - destruct (ndim <? 0)%Z eqn:NG; [discriminate|].
    exists (Z.to_nat ndim). split; [lia|].
    assert (EN : ndim = Z.of_nat (Z.to_nat ndim)) by lia.
    set (n := Z.to_nat ndim) in *. clearbody n. subst ndim.
    unfold lift, bind in E.
    destruct (le_lt_dec n (v_depth v)) as [LN|LN].
    2:{ unfold implode in E.
        replace (Z.of_nat n <? 0)%Z with false in E by lia.
        replace (Z.of_nat n <=? Z.of_nat (v_depth v))%Z with false in E by lia.
        discriminate. }
    rewrite implode_ok in E by exact LN. cbn [v_depth v_obj] in E.
    destruct (v_depth v - n <=? v_depth other) eqn:LE; [|discriminate].
    destruct (map2 _ true _ other h) as [h1 [s|e]] eqn:M2; [|discriminate].
    unfold ret in E.
    assert (h1 = h' /\ r = View (v_obj s) (v_depth s + n))
      by (split; [congruence|]; inversion E; f_equal; f_equal;
          apply Nat2Z.id).
    destruct H as [-> ->]. clear E.
    apply map2_ok with (g := fun x _ => Ok x) in M2;
      [|intros; reflexivity].
    cbn [v_depth v_obj] in M2.
    replace (Nat.max (v_depth v - n) (v_depth other)) with (v_depth other)
      in M2 by lia.
    destruct M2 as [-> [Gi [_ [A [D [Gr [P1 P2]]]]]]].
    rewrite D in P1, P2. cbn [v_depth v_obj].
    split; [reflexivity|]. split; [lia|]. split; [lia|].
    split; [exact A|]. split; [lia|].
    assert (SH : same_shape (v_depth other) (v_obj s) (v_obj other)).
    { intros p Lp. rewrite P1 by exact Lp.
      rewrite (firstn_all2 (n := v_depth other)) by exact Lp.
      split; [tauto|]. intros X. split; [|exact X].
      apply (aligned_two other _ p Go Gi (aligned_swap _ _ A)); auto. }
    assert (IT : forall p o, length p = v_depth other ->
              at_ p (v_obj s) = Some o ->
              at_ (firstn (v_depth v - n) p) (v_obj v) = Some o).
    { intros p o L O. apply P2 in O; [|exact L].
      destruct O as [x [y [X1 [Y1 B]]]]. rewrite X1.
      unfold applied, two in B. congruence. }
    split.
    { unfold good. cbn [v_depth v_obj]. rewrite D.
      unfold good in Gr. rewrite D in Gr.
      apply shaped_from; [exact Gr|]. intros p x L X.
      apply IT in X; [|exact L].
      apply (shaped_at (firstn (v_depth v - n) p) _ (v_obj v)); [|exact X].
      unfold good in Gv. eapply shaped_below; [|exact Gv].
      rewrite firstn_length. lia. }
    split; [exact SH|].
    intros p q L X. rewrite !at_app.
    destruct (SH p) as [_ Q]; [lia|]. destruct (Q X) as [o O].
    rewrite O. apply IT in O; [|exact L]. rewrite O. reflexivity.
Qed.

Lemma expand_total : forall same other n v h,
  good v -> good other -> n <= v_depth v -> v_depth v - n <= v_depth other ->
  aligned [View (v_obj v) (v_depth v - n); other] ->
  exists r, expand_to same other (Z.of_nat n) v h = (h, Ok r).
Proof.
  intros same other n v h Gv Go L1 L2 A. unfold expand_to.
  replace (Z.of_nat n <? 0)%Z with false by lia. rewrite andb_false_r.
  assert (Gi : good (View (v_obj v) (v_depth v - n))).
  { unfold good in *. cbn. eapply shaped_below; [|exact Gv]. lia. }
  destruct (map2_total (fun x _ => ret x) (fun x _ => Ok x) true
              (View (v_obj v) (v_depth v - n)) other h) as [s M2].
  - intros; reflexivity.
  - exact Gi.
  - exact Go.
  - exact A.
  - intros p x y _ _ _. exists x. reflexivity.
  - destruct (Z.of_nat n =? 0)%Z eqn:Z0; cbn [andb].
    + assert (n = 0) by lia. subst n. rewrite Nat.sub_0_r in *.
      replace (View (v_obj v) (v_depth v)) with v in * by (destruct v; reflexivity).
      destruct same; [eexists; reflexivity|].
      unfold lift, bind. replace (v_depth v <=? v_depth other) with true by lia.
      rewrite M2. eexists. reflexivity.
    + rewrite implode_ok by lia. unfold lift, bind. cbn [v_depth].
      replace (v_depth v - n <=? v_depth other) with true by lia.
      rewrite M2. eexists. reflexivity.
Qed.

(** ** align *)

Lemma first_max_spec : forall ds best best_at i,
  best_at < i ->
  let r := first_max best best_at i ds in
  (r = best_at /\ Forall (fun d => d <= best) ds) \/
  (i <= r /\ exists d, nth_error ds (r - i) = Some d /\ best < d /\
             Forall (fun e => e <= d) ds).
Proof.
  induction ds as [|d ds IH]; intros best best_at i L; cbn [first_max].
  - left. split; [reflexivity|constructor].
  - destruct (best <? d) eqn:B.
    + destruct (IH d i (S i)) as [[-> F]|[Li [e [N0 [Le F]]]]]; [lia| |].
      * right. split; [lia|]. exists d. rewrite Nat.sub_diag.
        split; [reflexivity|]. split; [lia|].
        constructor; [lia|]. exact F.
      * right. split; [lia|]. exists e.
        replace (first_max d i (S i) ds - i)
          with (S (first_max d i (S i) ds - S i)) by lia.
        split; [exact N0|]. split; [lia|]. constructor; [lia|exact F].
    + destruct (IH best best_at (S i)) as [[-> F]|[Li [e [N0 [Le F]]]]];
        [lia| |].
      * left. split; [reflexivity|]. constructor; [lia|exact F].
      * right. split; [lia|]. exists e.
        replace (first_max best best_at (S i) ds - i)
          with (S (first_max best best_at (S i) ds - S i)) by lia.
        split; [exact N0|]. split; [lia|]. constructor; [lia|exact F].
Qed.

Lemma first_max_view : forall v rest,
  exists w, nth_error (v :: rest)
              (first_max (v_depth v) 0 1 (map v_depth rest)) = Some w /\
            v_depth w = depth_of (v :: rest).
Proof.
  intros v rest.
  destruct (first_max_spec (map v_depth rest) (v_depth v) 0 1)
    as [[-> F]|[L [d [N0 [B F]]]]]; [lia| |].
  - exists v. split; [reflexivity|]. unfold depth_of. cbn [map].
    change (list_max (v_depth v :: map v_depth rest)) with
      (Nat.max (v_depth v) (list_max (map v_depth rest))).
    apply list_max_le in F. lia.
  - set (r := first_max _ _ _ _) in *. clearbody r.
    rewrite nth_error_map in N0.
    destruct (nth_error rest (r - 1)) as [w|] eqn:W; [|discriminate].
    exists w. split.
    + replace r with (S (r - 1)) by lia. exact W.
    + assert (v_depth w = d) by (cbn in N0; congruence).
      unfold depth_of. cbn [map].
      change (list_max (v_depth v :: map v_depth rest)) with
        (Nat.max (v_depth v) (list_max (map v_depth rest))).
      assert (list_max (map v_depth rest) <= d) by (apply list_max_le; exact F).
      assert (v_depth w <= list_max (map v_depth rest)).
      { apply nth_error_In in W. apply (depth_of_le rest w W). }
      lia.
Qed.

Lemma mapM_state : forall A B (f : A -> M B) (R : A -> B -> Prop) l h h' ys,
  (forall a h1 y, In a l -> f a h = (h1, Ok y) -> h1 = h /\ R a y) ->
  mapM f l h = (h', Ok ys) -> h' = h /\ Forall2 R l ys.
Proof.
  induction l as [|a l IH]; intros h h' ys H E; cbn in E.
  - unfold ret in E. assert (h' = h /\ ys = []) by (split; congruence).
    destruct H0 as [-> ->]. split; [reflexivity|constructor].
  - unfold bind in E. destruct (f a h) as [h1 [y|e]] eqn:F; [|discriminate].
    destruct (H a h1 y) as [-> Q]; [left; reflexivity|exact F|].
    destruct (mapM f l h) as [h2 [zs|e]] eqn:G; [|discriminate].
    unfold ret in E. destruct (IH h h2 zs) as [-> Q2]; [|exact G|].
    + intros b h1 z J. apply H. right. exact J.
    + assert (h' = h /\ ys = y :: zs) by (split; congruence).
      destruct H0 as [-> ->]. split; [reflexivity|].
      constructor; assumption.
Qed.

Lemma mapM_total : forall A B (f : A -> M B) l h,
  (forall a, In a l -> exists y, f a h = (h, Ok y)) ->
  exists ys, mapM f l h = (h, Ok ys).
Proof.
  induction l as [|a l IH]; intros h H; cbn.
  - exists []. reflexivity.
  - destruct (H a) as [y E]; [left; reflexivity|].
    destruct (IH h) as [ys Ey].
    { intros b J. apply H. right. exact J. }
    exists (y :: ys). unfold bind. rewrite E, Ey. reflexivity.
Qed.

(** The aligned views have the largest depth and the items of the given
    ones. *)
Lemma align_ok : forall vs h h' ws,
  Forall good vs -> align vs h = (h', Ok ws) ->
  h' = h /\ Forall2 (aligned_to (depth_of vs)) vs ws /\
  (forall v w, In v vs -> In w ws -> v_depth v = depth_of vs ->
     same_shape (depth_of vs) (v_obj w) (v_obj v)) /\
  aligned vs.
Proof.
  intros vs h h' ws G E. destruct vs as [|v [|v2 rest]].
  - cbn in E. unfold ret in E.
    assert (h' = h /\ ws = []) by (split; congruence).
    destruct H as [-> ->]. split; [reflexivity|]. split; [constructor|].
    split; [intros ? ? []|]. intros ? ? ? ? [].
  - cbn in E. unfold ret in E.
    assert (h' = h /\ ws = [v]) by (split; congruence).
    destruct H as [-> ->]. split; [reflexivity|].
    rewrite depth_one. inversion G; subst.
    split.
    + constructor; [|constructor]. split; [lia|]. split; [lia|].
      split; [assumption|]. intros p L _. rewrite firstn_self by exact L.
      reflexivity.
    + split; [|apply aligned_one; assumption].
      intros u w [<-|[]] [<-|[]] _ p Lp. tauto.
  - set (vs := v :: v2 :: rest) in *.
    assert (EA : align vs h =
      match nth_error vs (first_max (v_depth v) 0 1 (map v_depth (v2 :: rest)))
      with
      | None => (h, Raise Unreachable)
      | Some rv => mapM (fun '(i, w) => expand_to
            (i =? first_max (v_depth v) 0 1 (map v_depth (v2 :: rest)))
            rv 0 w) (combine (seq 0 (length vs)) vs) h
      end).
    { unfold vs, align. destruct (nth_error _ _); reflexivity. }
    rewrite EA in E. clear EA.
    destruct (first_max_view v (v2 :: rest)) as [rv [N0 D]].
    fold vs in N0, D. set (k := first_max _ _ _ _) in *. clearbody k.
    rewrite N0 in E.
    assert (Jr : In rv vs) by (eapply nth_error_In; exact N0).
    assert (Gr : good rv) by (rewrite Forall_forall in G; apply G; exact Jr).
    apply mapM_state with
      (R := fun iw r => aligned_to (depth_of vs) (snd iw) r /\
              aligned [snd iw; rv] /\
              same_shape (depth_of vs) (v_obj r) (v_obj rv)) in E.
    2:{ intros [i w] h1 r J X. apply in_combine_seq in J.
      destruct J as [_ J]. rewrite Nat.sub_0_r in J.
      assert (Gw : good w).
      { rewrite Forall_forall in G. apply G. eapply nth_error_In; exact J. }
      apply expand_ok in X; [|exact Gw|exact Gr|].
      2:{ intros Q. assert (i = k) by lia. subst i. congruence. }
      destruct X as [n [En [-> [L1 [L2 [A [Dr [Gr' [SH IT]]]]]]]]].
      assert (n = 0) by lia. subst n. rewrite Nat.sub_0_r in *.
      rewrite Nat.add_0_r in Dr. rewrite D in *.
      split; [reflexivity|]. cbn [snd].
      split.
      { split; [exact L2|]. split; [exact Dr|]. split; [exact Gr'|].
        intros p L X. specialize (IT p [] L).
        rewrite !app_nil_r in IT. apply IT. apply SH; [lia|exact X]. }
      split; [|exact SH].
      destruct w; exact A. }
    destruct E as [-> F].
    assert (FV : Forall2 (fun w r => aligned_to (depth_of vs) w r /\
        aligned [w; rv] /\ same_shape (depth_of vs) (v_obj r) (v_obj rv))
        vs ws).
    { assert (CS := combine_snd (seq 0 (length vs)) vs (seq_length _ _)).
      generalize (depth_of vs) (combine (seq 0 (length vs)) vs) F CS.
      clear. intros D l F CS. rewrite <- CS. clear CS.
      induction F; cbn; constructor; assumption. }
    clear F. split; [reflexivity|]. split.
    { eapply Forall2_weaken; [|exact FV]. intros a b [H _]. exact H. }
    assert (AL : aligned vs).
    { intros a b p xs Ja Jb La Lb X.
      destruct (Forall2_in_l _ _ _ _ _ _ FV Ja) as [ra [_ [[Qa _] [Aa _]]]].
      destruct (Forall2_in_l _ _ _ _ _ _ FV Jb) as [rb [_ [[Qb _] [Ab _]]]].
      destruct (Aa a rv p xs) as [ys [Y1 Y2]];
        [left; reflexivity|right; left; reflexivity|exact La|lia|exact X|].
      destruct (Ab rv b p ys) as [zs [Z1 Z2]];
        [right; left; reflexivity|left; reflexivity|lia|exact Lb|exact Y1|].
      exists zs. split; [exact Z1|congruence]. }
    split; [|exact AL].
    intros a w Ja Jw Da.
    destruct (Forall2_in_r _ _ _ _ _ _ FV Jw) as [u [_ [_ [_ SH]]]].
    eapply same_shape_trans; [exact SH|].
    assert (Ga : good a) by (rewrite Forall_forall in G; apply G; exact Ja).
    destruct (Forall2_in_l _ _ _ _ _ _ FV Ja) as [ra [_ [_ [Aa _]]]].
    pose proof (aligned_shape _ _ Ga Gr Aa) as Q.
    rewrite Da, D, Nat.min_id in Q. apply same_shape_sym. exact Q.
Qed.

Lemma align_total : forall vs h,
  Forall good vs -> aligned vs -> exists ws, align vs h = (h, Ok ws).
Proof.
  intros vs h G A. destruct vs as [|v [|v2 rest]];
    [eexists; reflexivity|eexists; reflexivity|].
  unfold align.
  destruct (first_max_view v (v2 :: rest)) as [rv [N0 D]].
  rewrite N0. set (vs := v :: v2 :: rest) in *.
  set (k := first_max _ _ _ _) in *. clearbody k.
  assert (Jr : In rv vs) by (eapply nth_error_In; exact N0).
  apply mapM_total. intros [i w] J. apply in_combine_seq in J.
  destruct J as [_ J]. apply nth_error_In in J.
  rewrite Forall_forall in G.
  apply (expand_total _ rv 0 w).
  - apply G. exact J.
  - apply G. exact Jr.
  - lia.
  - rewrite D. pose proof (depth_of_le _ _ J). lia.
  - rewrite Nat.sub_0_r.
    replace (View (v_obj w) (v_depth w)) with w by (destruct w; reflexivity).
    intros a b p xs Ja Jb. apply A.
    + destruct Ja as [<-|[<-|[]]]; assumption.
    + destruct Jb as [<-|[<-|[]]]; assumption.
Qed.

(** ** map_ *)

Lemma map_unfold : forall F inc vs h,
  vs <> [] ->
  map_ F 0 inc vs h =
  match on_views F (match inc with Some b => b | None => false end) vs h with
  | (h', Ok o) => (h', Ok (View o (depth_of vs)))
  | (h', Raise e) => (h', Raise e)
  end.
Proof.
  intros F inc vs h NE. destruct vs as [|v vs]; [congruence|].
  unfold map_. cbn [Z.eqb negb]. reflexivity.
Qed.

(** With dimensions passed to the function: the views are aligned, and the
    function gets the structures [n] levels above the items. *)
Lemma map_ndim_unfold : forall F inc n vs h,
  0 < n -> vs <> [] -> Forall good vs -> inc <> Some false ->
  map_ F (Z.of_nat n) inc vs h =
  match align vs h with
  | (h', Raise e) => (h', Raise e)
  | (h', Ok ws) =>
      if depth_of vs <? n then (h', Raise TooManyDims)
      else
        match on_views F true
                (map (fun w => View (v_obj w) (depth_of vs - n)) ws) h' with
        | (h2, Ok o) => (h2, Ok (View o (depth_of vs - n)))
        | (h2, Raise e) => (h2, Raise e)
        end
  end.
Proof.
  intros F inc n vs h P NE G IM. unfold map_.
  replace (Z.of_nat n =? 0)%Z with false by lia. cbn [negb].
  replace (match inc with Some b => b | None => true end) with true
    by (destruct inc as [[|]|]; congruence).
  cbn [negb]. replace (Z.of_nat n <? 0)%Z with false by lia.
  unfold bind. destruct (align vs h) as [h1 [ws|e]] eqn:E; [|reflexivity].
  destruct (align_ok _ _ _ _ G E) as [-> [F2 _]].
  assert (NW : ws <> []).
  { intros ->. inversion F2; subst. congruence. }
  destruct ws as [|w ws]; [congruence|].
  assert (AD : Forall (fun w => v_depth w = depth_of vs) (w :: ws)).
  { apply Forall_forall. intros u U.
    destruct (Forall2_in_r _ _ _ _ _ _ F2 U) as [v [_ [_ [Q _]]]]. exact Q. }
  assert (DM : list_max (map v_depth (w :: ws)) = depth_of vs).
  { destruct (deepest (w :: ws)) as [u [U DU]]; [congruence|].
    fold (depth_of (w :: ws)). rewrite <- DU.
    rewrite Forall_forall in AD. apply AD. exact U. }
  cbv zeta. rewrite DM.
  replace (forallb (fun w0 => v_depth w0 =? depth_of vs) (w :: ws)) with true.
  2:{ symmetry. apply forallb_forall. intros u U.
      rewrite Forall_forall in AD. specialize (AD u U). lia. }
  cbn [negb].
  destruct (depth_of vs <? n) eqn:L.
  - replace (Z.of_nat (depth_of vs) <? Z.of_nat n)%Z with true by lia.
    reflexivity.
  - replace (Z.of_nat (depth_of vs) <? Z.of_nat n)%Z with false by lia.
    rewrite Nat2Z.id. unfold on_views. rewrite !map_map. cbn [v_depth v_obj].
    reflexivity.
Qed.
