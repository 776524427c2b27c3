(** * Proofs about group_by and collapse. *)

From Coq Require Import List Arith Bool ZArith Lia ZifyBool Permutation
  Sorted.
From Verif Require Import ViewModel ViewSpec ViewProofs ViewOpsProofs
  ViewLawsProofs ViewFlattenProofs.
Import ListNotations.
Local Open Scope nat_scope.
Local Arguments Nat.leb : simpl never.
Local Arguments Nat.ltb : simpl never.
Local Arguments Nat.eqb : simpl never.
Local Arguments Nat.sub : simpl never.

(** ** collapse *)

Section Collapse.
Variable iterate : Z -> option (list obj).
Variable py_eq : obj -> obj -> bool.

Lemma collapse_loop_some : forall xs y, is_none y = false ->
  collapse_loop py_eq y xs =
  if forallb (py_eq y) (filter (fun x => negb (is_none x)) xs)
  then y else PNone.
Proof.
  induction xs as [|x xs IH]; intros y N0; cbn; [reflexivity|].
  destruct (is_none x) eqn:X; cbn; [apply IH; exact N0|].
  rewrite N0. destruct (py_eq y x); cbn; [apply IH; exact N0|reflexivity].
Qed.

Lemma collapse_loop_spec : forall xs,
  collapse_loop py_eq PNone xs = common py_eq xs.
Proof.
  unfold common. induction xs as [|x xs IH]; cbn; [reflexivity|].
  destruct (is_none x) eqn:X; cbn; [exact IH|].
  apply collapse_loop_some. exact X.
Qed.

Definition gcollapse (args : list obj) : outcome obj :=
  match args with
  | [x] => match items x with
           | Ok xs => Ok (common py_eq xs)
           | Raise e => Raise e
           end
  | _ => Raise Unreachable
  end.

Lemma collapse_impl_pure : forall args h,
  collapse_impl py_eq args h = (h, gcollapse args).
Proof.
  intros [|x [|y args]] h; try reflexivity.
  unfold collapse_impl, gcollapse, bind, lift, ret.
  destruct (items x); [|reflexivity]. rewrite collapse_loop_spec. reflexivity.
Qed.

Lemma collapse_ok : forall n v h,
  good v -> n <= v_depth v ->
  exists h' r, collapse iterate py_eq (Z.of_nat n) v h = (h', Ok r) /\
    heap_grew h h' /\ v_depth r = v_depth v - n /\ good r /\
    same_shape (v_depth v - n) (v_obj r) (v_obj v) /\
    (forall p x, length p = v_depth v - n -> at_ p (v_obj v) = Some x ->
       at_ p (v_obj r) = Some (common py_eq (leaves n x))).
Proof.
  intros n v h G L. unfold collapse.
  replace (Z.of_nat n <? 0)%Z with false by lia.
  replace (Z.of_nat (v_depth v) <? Z.of_nat n)%Z with false by lia.
  cbn [orb]. unfold bind.
  destruct (flatten_ok iterate (Z.of_nat (v_depth v) - Z.of_nat n) None v h G)
    as [h' [w [E [HG [Dw [Gw [SH IT]]]]]]].
  assert (CL : clipped (Z.of_nat (v_depth v) - Z.of_nat n) (v_depth v)
               = v_depth v - n).
  { unfold clipped. destruct (_ <? 0)%Z eqn:Q; lia. }
  rewrite CL in *. cbn [last_dim] in *. clear CL.
  replace (v_depth v - (v_depth v - n)) with n in * by lia.
  rewrite E.
  change (map_ (collapse_impl py_eq) 1 None [w] h') with
    (map_ (collapse_impl py_eq) (Z.of_nat 1) None [w] h').
  rewrite map_ndim_unfold; [|lia|discriminate| |discriminate].
  2:{ constructor; [exact Gw|constructor]. }
  cbn [align]. unfold ret. rewrite depth_one, Dw. cbn [map].
  replace (v_depth v - n + 1 <? 1) with false by lia.
  replace (v_depth v - n + 1 - 1) with (v_depth v - n) by lia.
  set (k := v_depth v - n) in *.
  set (iw := View (v_obj w) k).
  assert (Gi : good iw).
  { unfold good, iw in *. cbn. eapply shaped_below; [|exact Gw]. lia. }
  assert (TUP : forall p x, length p = k -> at_ p (v_obj w) = Some x ->
            exists y, at_ p (v_obj v) = Some y /\ x = PTuple (leaves n y)).
  { intros p x Lp X. destruct (SH p) as [Q _]; [lia|].
    destruct Q as [y Y]; [eexists; exact X|]. exists y. split; [exact Y|].
    rewrite (IT p y Lp Y) in X. congruence. }
  destruct (views_pure_total [iw] (collapse_impl py_eq) gcollapse true h')
    as [r R].
  - discriminate.
  - intros; apply collapse_impl_pure.
  - constructor; [exact Gi|constructor].
  - apply aligned_one. exact Gi.
  - rewrite depth_one. cbn [iw v_depth]. intros p xs Lp Rw.
    apply row_one in Rw. destruct Rw as [x [-> X]].
    cbn [iw v_depth v_obj] in X. rewrite firstn_self in X by exact Lp.
    destruct (TUP p x Lp X) as [y [_ ->]]. eexists. reflexivity.
  - rewrite R.
    apply views_pure_ok with (g := gcollapse) in R;
      [|discriminate|intros; apply collapse_impl_pure].
    rewrite depth_one in R. cbn [iw v_depth v_obj] in R.
    destruct R as [_ [_ [_ [Sr [P1 P2]]]]].
    exists h', (View r k). split; [reflexivity|].
    split; [exact HG|]. cbn [v_depth v_obj]. split; [reflexivity|].
    split; [exact Sr|].
    assert (S1 : same_shape k r (v_obj w)).
    { intros p Lp. rewrite P1 by exact Lp. split.
      - intros [xs Rw]. apply row_one in Rw. destruct Rw as [x [_ X]].
        cbn [iw v_depth v_obj] in X. rewrite firstn_all2 in X by exact Lp.
        exists x. exact X.
      - intros [x X]. exists [x]. apply row_one. exists x.
        cbn [iw v_depth v_obj]. rewrite firstn_all2 by exact Lp. auto. }
    split; [eapply same_shape_trans; [exact S1|exact SH]|].
    intros p x Lp X. apply P2; [exact Lp|].
    exists [PTuple (leaves n x)]. split.
    + apply row_one. exists (PTuple (leaves n x)).
      cbn [iw v_depth v_obj]. rewrite firstn_self by exact Lp.
      split; [reflexivity|]. apply IT; assumption.
    + reflexivity.
Qed.

End Collapse.

(** ** group_by *)

Section Group.
Variable py_eq : obj -> obj -> bool.
Variable hashable : obj -> bool.
Variable key_less : list obj -> list obj -> bool.
Hypothesis eq_refl : forall a, py_eq a a = true.
Hypothesis eq_sym : forall a b, py_eq a b = true -> py_eq b a = true.
Hypothesis eq_trans : forall a b c,
  py_eq a b = true -> py_eq b c = true -> py_eq a c = true.

Let same := key_eq py_eq.

Lemma same_refl : forall k, same k k = true.
Proof.
  unfold same. induction k as [|a k IH]; cbn; [reflexivity|].
  rewrite eq_refl. exact IH.
Qed.

Lemma same_sym : forall k l, same k l = true -> same l k = true.
Proof.
  unfold same. induction k as [|a k IH]; intros [|b l] H; cbn in *;
    try discriminate; [reflexivity|].
  apply andb_true_iff in H. destruct H as [H1 H2].
  rewrite (eq_sym _ _ H1). apply IH. exact H2.
Qed.

Lemma same_trans : forall k l m,
  same k l = true -> same l m = true -> same k m = true.
Proof.
  unfold same. induction k as [|a k IH]; intros [|b l] [|c m] H1 H2;
    cbn in *; try discriminate; [reflexivity|].
  apply andb_true_iff in H1. apply andb_true_iff in H2.
  destruct H1 as [A1 A2]. destruct H2 as [B1 B2].
  rewrite (eq_trans _ _ _ A1 B1). eapply IH; eassumption.
Qed.

(** *** zip *)

Lemma heads_spec : forall cols hs,
  heads cols = Some hs <->
  Forall2 (fun c y => nth_error c 0 = Some y) cols hs.
Proof.
  clear. induction cols as [|c cols IH]; intros hs; cbn.
  - split; [intros E; assert (hs = []) by congruence; subst; constructor|].
    intros F; inversion F; reflexivity.
  - destruct c as [|a c].
    + split; [discriminate|]. intros F. inversion F. discriminate.
    + destruct (heads cols) as [gs|] eqn:H.
      * split.
        -- intros E. assert (hs = a :: gs) by congruence. subst.
           constructor; [reflexivity|]. apply IH. reflexivity.
        -- intros F. inversion F as [|? y ? ys F1 F2]; subst.
           apply IH in F2. cbn in F1. congruence.
      * split; [discriminate|]. intros F.
        inversion F as [|? y ? ys F1 F2]; subst. apply IH in F2.
        discriminate.
Qed.

Lemma zip_rows_ok : forall xs cols rows,
  zip_rows xs cols = (rows, true) ->
  Forall (fun c => length c = length xs) cols /\
  length rows = length xs /\
  forall i x, nth_error xs i = Some x ->
    exists hs, nth_error rows i = Some (x, hs) /\
      Forall2 (fun c y => nth_error c i = Some y) cols hs.
Proof.
  clear. induction xs as [|x xs IH]; intros cols rows E; cbn in E.
  - assert (rows = []) by congruence. subst.
    assert (F : forallb (fun c : list obj => match c with [] => true
                          | _ => false end) cols = true) by congruence.
    split.
    + apply Forall_forall. intros c J. rewrite forallb_forall in F.
      specialize (F c J). destruct c; [reflexivity|discriminate].
    + split; [reflexivity|]. intros [|i] x X; discriminate.
  - destruct (heads cols) as [hs|] eqn:H; [|discriminate].
    destruct (zip_rows xs (map (@tl obj) cols)) as [rs ok] eqn:Z0.
    assert (rows = (x, hs) :: rs /\ ok = true) by (split; congruence).
    destruct H0 as [-> ->]. apply heads_spec in H.
    destruct (IH _ _ Z0) as [F [L N0]]. split; [|split].
    + clear - F H. rewrite Forall_map in F.
      induction H as [|c y cols hs H1 H2 IH]; [constructor|].
      inversion F as [|? ? F1 F2]; subst. constructor; [|apply IH; exact F2].
      destruct c; [discriminate|]. cbn in *. lia.
    + cbn. lia.
    + intros [|i] y Y.
      * cbn in Y. assert (y = x) by congruence. subst. exists hs.
        split; [reflexivity|exact H].
      * cbn in Y. destruct (N0 i y Y) as [gs [G1 G2]]. exists gs.
        split; [exact G1|]. clear - G2.
        remember (map (@tl obj) cols) as tls. revert cols Heqtls.
        induction G2 as [|c y tls gs H F IH]; intros [|d cols] E;
          try discriminate; constructor; inversion E; subst.
        -- destruct d; [destruct i; discriminate|]. exact H.
        -- apply IH. reflexivity.
Qed.

Lemma zip_rows_total : forall xs cols,
  Forall (fun c => length c = length xs) cols ->
  exists rows, zip_rows xs cols = (rows, true).
Proof.
  clear. induction xs as [|x xs IH]; intros cols F; cbn.
  - exists []. f_equal. apply forallb_forall. intros c J.
    rewrite Forall_forall in F. specialize (F c J).
    destruct c; [reflexivity|discriminate].
  - assert (H : exists hs, heads cols = Some hs).
    { clear IH. induction F as [|c cols H F IH]; [exists []; reflexivity|].
      destruct IH as [hs E]. cbn. destruct c; [discriminate|].
      rewrite E. eexists; reflexivity. }
    destruct H as [hs ->].
    destruct (IH (map (@tl obj) cols)) as [rows ->].
    { rewrite Forall_map. eapply Forall_impl; [|exact F].
      intros c L. destruct c; cbn in *; lia. }
    eexists. reflexivity.
Qed.

(** *** the loop *)

Definition key_of (row : obj * list obj) : list obj * obj :=
  (match snd row with [] => [fst row] | _ => snd row end, fst row).

Lemma distinct_snoc : forall ks seen k,
  distinct same seen (ks ++ [k]) =
  distinct same seen ks ++
    (if existsb (fun s => same s k) (seen ++ distinct same seen ks)
     then [] else [k]).
Proof.
  induction ks as [|c ks IH]; intros seen k; cbn.
  - rewrite app_nil_r. destruct (existsb _ seen); reflexivity.
  - destruct (existsb (fun s => same s c) seen) eqn:E; [apply IH|].
    cbn. rewrite IH. f_equal. f_equal.
    rewrite <- app_assoc. reflexivity.
Qed.

Lemma distinct_covers : forall ks seen k,
  In k ks -> exists d, In d (seen ++ distinct same seen ks) /\
                       same d k = true.
Proof.
  induction ks as [|c ks IH]; intros seen k J; [destruct J|].
  cbn. destruct (existsb (fun s => same s c) seen) eqn:E.
  - destruct J as [->|J]; [|apply IH; exact J].
    apply existsb_exists in E. destruct E as [d [D1 D2]].
    exists d. split; [apply in_or_app; left; exact D1|exact D2].
  - destruct J as [->|J].
    + exists k. split; [apply in_or_app; right; left; reflexivity|].
      apply same_refl.
    + destruct (IH (seen ++ [c]) k J) as [d [D1 D2]]. exists d.
      split; [|exact D2]. rewrite <- app_assoc in D1. exact D1.
Qed.

Lemma distinct_sub : forall ks seen d,
  In d (distinct same seen ks) -> In d ks.
Proof.
  clear. induction ks as [|c ks IH]; intros seen d J; [destruct J|].
  cbn in J. destruct (existsb _ seen).
  - right. eapply IH. exact J.
  - destruct J as [->|J]; [left; reflexivity|right; eapply IH; exact J].
Qed.

(** Any two keys listed are different, also from those seen. *)
Lemma distinct_apart : forall ks seen,
  ForallOrdPairs (fun a b => same a b = false) (distinct same seen ks) /\
  forall s d, In s seen -> In d (distinct same seen ks) -> same s d = false.
Proof.
  clear. induction ks as [|c ks IH]; intros seen; cbn.
  - split; [constructor|]. intros s d _ [].
  - destruct (existsb (fun s => same s c) seen) eqn:E; [apply IH|].
    destruct (IH (seen ++ [c])) as [F1 F2]. split.
    + constructor; [|exact F1]. apply Forall_forall. intros d J.
      apply F2; [apply in_or_app; right; left; reflexivity|exact J].
    + intros s d S0 [<-|J].
      * apply Bool.not_true_iff_false. intros X.
        apply Bool.not_true_iff_false in E. apply E.
        apply existsb_exists. exists s. split; assumption.
      * apply F2; [apply in_or_app; left; exact S0|exact J].
Qed.

Lemma with_key_snoc : forall k kxs key x,
  with_key same k (kxs ++ [(key, x)]) =
  with_key same k kxs ++ (if same k key then [x] else []).
Proof.
  intros. unfold with_key. rewrite filter_app, map_app. cbn.
  destruct (same k key); reflexivity.
Qed.

Lemma with_key_none : forall k kxs,
  (forall k' x, In (k', x) kxs -> same k k' = false) ->
  with_key same k kxs = [].
Proof.
  clear. unfold with_key. induction kxs as [|[k' x] kxs IH]; intros H; cbn;
    [reflexivity|].
  rewrite (H k' x) by (left; reflexivity). apply IH.
  intros k2 x2 J. eapply H. right. exact J.
Qed.

(** Adding one item to the groups. *)
Lemma add_found : forall ds kxs key x,
  ForallOrdPairs (fun a b => same a b = false) ds ->
  existsb (fun d => same d key) ds = true ->
  add_to_group py_eq key x (map (fun k => (k, with_key same k kxs)) ds) =
  map (fun k => (k, with_key same k (kxs ++ [(key, x)]))) ds.
Proof.
  induction ds as [|d ds IH]; intros kxs key x F E; [discriminate|].
  cbn. rewrite with_key_snoc.
  inversion F as [|? ? F1 F2]; subst. cbn in E.
  fold same. destruct (same d key) eqn:Q.
  - f_equal. apply map_ext_in. intros k J. rewrite with_key_snoc.
    rewrite Forall_forall in F1. specialize (F1 k J).
    destruct (same k key) eqn:R.
    + exfalso. apply same_sym in R. rewrite (same_trans _ _ _ Q R) in F1.
      discriminate.
    + rewrite app_nil_r. reflexivity.
  - cbn in E. rewrite app_nil_r. f_equal. apply IH; assumption.
Qed.

Lemma add_new : forall ds kxs key x,
  existsb (fun d => same d key) ds = false ->
  add_to_group py_eq key x (map (fun k => (k, with_key same k kxs)) ds) =
  map (fun k => (k, with_key same k (kxs ++ [(key, x)]))) ds ++ [(key, [x])].
Proof.
  induction ds as [|d ds IH]; intros kxs key x E; [reflexivity|].
  cbn. rewrite with_key_snoc. cbn in E. fold same.
  destruct (same d key) eqn:Q; [discriminate|].
  rewrite app_nil_r. f_equal. apply IH. exact E.
Qed.

Definition groups_of (kxs : list (list obj * obj)) :=
  map (fun k => (k, with_key same k kxs)) (distinct same [] (map fst kxs)).

Lemma groups_snoc : forall kxs key x,
  add_to_group py_eq key x (groups_of kxs) = groups_of (kxs ++ [(key, x)]).
Proof.
  intros kxs key x. unfold groups_of. rewrite map_app. cbn [map fst].
  rewrite distinct_snoc. cbn [app].
  destruct (existsb (fun s => same s key) (distinct same [] (map fst kxs)))
    eqn:E.
  - rewrite app_nil_r. apply add_found; [|exact E]. apply distinct_apart.
  - rewrite map_app. cbn [map]. rewrite add_new by exact E.
    f_equal. f_equal. f_equal. rewrite with_key_snoc, same_refl.
    rewrite with_key_none; [reflexivity|].
    intros k' x' J. apply Bool.not_true_iff_false. intros Q.
    destruct (distinct_covers (map fst kxs) [] k') as [d [D1 D2]].
    { apply in_map_iff. exists (k', x'). split; [reflexivity|exact J]. }
    apply Bool.not_true_iff_false in E. apply E. apply existsb_exists.
    exists d. split; [exact D1|].
    eapply same_trans; [exact D2|]. apply same_sym. exact Q.
Qed.

Lemma grouped_groups_of : forall kxs,
  grouped same kxs = groups_of (present_rows kxs).
Proof. reflexivity. Qed.

Lemma group_loop_spec : forall rows kxs gs,
  group_loop py_eq hashable rows (groups_of kxs) = Ok gs <->
  (forall k x, In (k, x) (present_rows (map key_of rows)) ->
     forallb hashable k = true) /\
  gs = groups_of (kxs ++ present_rows (map key_of rows)).
Proof.
  induction rows as [|[x args] rows IH]; intros kxs gs; cbn [group_loop map].
  - cbn. rewrite app_nil_r. split.
    + intros E. split; [intros k x []|congruence].
    + intros [_ ->]. reflexivity.
  - set (key := match args with [] => [x] | _ => args end).
    assert (PR : present_rows (key_of (x, args) :: map key_of rows) =
      if existsb is_none key then present_rows (map key_of rows)
      else (key, x) :: present_rows (map key_of rows)).
    { unfold present_rows at 1. unfold key_of at 1. cbn [filter fst snd].
      fold key. destruct (existsb is_none key); reflexivity. }
    rewrite PR. clear PR.
    destruct (existsb is_none key) eqn:N0.
    + apply IH.
    + destruct (forallb hashable key) eqn:H.
      * rewrite groups_snoc, IH. rewrite <- app_assoc. cbn [app].
        split; intros [H1 H2]; split; auto.
        -- intros k y [E|J]; [|apply (H1 k y J)].
           assert (k = key) by congruence. subst k. exact H.
        -- intros k y J. apply (H1 k y). right. exact J.
      * split; [discriminate|]. intros [H1 _]. exfalso.
        rewrite (H1 key x) in H; [discriminate|]. left. reflexivity.
Qed.

(** *** sorting *)

Section Sorting.
Hypothesis less_trans : forall a b c,
  key_less a b = true -> key_less b c = true -> key_less a c = true.
Hypothesis less_total : forall a b,
  same a b = false -> key_less a b = true \/ key_less b a = true.
Hypothesis less_asym : forall a b,
  key_less a b = true -> key_less b a = false.

Let below (g g' : list obj * list obj) : Prop :=
  key_less (fst g) (fst g') = true.

Lemma insert_perm : forall g l,
  Permutation (insert_sorted key_less g l) (g :: l).
Proof.
  clear. induction l as [|g' l IH]; cbn; [apply Permutation_refl|].
  destruct (key_less (fst g) (fst g')); [apply Permutation_refl|].
  rewrite IH. apply perm_swap.
Qed.

Lemma insert_keeps_sorted : forall g l,
  StronglySorted below l ->
  Forall (fun g' => same (fst g') (fst g) = false) l ->
  StronglySorted below (insert_sorted key_less g l).
Proof.
  intros g l S0. induction S0 as [|g' l S0 IH F]; intros D; cbn.
  - repeat constructor.
  - inversion D as [|? ? D1 D2]; subst.
    destruct (key_less (fst g) (fst g')) eqn:E.
    + constructor; [constructor; assumption|]. constructor; [exact E|].
      eapply Forall_impl; [|exact F]. intros a A. unfold below in *.
      eapply less_trans; eassumption.
    + constructor; [apply IH; exact D2|].
      apply Forall_forall. intros a J.
      apply (Permutation_in _ (insert_perm g l)) in J.
      destruct J as [<-|J].
      * unfold below.
        destruct (less_total _ _ D1) as [X|X]; [exact X|congruence].
      * rewrite Forall_forall in F. apply F. exact J.
Qed.

Lemma sort_spec : forall l,
  ForallOrdPairs (fun a b => same (fst a) (fst b) = false) l ->
  Permutation (sort_groups key_less l) l /\
  StronglySorted below (sort_groups key_less l).
Proof.
  intros l F. unfold sort_groups.
  assert (GEN : forall l acc,
    ForallOrdPairs (fun a b => same (fst a) (fst b) = false) l ->
    StronglySorted below acc ->
    (forall a b, In a acc -> In b l -> same (fst a) (fst b) = false) ->
    Permutation (fold_left (fun acc g => insert_sorted key_less g acc) l acc)
                (acc ++ l) /\
    StronglySorted below
      (fold_left (fun acc g => insert_sorted key_less g acc) l acc)).
  { clear F l. induction l as [|g l IH]; intros acc F S0 D; cbn.
    - rewrite app_nil_r. split; [apply Permutation_refl|exact S0].
    - inversion F as [|? ? F1 F2]; subst.
      destruct (IH (insert_sorted key_less g acc) F2) as [P1 S1].
      + apply insert_keeps_sorted; [exact S0|]. apply Forall_forall.
        intros a A. apply D; [exact A|left; reflexivity].
      + intros a b A B.
        apply (Permutation_in _ (insert_perm g acc)) in A.
        destruct A as [<-|A].
        * rewrite Forall_forall in F1. apply F1. exact B.
        * apply D; [exact A|right; exact B].
      + split; [|exact S1]. rewrite P1.
        rewrite (insert_perm g acc). cbn.
        apply Permutation_cons_app. apply Permutation_refl. }
  destruct (GEN l [] F) as [P S0]; [constructor|intros a b []|].
  split; assumption.
Qed.
End Sorting.

Lemma groups_apart : forall kxs,
  ForallOrdPairs (fun a b => same (fst a) (fst b) = false) (groups_of kxs).
Proof.
  intros kxs. unfold groups_of.
  destruct (distinct_apart (map fst kxs) []) as [F _].
  induction F as [|d ds H F IH]; cbn; constructor; [|exact IH].
  apply Forall_forall. intros a J. apply in_map_iff in J.
  destruct J as [k [<- J]]. cbn. rewrite Forall_forall in H. apply H.
  exact J.
Qed.

(** *** facts about the groups themselves *)

Lemma in_some_group : forall kxs k x,
  In (k, x) kxs ->
  exists d ys, In (d, ys) (groups_of kxs) /\ same d k = true /\ In x ys.
Proof.
  intros kxs k x J. unfold groups_of.
  destruct (distinct_covers (map fst kxs) [] k) as [d [D1 D2]].
  { apply in_map_iff. exists (k, x). split; [reflexivity|exact J]. }
  exists d, (with_key same d kxs). split.
  - apply in_map_iff. exists d. split; [reflexivity|exact D1].
  - split; [exact D2|]. unfold with_key. apply in_map_iff.
    exists (k, x). split; [reflexivity|]. apply filter_In.
    split; [exact J|exact D2].
Qed.

Lemma with_key_cons : forall d k x kxs,
  with_key same d ((k, x) :: kxs) =
  (if same d k then [x] else []) ++ with_key same d kxs.
Proof.
  clear. intros. unfold with_key. cbn [filter fst].
  destruct (same d k); reflexivity.
Qed.

Lemma pull_out : forall ds k x kxs,
  ForallOrdPairs (fun a b => same a b = false) ds ->
  existsb (fun d => same d k) ds = true ->
  Permutation (flat_map (fun d => with_key same d ((k, x) :: kxs)) ds)
              (x :: flat_map (fun d => with_key same d kxs) ds).
Proof.
  induction ds as [|d ds IH]; intros k x kxs F E; [discriminate|].
  inversion F as [|? ? F1 F2]; subst. cbn [existsb flat_map] in E |- *.
  rewrite with_key_cons.
  destruct (same d k) eqn:Q.
  - cbn [app]. constructor. apply Permutation_app_head.
    replace (flat_map (fun d0 => with_key same d0 ((k, x) :: kxs)) ds)
      with (flat_map (fun d0 => with_key same d0 kxs) ds);
      [apply Permutation_refl|].
    apply flat_map_ext_in. intros a A. rewrite with_key_cons.
    rewrite Forall_forall in F1. specialize (F1 a A).
    destruct (same a k) eqn:R; [|reflexivity].
    exfalso. apply same_sym in R. rewrite (same_trans _ _ _ Q R) in F1.
    discriminate.
  - cbn [app orb] in *. rewrite IH by (try assumption; exact E).
    apply Permutation_sym, Permutation_middle.
Qed.

Lemma groups_partition : forall kxs,
  Permutation (concat (map snd (groups_of kxs))) (map snd kxs).
Proof.
  intros kxs. unfold groups_of. rewrite map_map. cbn [snd].
  rewrite <- flat_map_concat_map.
  assert (GEN : forall ds kxs,
    ForallOrdPairs (fun a b => same a b = false) ds ->
    (forall k x, In (k, x) kxs -> existsb (fun d => same d k) ds = true) ->
    Permutation (flat_map (fun d => with_key same d kxs) ds) (map snd kxs)).
  { clear kxs. intros ds kxs F. induction kxs as [|[k x] kxs IH]; intros C.
    - clear. induction ds as [|d ds IH]; cbn; [constructor|exact IH].
    - rewrite pull_out; [|exact F|].
      + cbn. constructor. apply IH. intros k' x' J. eapply C. right. exact J.
      + eapply C. left. reflexivity. }
  apply GEN.
  - apply distinct_apart.
  - intros k x J.
    destruct (distinct_covers (map fst kxs) [] k) as [d [D1 D2]].
    { apply in_map_iff. exists (k, x). split; [reflexivity|exact J]. }
    apply existsb_exists. exists d. split; assumption.
Qed.

(** *** the operation *)

Definition ggroup (sort : bool) (args : list obj) : outcome obj :=
  match all_items args with
  | Raise e => Raise e
  | Ok [] => Raise Unreachable
  | Ok (xs :: ks) =>
      let (rows, together) := zip_rows xs ks in
      match group_loop py_eq hashable rows [] with
      | Raise e => Raise e
      | Ok groups =>
          if negb together then Raise ZipStrict
          else Ok (PTuple (map (fun g => PTuple (snd g))
                 (if sort then sort_groups key_less groups else groups)))
      end
  end.

Lemma group_impl_pure : forall sort args h,
  group_by_impl py_eq hashable key_less sort args h = (h, ggroup sort args).
Proof.
  clear. intros sort args h. unfold group_by_impl, ggroup, bind, lift.
  destruct (all_items args) as [[|xs ks]|e]; try reflexivity.
  destruct (zip_rows xs ks) as [rows together].
  destruct (group_loop py_eq hashable rows []) as [groups|e]; [|reflexivity].
  destruct together; reflexivity.
Qed.

Lemma all_items_tuples : forall cols,
  all_items (map PTuple cols) = Ok cols.
Proof.
  clear. induction cols as [|c cols IH]; cbn; [reflexivity|].
  rewrite IH. reflexivity.
Qed.

Lemma implode_all : forall d ws h,
  Forall (fun w => v_depth w = S d) ws ->
  mapM (fun w => lift (implode 1 w)) ws h =
  (h, Ok (map (fun w => View (v_obj w) d) ws)).
Proof.
  clear. intros d ws h F. induction F as [|w ws H F IH]; [reflexivity|].
  cbn [mapM map]. unfold bind at 1. unfold lift at 1.
  assert (I1 : implode 1 w = Ok (View (v_obj w) d)).
  { change 1%Z with (Z.of_nat 1). rewrite implode_ok by lia.
    f_equal. f_equal. lia. }
  rewrite I1. unfold bind. rewrite IH. reflexivity.
Qed.

Lemma depth_same : forall d ws, ws <> [] ->
  depth_of (map (fun w => View (v_obj w) d) ws) = d.
Proof.
  clear. intros d ws NE.
  destruct (deepest (map (fun w => View (v_obj w) d) ws)) as [u [U <-]].
  - destruct ws; [congruence|discriminate].
  - apply in_map_iff in U. destruct U as [w [<- _]]. reflexivity.
Qed.

Lemma group_by_unfold : forall sort keys v h,
  0 < v_depth v -> Forall (fun k => v_depth k = v_depth v) keys ->
  group_by py_eq hashable key_less sort keys v h =
  match on_views (group_by_impl py_eq hashable key_less sort) false
          (map (fun w => View (v_obj w) (v_depth v - 1)) (v :: keys)) h with
  | (h', Ok o) => (h', Ok (View o (v_depth v + 1)))
  | (h', Raise e) => (h', Raise e)
  end.
Proof.
  clear. intros sort keys v h P F. unfold group_by.
  replace (v_depth v =? 0) with false by lia.
  replace (forallb (fun k => v_depth k =? v_depth v) keys) with true.
  2:{ symmetry. apply forallb_forall. intros k J.
      rewrite Forall_forall in F. specialize (F k J). lia. }
  cbn [negb]. unfold bind at 1.
  rewrite (implode_all (v_depth v - 1)).
  2:{ constructor; [lia|]. eapply Forall_impl; [|exact F]. cbn. intros; lia. }
  unfold bind. rewrite map_unfold by discriminate.
  rewrite depth_same by discriminate.
  destruct (on_views _ false _ h) as [h' [o|e]]; [|reflexivity].
  unfold ret. cbn [v_obj v_depth].
  replace (v_depth v - 1 + 2) with (v_depth v + 1) by lia. reflexivity.
Qed.

Lemma group_by_cases : forall sort keys v h h' r,
  group_by py_eq hashable key_less sort keys v h = (h', Ok r) ->
  0 < v_depth v /\ Forall (fun k => v_depth k = v_depth v) keys.
Proof.
  clear. intros sort keys v h h' r E. unfold group_by in E.
  destruct (v_depth v =? 0) eqn:Z0; [discriminate|].
  destruct (forallb (fun k => v_depth k =? v_depth v) keys) eqn:F;
    [|discriminate].
  split; [lia|]. apply Forall_forall. intros k J.
  rewrite forallb_forall in F. specialize (F k J). lia.
Qed.

(** What the structure of the result is at one place. *)
Lemma ggroup_spec : forall sort xs cols y,
  ggroup sort (map PTuple (xs :: cols)) = Ok y ->
  exists rows gs,
    Forall (fun c => length c = length xs) cols /\
    length rows = length xs /\
    (forall i x, nth_error xs i = Some x ->
       exists hs, nth_error rows i = Some (x, hs) /\
         Forall2 (fun c z => nth_error c i = Some z) cols hs) /\
    gs = (if sort then sort_groups key_less (grouped same (map key_of rows))
          else grouped same (map key_of rows)) /\
    y = PTuple (map (fun g => PTuple (snd g)) gs).
Proof.
  intros sort xs cols y E. unfold ggroup in E.
  rewrite all_items_tuples in E.
  destruct (zip_rows xs cols) as [rows together] eqn:Z0.
  destruct (group_loop py_eq hashable rows []) as [groups|e] eqn:GL;
    [|discriminate].
  destruct together; [|discriminate]. cbn [negb] in E.
  destruct (zip_rows_ok _ _ _ Z0) as [F [L N0]].
  apply (group_loop_spec rows [] groups) in GL. cbn [app] in GL.
  destruct GL as [_ GE]. rewrite <- grouped_groups_of in GE. subst groups.
  exists rows. eexists. split; [exact F|]. split; [exact L|].
  split; [exact N0|]. split; [reflexivity|]. congruence.
Qed.

Lemma row_imploded : forall d ws p xs,
  length p <= d ->
  (row (map (fun w => View (v_obj w) d) ws) p xs <->
   Forall2 (fun w x => at_ p (v_obj w) = Some x) ws xs).
Proof.
  clear. intros d ws p xs L. unfold row. revert xs.
  induction ws as [|w ws IH]; intros xs; cbn [map].
  - split; intros F; inversion F; constructor.
  - split; intros F; inversion F as [|? x ? ys F1 F2]; subst; constructor.
    + cbn in F1. rewrite firstn_all2 in F1 by exact L. exact F1.
    + apply IH. exact F2.
    + cbn. rewrite firstn_all2 by exact L. exact F1.
    + apply IH. exact F2.
Qed.

Lemma rows_keyed : forall keys p xs cols rows,
  Forall2 (fun k c => at_ p (v_obj k) = Some (PTuple c)) keys cols ->
  length rows = length xs ->
  (forall i x, nth_error xs i = Some x ->
     exists hs, nth_error rows i = Some (x, hs) /\
       Forall2 (fun c z => nth_error c i = Some z) cols hs) ->
  keyed keys p xs (map key_of rows).
Proof.
  clear. intros keys p xs cols rows FK L N0. split.
  - rewrite map_length. exact L.
  - intros i x X. destruct (N0 i x X) as [hs [H1 H2]].
    exists (fst (key_of (x, hs))).
    rewrite nth_error_map, H1. split; [reflexivity|].
    unfold key_of. cbn [fst snd].
    inversion FK as [|k c keys' cols' K1 K2]; subst.
    + inversion H2; subst. reflexivity.
    + inversion H2 as [|? z ? zs Z1 Z2]; subst.
      constructor.
      * rewrite at_app, K1. cbn. rewrite Z1. reflexivity.
      * clear - K2 Z2. revert zs Z2. induction K2; intros zs Z2;
          inversion Z2; subst; constructor.
        -- rewrite at_app, H. cbn. rewrite H2. reflexivity.
        -- apply IHK2. assumption.
Qed.

Lemma Forall2_tuples : forall d p ws os,
  Forall good ws -> Forall (fun w => v_depth w = S d) ws -> length p <= d ->
  Forall2 (fun w x => at_ p (v_obj w) = Some x) ws os ->
  exists cols, os = map PTuple cols /\
    Forall2 (fun w c => at_ p (v_obj w) = Some (PTuple c)) ws cols.
Proof.
  clear. intros d p ws os G D L F. induction F as [|w x ws os H F IH].
  - exists []. split; [reflexivity|constructor].
  - inversion G as [|? ? G1 G2]; subst. inversion D as [|? ? D1 D2]; subst.
    destruct (IH G2 D2) as [cols [-> C]].
    destruct (good_tuple w p x G1) as [xs ->]; [lia|exact H|].
    exists (xs :: cols). split; [reflexivity|]. constructor; assumption.
Qed.

Lemma group_by_ok : forall sort keys v h h' r,
  good v -> Forall good keys ->
  group_by py_eq hashable key_less sort keys v h = (h', Ok r) ->
  h' = h /\ 0 < v_depth v /\ Forall (fun k => v_depth k = v_depth v) keys /\
  v_depth r = v_depth v + 1 /\ good r /\
  same_shape (v_depth v - 1) (v_obj r) (v_obj v) /\
  (forall p xs, length p = v_depth v - 1 ->
     at_ p (v_obj v) = Some (PTuple xs) ->
     exists kxs gs, keyed keys p xs kxs /\
       gs = (if sort then sort_groups key_less (grouped same kxs)
             else grouped same kxs) /\
       at_ p (v_obj r) = Some (PTuple (map (fun g => PTuple (snd g)) gs))).
Proof.
  intros sort keys v h h' r Gv Gk E.
  destruct (group_by_cases _ _ _ _ _ _ E) as [P D].
  rewrite group_by_unfold in E by assumption.
  set (sd := v_depth v - 1) in *.
  set (ws := map (fun w => View (v_obj w) sd) (v :: keys)) in *.
  destruct (on_views _ false ws h) as [h1 [o|e]] eqn:O; [|discriminate].
  assert (h1 = h' /\ r = View o (v_depth v + 1)) by (split; congruence).
  destruct H as [-> ->]. clear E.
  apply views_pure_ok with (g := ggroup sort) in O;
    [|discriminate|intros; apply group_impl_pure].
  assert (DW : depth_of ws = sd) by (apply depth_same; discriminate).
  rewrite DW in O. destruct O as [-> [G [A [S0 [P1 P2]]]]].
  assert (DD : Forall (fun w => v_depth w = S sd) (v :: keys)).
  { constructor; [lia|]. eapply Forall_impl; [|exact D]. cbn. intros; lia. }
  assert (GG : Forall good (v :: keys)) by (constructor; assumption).
  assert (SH : same_shape sd o (v_obj v)).
  { intros p Lp. rewrite P1 by exact Lp.
    rewrite (occurs_deepest ws (View (v_obj v) sd) p G A).
    - reflexivity.
    - left. reflexivity.
    - cbn. symmetry. exact DW.
    - lia. }
  assert (IT : forall p xs, length p = sd ->
     at_ p (v_obj v) = Some (PTuple xs) ->
     exists kxs gs, keyed keys p xs kxs /\
       gs = (if sort then sort_groups key_less (grouped same kxs)
             else grouped same kxs) /\
       at_ p o = Some (PTuple (map (fun g => PTuple (snd g)) gs))).
  { intros p xs Lp X. destruct (SH p) as [_ Q]; [lia|].
    destruct Q as [y Y]; [eexists; exact X|].
    assert (Y2 := Y). apply P2 in Y2; [|exact Lp].
    destruct Y2 as [os [Rw AP]].
    apply row_imploded in Rw; [|lia].
    destruct (Forall2_tuples sd p _ _ GG DD ltac:(lia) Rw) as [cols [-> FC]].
    inversion FC as [|? c ? cs C1 C2]; subst.
    assert (c = xs) by congruence. subst c.
    apply applied_not_none in AP.
    2:{ rewrite in_map_iff. intros [z [Z0 _]]. discriminate. }
    destruct (ggroup_spec _ _ _ _ AP) as [rows [gs [_ [L [N0 [Eg Ey]]]]]].
    exists (map key_of rows), gs. split.
    - eapply rows_keyed; eassumption.
    - split; [exact Eg|]. congruence. }
  split; [reflexivity|]. split; [exact P|]. split; [exact D|].
  cbn [v_depth v_obj]. split; [reflexivity|].
  split; [|split; [exact SH|exact IT]].
  unfold good. cbn [v_depth v_obj].
  replace (v_depth v + 1) with (sd + 2) by lia.
  apply shaped_from; [exact S0|]. intros p x Lp X.
  destruct (SH p) as [Q _]; [lia|]. destruct Q as [y Y]; [eexists; exact X|].
  destruct (good_tuple v p y Gv) as [xs ->]; [lia|exact Y|].
  destruct (IT p xs Lp Y) as [kxs [gs [_ [_ Z0]]]].
  assert (x = PTuple (map (fun g => PTuple (snd g)) gs)) by congruence.
  subst x. apply shaped_tuple. rewrite Forall_map. apply Forall_forall.
  intros g _. apply shaped_tuple. apply Forall_forall. intros; exact I.
Qed.

Lemma group_by_total : forall sort keys v h,
  good v -> Forall good keys -> 0 < v_depth v ->
  Forall (fun k => v_depth k = v_depth v) keys -> aligned (v :: keys) ->
  (forall k p x, In k (v :: keys) -> length p = v_depth v ->
     at_ p (v_obj k) = Some x -> x <> PNone -> hashable x = true) ->
  exists r, group_by py_eq hashable key_less sort keys v h = (h, Ok r).
Proof.
  intros sort keys v h Gv Gk P D A HS.
  rewrite group_by_unfold by assumption.
  set (sd := v_depth v - 1).
  assert (DD : Forall (fun w => v_depth w = S sd) (v :: keys)).
  { constructor; [lia|]. eapply Forall_impl; [|exact D]. cbn. intros; lia. }
  assert (GG : Forall good (v :: keys)) by (constructor; assumption).
  destruct (views_pure_total (map (fun w => View (v_obj w) sd) (v :: keys))
              (group_by_impl py_eq hashable key_less sort) (ggroup sort)
              false h) as [o O].
  - discriminate.
  - intros; apply group_impl_pure.
  - rewrite Forall_map. rewrite Forall_forall in GG, DD |- *.
    intros w J. specialize (GG w J). specialize (DD w J).
    unfold good in *. cbn. eapply shaped_below; [|exact GG]. lia.
  - intros a b p xs Ja Jb La Lb X.
    apply in_map_iff in Ja. destruct Ja as [va [<- Ja]].
    apply in_map_iff in Jb. destruct Jb as [vb [<- Jb]].
    cbn [v_depth v_obj] in *. rewrite Forall_forall in DD.
    pose proof (DD va Ja). pose proof (DD vb Jb).
    eapply A; [exact Ja|exact Jb|lia|lia|exact X].
  - rewrite depth_same by discriminate. intros p os Lp Rw.
    apply row_imploded in Rw; [|lia].
    destruct (Forall2_tuples sd p _ _ GG DD ltac:(lia) Rw) as [cols [-> FC]].
    inversion FC as [|? xs ? cs C1 C2]; subst.
    assert (EQ : exists y, ggroup sort (map PTuple (xs :: cs)) = Ok y).
    2:{ destruct EQ as [y EQ]. exists y.
        rewrite applied_not_none; [exact EQ|].
        rewrite in_map_iff. intros [z [Z0 _]]. discriminate. }
    unfold ggroup. rewrite all_items_tuples.
    assert (LC : Forall (fun c => length c = length xs) cs).
    { apply Forall_forall. intros c Jc.
      destruct (Forall2_in_r _ _ _ _ _ _ C2 Jc) as [k [Jk Ek]].
      destruct (A v k p xs) as [ys [Y1 Y2]].
      - left. reflexivity.
      - right. exact Jk.
      - lia.
      - rewrite Forall_forall in D. rewrite (D k Jk). lia.
      - exact C1.
      - congruence. }
    destruct (zip_rows_total xs cs LC) as [rows Z0]. rewrite Z0.
    destruct (zip_rows_ok _ _ _ Z0) as [_ [L N0]].
    assert (GL : group_loop py_eq hashable rows [] =
                 Ok (groups_of ([] ++ present_rows (map key_of rows)))).
    { apply (group_loop_spec rows []). split; [|reflexivity].
      intros k x J. unfold present_rows in J. apply filter_In in J.
      destruct J as [J NN]. cbn [fst] in NN.
      apply forallb_forall. intros z Jz.
      assert (NZ : z <> PNone).
      { intros ->. apply negb_true_iff in NN.
        apply Bool.not_true_iff_false in NN. apply NN. apply none_in.
        exact Jz. }
      apply in_map_iff in J. destruct J as [[x0 hs] [E J]].
      unfold key_of in E. cbn [fst snd] in E.
      apply In_nth_error in J. destruct J as [i J].
      assert (Li : i < length xs).
      { rewrite <- L. apply nth_error_Some. congruence. }
      destruct (nth_error xs i) as [xi|] eqn:Xi;
        [|apply nth_error_None in Xi; lia].
      destruct (N0 i xi Xi) as [gs [G1 G2]].
      assert (xi = x0 /\ gs = hs) by (split; congruence).
      destruct H as [-> ->].
      destruct hs as [|h0 hs].
      - assert (k = [x0]) by congruence. subst k.
        destruct Jz as [<-|[]].
        apply (HS v (p ++ [i]) x0).
        + left. reflexivity.
        + rewrite app_length. cbn. lia.
        + rewrite at_app, C1. cbn. rewrite Xi. reflexivity.
        + exact NZ.
      - assert (k = h0 :: hs) by congruence. subst k.
        destruct (Forall2_in_r _ _ _ _ _ _ G2 Jz) as [c [Jc Ec]].
        destruct (Forall2_in_r _ _ _ _ _ _ C2 Jc) as [kv [Jk Ek]].
        apply (HS kv (p ++ [i]) z).
        + right. exact Jk.
        + rewrite app_length. cbn. lia.
        + rewrite at_app, Ek. cbn. rewrite Ec. reflexivity.
        + exact NZ. }
    change (groups_of []) with (@nil (list obj * list obj)) in GL.
    rewrite GL. eexists. reflexivity.
  - rewrite O. eexists. reflexivity.
Qed.

End Group.
