(** Proofs about translating keys to groups. *)
From Coq Require Import NArith ZArith List Bool Arith Lia Sorted.
From Verif Require Import ObjectIdModel SchemaModel ItemModel DictModel DictProofs SliceModel SliceProofs SliceSpec
  SliceOpsModel SliceOpsSpec SliceOpsProofs SubsliceModel SubsliceSpec SubsliceProofs SubsliceOpsProofs GroupModel GroupSpec GroupKeysProofs GroupProofs
  TranslateModel TranslateSpec TranslateProofs TranslateTopProofs TranslateGroupModel.
Import ListNotations.
Local Open Scope nat_scope.

(** ** A row *)
Section Row.
Variable same : value -> value -> bool.
Variable is_nan : value -> bool.
Hypothesis same_pe : partial_equivalence value same.
Hypothesis same_nan : forall a b, is_nan a = true -> same a b = false.
Hypothesis same_eq : forall v w, possible_key v -> (same v w = true <-> v = w).
Variables (ks vs : list ditem) (gs : list (list nat)).
Hypothesis same_len : length ks = length vs.
Hypothesis groups : row_groups value same (fun _ _ => false) false [ks] (length ks) gs.

Definition of_group (row : list ditem) (g : list nat) : list ditem := map (fun i => pick row (Some i)) g.
Definition keys_of : list ditem := map (fun g => collapse_row same (of_group ks g)) gs.

Lemma has_key i : has_keys value [ks] i <-> exists v, nth_error ks i = Some (Some v).
Proof.
  split.
  - intros H. apply H. left. reflexivity.
  - intros H c [<- | []]. exact H.
Qed.
Lemma in_group g i : In g gs -> In i g -> exists v, nth_error ks i = Some (Some v).
Proof.
  intros G I. destruct groups as [A _]. assert (X : In i (concat gs)) by (apply in_concat; exists g; split; assumption).
  apply A in X. exact (proj1 (has_key i) (proj2 X)).
Qed.
Lemma group_same g i j v : In g gs -> In i g -> nth_error ks i = Some (Some v) ->
  (In j g <-> j = i \/ exists w, nth_error ks j = Some (Some w) /\ same v w = true).
Proof.
  intros G I E. destruct groups as [_ [_ [_ [D _]]]]. rewrite (D g i j G I). split; intros [H | H]; auto; right.
  - destruct (H ks (or_introl eq_refl)) as [v' [w [E1 [E2 S]]]]. exists w. split; [exact E2 |]. congruence.
  - intros c [<- | []]. destruct H as [w [E2 S]]. exists v, w. auto.
Qed.
Lemma group_of g v rest : In g gs -> g = v :: rest -> exists k, nth_error ks v = Some (Some k) /\ collapse_row same (of_group ks g) = Some k.
Proof.
  intros G E. subst g. destruct (in_group _ v G (or_introl eq_refl)) as [k Ek]. exists k. split; [exact Ek |].
  assert (X : forall l, incl l (v :: rest) -> filter isSome (of_group ks l) = of_group ks l).
  { induction l as [| x l IH]; intros H; [reflexivity |].
    destruct (in_group _ x G (H x (or_introl eq_refl))) as [k' Ek']. unfold of_group in *. cbn [map pick]. rewrite Ek'. cbn [filter isSome].
    f_equal. apply IH. intros y Iy. apply H. right. exact Iy. }
  unfold collapse_row. rewrite X by apply incl_refl. unfold of_group. cbn [map pick]. rewrite Ek.
  assert (F : forallb (fun w => match w with Some w => same k w | None => true end) (map (fun i => match nth_error ks i with Some x => x | None => None end) rest) = true).
  { apply forallb_forall. intros w Iw. apply in_map_iff in Iw. destruct Iw as [j [Ej Ij]].
    assert (J : In j (v :: rest)) by (right; exact Ij).
    apply (group_same (v :: rest) v j k G (or_introl eq_refl) Ek) in J. destruct J as [-> | [w' [E' S]]].
    - destruct groups as [_ [_ [SS _]]]. destruct (SS _ G) as [_ S]. inversion S as [| ? ? _ F]; subst. rewrite Forall_forall in F.
      apply F in Ij. lia.
    - rewrite E' in Ej. subst w. exact S. }
  rewrite F. reflexivity.
Qed.
Lemma group_nonempty g : In g gs -> exists h rest, g = h :: rest.
Proof. intros G. destruct groups as [_ [_ [SS _]]]. destruct (SS g G) as [N _]. destruct g as [| h rest]; [congruence | eauto]. Qed.

Lemma keys_of_nth i x : nth_error keys_of i = Some x ->
  exists g h rest k, nth_error gs i = Some g /\ In g gs /\ g = h :: rest /\ nth_error ks h = Some (Some k) /\ x = Some k.
Proof.
  intros E. unfold keys_of in E. rewrite nth_error_map in E. destruct (nth_error gs i) as [g |] eqn:Eg; [| discriminate E].
  pose proof (nth_error_In _ _ Eg) as G. destruct (group_nonempty g G) as [h [rest ->]].
  destruct (group_of _ h rest G eq_refl) as [k [Ek C]]. cbn [option_map] in E. rewrite C in E.
  exists (h :: rest), h, rest, k. repeat split; auto. congruence.
Qed.
Lemma keys_of_in x : In x keys_of -> exists k, x = Some k /\ In (Some k) ks.
Proof.
  intros I. apply In_nth_error in I. destruct I as [i E]. destruct (keys_of_nth i x E) as [g [h [rest [k [_ [_ [_ [Ek ->]]]]]]]].
  exists k. split; [reflexivity | exact (nth_error_In _ _ Ek)].
Qed.
(** each key is the key of a group *)
Lemma key_in_group i k : nth_error ks i = Some (Some k) ->
  exists p g h rest v, nth_error gs p = Some g /\ In g gs /\ g = h :: rest /\ In i g /\ nth_error ks h = Some (Some v) /\
    nth_error keys_of p = Some (Some v) /\ (v = k \/ same v k = true).
Proof.
  intros E. destruct groups as [A _].
  assert (I : In i (concat gs)) by (apply A; split; [apply nth_error_Some; congruence | apply (proj2 (has_key i)); eauto]).
  apply in_concat in I. destruct I as [g [G I]]. destruct (group_nonempty g G) as [h [rest Eg]].
  destruct (group_of g h rest G Eg) as [v [Ev C]]. apply In_nth_error in G as Gp. destruct Gp as [p Ep].
  exists p, g, h, rest, v. repeat split; auto.
  - unfold keys_of. rewrite nth_error_map, Ep. cbn. rewrite C. reflexivity.
  - assert (H : In h g) by (subst g; left; reflexivity).
    apply (group_same g h i v G H Ev) in I. destruct I as [-> | [w [E' S]]]; [left; congruence |].
    right. congruence.
Qed.

Lemma possible_rows : (forall k, In (Some k) keys_of -> possible_key k) <-> (forall k, In (Some k) ks -> possible_key k).
Proof.
  split; intros H k I.
  - apply In_nth_error in I. destruct I as [i E].
    destruct (key_in_group i k E) as (p & g & h & rest & v & _ & _ & _ & _ & _ & Ep & [-> | S]).
    + apply H. exact (nth_error_In _ _ Ep).
    + assert (P : possible_key v) by (apply H; exact (nth_error_In _ _ Ep)). apply (same_eq v k P) in S. subst. exact P.
  - destruct (keys_of_in _ I) as [k' [E I']]. apply H. congruence.
Qed.

Lemma nodup_concat_nth {A} : forall (l : list (list A)) i j a b x, NoDup (concat l) -> nth_error l i = Some a -> nth_error l j = Some b ->
  In x a -> In x b -> i = j.
Proof.
  induction l as [| c l IH]; intros i j a b x N Ei Ej Ia Ib; [destruct i; discriminate |]. cbn [concat] in N.
  assert (D : forall m y, nth_error l m = Some y -> In x c -> In x y -> False).
  { intros m y Em Ic Iy. clear IH. apply (in_split x) in Ic. destruct Ic as [c1 [c2 ->]]. rewrite <- app_assoc in N. cbn in N.
    apply NoDup_remove_2 in N. apply N. apply in_or_app. right. apply in_or_app. right. apply in_concat. exists y.
    split; [exact (nth_error_In _ _ Em) | exact Iy]. }
  destruct i as [| i], j as [| j]; cbn in Ei, Ej.
  - reflexivity.
  - exfalso. apply (D j b Ej); congruence.
  - exfalso. apply (D i a Ei); congruence.
  - f_equal. apply (IH i j a b x); auto. clear - N. induction c as [| y c IH]; [exact N |]. inversion N; subst. auto.
Qed.

Lemma keys_of_distinct (dt : dtype) : (forall k, In (Some k) ks -> possible_key k) ->
  distinct (same_value value same (nan_in value is_nan dt)) keys_of.
Proof.
  intros K i j v w L Ei Ej S.
  destruct (keys_of_nth i _ Ei) as [g [h [rest [v' [Eg [G [Eh [Ev Q]]]]]]]]. assert (v' = v) by congruence. subst v'.
  destruct (keys_of_nth j _ Ej) as [g' [h' [rest' [w' [Eg' [G' [Eh' [Ew Q']]]]]]]]. assert (w' = w) by congruence. subst w'.
  assert (Pv : possible_key v) by (apply K; exact (nth_error_In _ _ Ev)).
  destruct S as [S | [S _]].
  - assert (H : In h' g). { apply (group_same g h h' v G); [subst g; left; reflexivity | exact Ev |]. right. exists w. auto. }
    destruct groups as [_ [N _]].
    assert (i = j) by (apply (nodup_concat_nth gs i j g g' h'); auto; subst g'; left; reflexivity). lia.
  - assert (X : same v v = true) by (apply same_eq; auto).
    unfold nan_in in S. destruct dt; cbv beta in S; [| destruct S |]; rewrite (same_nan v v S) in X; discriminate X.
Qed.

(** positions in ascending order *)
Lemma sorted_filter (P : nat -> bool) : forall n o (g : list nat), StronglySorted lt g ->
  (forall i, In i g <-> o <= i < o + n /\ P i = true) -> g = filter P (seq o n).
Proof.
  induction n as [| n IH]; intros o g S H.
  - destruct g as [| x g]; [reflexivity |]. destruct (H x) as [A _]. specialize (A (or_introl eq_refl)). lia.
  - cbn [seq filter]. destruct (P o) eqn:Po.
    + assert (I : In o g) by (apply H; split; [lia | exact Po]).
      destruct g as [| x g]; [destruct I |]. inversion S as [| ? ? S' F]; subst. rewrite Forall_forall in F.
      assert (x = o).
      { destruct (proj1 (H x) (or_introl eq_refl)) as [R _]. destruct I as [E | I]; [exact E |]. apply F in I. lia. }
      subst x. f_equal. apply IH; [exact S' |]. intros i. split.
      * intros Ii. pose proof (F i Ii). destruct (proj1 (H i) (or_intror Ii)) as [R Pi]. split; [lia | exact Pi].
      * intros [R Pi]. assert (X : In i (o :: g)) by (apply H; split; [lia | exact Pi]). destruct X as [-> | X]; [lia | exact X].
    + apply IH; [exact S |]. intros i. rewrite H. split; intros [R Pi]; (split; [| exact Pi]).
      * destruct (Nat.eq_dec i o) as [-> |]; [congruence | lia].
      * lia.
Qed.
Definition at_key (k : value) (i : nat) : bool := match nth_error ks i with Some (Some k') => value_eqb k' k | _ => false end.
Lemma with_key_positions k : with_key ks vs (Some k) = of_group vs (filter (at_key k) (seq 0 (length ks))).
Proof.
  unfold with_key, of_group.
  assert (G : forall l (m : list ditem) o, length l = length m -> (forall i, i < length l -> nth_error ks (o + i) = nth_error l i /\ nth_error vs (o + i) = nth_error m i) ->
    map snd (filter (fun x => match fst x with Some k' => value_eqb k' k | None => false end) (combine l m)) =
    map (fun i => pick vs (Some i)) (filter (at_key k) (seq o (length l)))).
  { induction l as [| x l IH]; intros [| y m] o L H; try discriminate L; [reflexivity |]. cbn [combine filter length seq fst].
    destruct (H 0 ltac:(cbn; lia)) as [E1 E2]. rewrite Nat.add_0_r in E1, E2.
    assert (A : at_key k o = match x with Some k' => value_eqb k' k | None => false end) by (unfold at_key; rewrite E1; destruct x; reflexivity).
    assert (R : map snd (filter (fun x => match fst x with Some k' => value_eqb k' k | None => false end) (combine l m)) =
      map (fun i => pick vs (Some i)) (filter (at_key k) (seq (S o) (length l)))).
    { apply IH; [cbn in L; lia |]. intros i Hi. replace (S o + i) with (o + S i) by lia. exact (H (S i) ltac:(cbn; lia)). }
    rewrite A. destruct (match x with Some k' => value_eqb k' k | None => false end); [| exact R].
    cbn [map snd]. rewrite R. f_equal. unfold pick. rewrite E2. reflexivity. }
  apply G; [exact same_len | auto].
Qed.

Lemma index_nth : forall (row : list ditem) o i x, nth_error row i = Some (Some x) ->
  nth_error (map2 (fun i x => match x with Some _ => Some (int64 i) | None => None end) (seq o (length row)) row) i = Some (Some (int64 (o + i))).
Proof.
  induction row as [| y row IH]; intros o [| i] x E; cbn in E; try discriminate.
  - inversion E; subst. cbn. rewrite Nat.add_0_r. reflexivity.
  - cbn [length seq map2 nth_error]. rewrite (IH (S o) i x E). do 3 f_equal. lia.
Qed.

Lemma group_found key r : (forall k, In (Some k) ks -> possible_key k) -> translated keys_of (index_row keys_of) key r ->
  select_row (map (of_group vs) gs) r = with_key ks vs key.
Proof.
  intros K T. destruct T as [| i k v Ei Ev | k N].
  - reflexivity.
  - pose proof (index_nth keys_of 0 i k Ei) as X. change (nth_error (index_row keys_of) i = Some (Some (int64 (0 + i)))) in X.
    pose proof (eq_trans (eq_sym X) Ev) as Y. inversion Y; subst v. clear X Y. cbn [select_row Nat.add]. unfold int64. rewrite Nat2Z.id.
    destruct (keys_of_nth i _ Ei) as [g [h [rest [v' [Eg [G [Eh [Ev' Q]]]]]]]]. assert (v' = k) by congruence. subst v'.
    rewrite nth_error_map, Eg. cbn [option_map]. rewrite with_key_positions. f_equal.
    assert (Pk : possible_key k) by (apply K; exact (nth_error_In _ _ Ev')).
    apply sorted_filter; [apply groups; exact G |]. intros j. cbn [Nat.add].
    assert (H : In h g) by (subst g; left; reflexivity).
    rewrite (group_same g h j k G H Ev'). unfold at_key. split.
    + intros Hj. assert (E : nth_error ks j = Some (Some k)).
      { destruct Hj as [-> | [w [E S]]]; [exact Ev' |]. apply (same_eq k w Pk) in S. subst w. exact E. }
      split; [| rewrite E; apply value_eqb_refl]. assert (j < length ks) by (apply nth_error_Some; congruence). lia.
    + intros [_ B]. destruct (nth_error ks j) as [[w |] |]; try discriminate B.
      assert (Ew : w = k) by (destruct (value_eqb_spec w k) as [Ew |]; [exact Ew | discriminate B]). right. exists k.
      split; [rewrite Ew; reflexivity |]. apply same_eq; auto.
  - rewrite with_key_positions. cbn [select_row].
    assert (E : filter (at_key k) (seq 0 (length ks)) = []).
    { destruct (filter (at_key k) (seq 0 (length ks))) as [| j l] eqn:F; [reflexivity |]. exfalso.
      assert (I : In j (filter (at_key k) (seq 0 (length ks)))) by (rewrite F; left; reflexivity).
      apply filter_In in I. destruct I as [_ A]. unfold at_key in A. destruct (nth_error ks j) as [[w |] |] eqn:Ej; try discriminate A.
      assert (Ew : w = k) by (destruct (value_eqb_spec w k) as [Ew |]; [exact Ew | discriminate A]). rewrite Ew in Ej.
      destruct (key_in_group j k Ej) as (p & g & h & rest & v & _ & _ & _ & _ & Ev & Ep & S).
      apply N. replace k with v; [exact (nth_error_In _ _ Ep) |]. destruct S as [S | S]; [exact S |].
      apply (same_eq v k); [apply K; exact (nth_error_In _ _ Ev) | exact S]. }
    rewrite E. reflexivity.
Qed.
End Row.
