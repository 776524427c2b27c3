(** The ids of all rows after all keys. *)
From Coq Require Import List Bool Arith Lia Permutation Sorted.
From Verif Require Import SliceOpsModel SliceGatherProofs SubsliceOpsProofs GroupModel GroupSpec GroupAssignProofs GroupSortProofs.
Import ListNotations.
Local Open Scope nat_scope.
Local Open Scope list_scope.

Lemma nth_error_combine {A B} : forall (l : list A) (l' : list B) i x y,
  nth_error (combine l l') i = Some (x, y) <-> nth_error l i = Some x /\ nth_error l' i = Some y.
Proof.
  induction l as [| a l IH]; intros l' i x y.
  - cbn. destruct i; cbn; split; [discriminate | intros [H _]; discriminate | discriminate | intros [H _]; discriminate].
  - destruct l' as [| b l']; cbn.
    + destruct i; cbn; split; [discriminate | intros [_ H]; discriminate | discriminate | intros [_ H]; discriminate].
    + destruct i as [| i]; cbn; [| apply IH]. split; [intros H; split; congruence | intros [H K]; congruence].
Qed.

Section Rows.
Variable T : Type.
Variables eqb ltb : T -> T -> bool.
Variable P : T -> Prop.

Record grouped (sort : bool) (cols : list (list (option T))) (n : nat) (ids : list (option nat)) : Prop := {
  g_len : length ids = n;
  g_def : forall i, i < n -> ((exists g, nth_error ids i = Some (Some g)) <-> has_keys T cols i);
  g_same : forall i j g h, nth_error ids i = Some (Some g) -> nth_error ids j = Some (Some h) -> i <> j ->
                           (g = h <-> same_keys T eqb cols i j);
  g_order : forall i j g h, nth_error ids i = Some (Some g) -> nth_error ids j = Some (Some h) ->
                            if sort then g < h <-> keys_less T eqb ltb cols i j
                            else g < h -> exists f, f < j /\ nth_error ids f = Some (Some g) }.

Lemma grouped_init sort n : grouped sort [] n (repeat (Some 0) n).
Proof.
  assert (R : forall i x, nth_error (repeat (Some 0) n) i = Some x -> x = Some 0).
  { intros i x E. apply nth_error_In in E. apply repeat_spec in E. exact E. }
  split.
  - apply repeat_length.
  - intros i L. split; [intros _ c [] | intros _]. exists 0.
    destruct (nth_error (repeat (Some 0) n) i) as [x |] eqn:E; [f_equal; exact (R _ _ E) |].
    apply nth_error_None in E. rewrite repeat_length in E. lia.
  - intros i j g h E F _. apply R in E. apply R in F. split; [intros _ c [] | congruence].
  - intros i j g h E F. apply R in E. apply R in F. assert (g = 0) by congruence. assert (h = 0) by congruence.
    destruct sort; [split; [lia | intros []] | lia].
Qed.

Definition within (lo hi : nat) (ids : list (option nat)) : Prop :=
  forall i g, nth_error ids i = Some (Some g) -> lo <= g < hi.

Hypothesis PE : partial_equivalence T eqb.
Definition values_ok (c : list (option T)) : Prop := forall v, In (Some v) c -> P v.

Section Step.
Variable sort : bool.
Variables (cols : list (list (option T))) (c : list (option T)) (n new : nat) (ids : list (option nat)).
Hypothesis G : grouped sort cols n ids.
Hypothesis Lc : length c = n.
Hypothesis TO : sort = true -> total_order_on T eqb ltb P /\ values_ok c.
Variables (ids' : list (option nat)) (ks : list (GroupModel.key T)).
Hypothesis A : assigned T eqb (combine ids c) ids' ks new.

Let order := sorted_index T ltb ks.
Definition renum (g g' : nat) : Prop :=
  if sort then exists a, index_of (g - new) order = Some a /\ g' = a + new else g' = g.

Lemma len' : length ids' = n.
Proof. rewrite (as_len _ _ _ _ _ _ A), combine_length, (g_len _ _ _ _ G). lia. Qed.

Lemma id_key i g : nth_error ids' i = Some (Some g) -> exists g0 v,
  nth_error ids i = Some (Some g0) /\ nth_error c i = Some (Some v).
Proof.
  intros E. assert (L : i < n) by (apply nth_error_lt in E; rewrite len' in E; exact E).
  destruct (nth_error ids i) as [x |] eqn:X; [| apply nth_error_None in X; rewrite (g_len _ _ _ _ G) in X; lia].
  destruct (nth_error c i) as [y |] eqn:Y; [| apply nth_error_None in Y; lia].
  destruct x as [g0 |]; [destruct y as [v |]; [exists g0, v; auto |] |]; exfalso;
    (assert (M : nth_error ids' i = Some None);
     [eapply (as_missing _ _ _ _ _ _ A i); [apply nth_error_combine; split; [exact X | exact Y] |]; reflexivity
     | congruence]).
Qed.
Lemma key_id i g0 v : nth_error ids i = Some (Some g0) -> nth_error c i = Some (Some v) ->
  exists p k0, nth_error ids' i = Some (Some (new + p)) /\ nth_error ks p = Some k0 /\
               (k0 = (g0, v) \/ key_eqb T eqb k0 (g0, v) = true).
Proof.
  intros X Y. apply (assigned_key T eqb _ _ _ _ i (Some g0, Some v) (g0, v) A); [| reflexivity].
  apply nth_error_combine. auto.
Qed.
Lemma ks_len : length ks <= n.
Proof. pose proof (as_few _ _ _ _ _ _ A) as L. rewrite combine_length, (g_len _ _ _ _ G) in L. lia. Qed.

Lemma key_in_col p g v : nth_error ks p = Some (g, v) -> exists f, nth_error c f = Some (Some v) \/
  exists v', nth_error c f = Some (Some v') /\ eqb v v' = true.
Proof.
  intros K. destruct (as_first _ _ _ _ _ _ A _ _ K) as [f [F _]].
  destruct (id_key _ _ F) as [g0 [v0 [X Y]]]. destruct (key_id _ _ _ X Y) as [q [k0 [Q1 [Q2 Q3]]]].
  assert (q = p) by (assert (new + q = new + p) by congruence; lia). subst q.
  assert (k0 = (g, v)) by congruence. subst k0. exists f. destruct Q3 as [Q3 | Q3].
  - left. congruence.
  - right. exists v0. split; [exact Y |]. apply key_eqb_true in Q3. exact (proj2 Q3).
Qed.

Lemma ids_renum i g : nth_error ids' i = Some (Some g) ->
  exists g', nth_error (sort_ids T ltb sort new ks ids') i = Some (Some g') /\ renum g g'.
Proof.
  intros E. unfold sort_ids, renum. destruct sort; [| eauto].
  pose proof (as_range _ _ _ _ _ _ A _ _ E) as R.
  destruct (order_index T ltb ks (g - new)) as [a [I L]]; [lia |].
  exists (a + new). rewrite nth_error_map, E. cbn. rewrite I. cbn. split; [reflexivity |]. exists a. auto.
Qed.
Lemma renum_ids i g' : nth_error (sort_ids T ltb sort new ks ids') i = Some (Some g') ->
  exists g, nth_error ids' i = Some (Some g) /\ renum g g'.
Proof.
  unfold sort_ids, renum. destruct sort; [| eauto]. rewrite nth_error_map. intros E.
  destruct (nth_error ids' i) as [[g |] |] eqn:X; cbn in E; try discriminate.
  exists g. split; [reflexivity |]. fold order in E. destruct (index_of (g - new) order) as [a |]; [| discriminate].
  exists a. split; [reflexivity | cbn in E; congruence].
Qed.
Lemma renum_eq i j g h g' h' : nth_error ids' i = Some (Some g) -> nth_error ids' j = Some (Some h) ->
  renum g g' -> renum h h' -> (g' = h' <-> g = h).
Proof.
  intros Hg Hh. pose proof (as_range _ _ _ _ _ _ A _ _ Hg) as R. pose proof (as_range _ _ _ _ _ _ A _ _ Hh) as R'.
  unfold renum. destruct sort; [| intros -> ->; tauto].
  intros [a [I ->]] [b [J ->]]. split; intros E.
  - assert (a = b) by lia. subst b. pose proof (order_inj T ltb ks _ _ _ I J). lia.
  - subst h. congruence.
Qed.

Lemma step_range : within new (new + length ks) (sort_ids T ltb sort new ks ids').
Proof.
  intros i g' E. destruct (renum_ids _ _ E) as [g [X Y]]. pose proof (as_range _ _ _ _ _ _ A _ _ X) as R.
  unfold renum in Y. destruct sort; [| lia]. destruct Y as [a [I ->]].
  destruct (order_index T ltb ks (g - new)) as [b [J L]]; [lia |]. fold order in J.
  assert (a = b) by congruence. lia.
Qed.

Lemma step_same i j g h g0 v h0 w : nth_error ids' i = Some (Some g) -> nth_error ids' j = Some (Some h) ->
  nth_error ids i = Some (Some g0) -> nth_error c i = Some (Some v) ->
  nth_error ids j = Some (Some h0) -> nth_error c j = Some (Some w) -> i <> j ->
  (g = h <-> g0 = h0 /\ eqb v w = true).
Proof.
  intros Hg Hh X Y X' Y' N.
  rewrite (assigned_same T eqb PE _ _ _ _ i j (Some g0, Some v) (Some h0, Some w) (g0, v) (h0, w) g h A); auto.
  - apply key_eqb_true.
  - apply nth_error_combine. auto.
  - apply nth_error_combine. auto.
Qed.

Lemma step_grouped : (sort = true -> forall p k, nth_error ks p = Some k -> P (snd k)) ->
  grouped sort (cols ++ [c]) n (sort_ids T ltb sort new ks ids').
Proof.
  intros Pks. split.
  - pose proof len' as L'. unfold sort_ids. destruct sort; rewrite ?map_length; exact L'.
  - intros i L. rewrite has_keys_snoc. split.
    + intros [g' E]. destruct (renum_ids _ _ E) as [g [X _]]. destruct (id_key _ _ X) as [g0 [v [X0 Y]]].
      split; [| eauto]. apply (g_def _ _ _ _ G i L). eauto.
    + intros [H [v Y]]. apply (g_def _ _ _ _ G i L) in H. destruct H as [g0 X].
      destruct (key_id _ _ _ X Y) as [p [k0 [Q _]]]. destruct (ids_renum _ _ Q) as [g' [E _]]. eauto.
  - intros i j g' h' E F N. destruct (renum_ids _ _ E) as [g [X Rg]]. destruct (renum_ids _ _ F) as [h [Y Rh]].
    rewrite (renum_eq i j _ _ _ _ X Y Rg Rh).
    destruct (id_key _ _ X) as [g0 [v [X0 Xv]]]. destruct (id_key _ _ Y) as [h0 [w [Y0 Yw]]].
    rewrite (step_same _ _ _ _ _ _ _ _ X Y X0 Xv Y0 Yw N), same_keys_snoc.
    rewrite (g_same _ _ _ _ G _ _ _ _ X0 Y0 N). split.
    + intros [H K]. split; [exact H |]. exists v, w. auto.
    + intros [H [v' [w' [V [W K]]]]]. split; [exact H |]. congruence.
  - intros i j g' h' E F. destruct (renum_ids _ _ E) as [g [X Rg]]. destruct (renum_ids _ _ F) as [h [Y Rh]].
    destruct (id_key _ _ X) as [g0 [v [X0 Xv]]]. destruct (id_key _ _ Y) as [h0 [w [Y0 Yw]]].
    pose proof (g_order _ _ _ _ G _ _ _ _ X0 Y0) as O.
    destruct (key_id _ _ _ X0 Xv) as [p [k [P1 [P2 P3]]]]. destruct (key_id _ _ _ Y0 Yw) as [q [k' [Q1 [Q2 Q3]]]].
    assert (g = new + p) by congruence. assert (h = new + q) by congruence. subst g h.
    pose proof (renum_eq i j _ _ _ _ X Y Rg Rh) as RE.
    pose proof (step_same i j _ _ _ _ _ _ X Y X0 Xv Y0 Yw) as SK.
    pose proof (g_same _ _ _ _ G i j _ _ X0 Y0) as SG.
    pose proof (fun N => assigned_order T eqb _ _ _ _ i j _ _ A X Y N) as AO.
    pose proof (fun f => ids_renum f (new + p)) as IR.
    unfold renum in *. destruct sort.
    + destruct (TO eq_refl) as [T0 Vc]. specialize (Pks eq_refl).
      destruct Rg as [a [I ->]]. destruct Rh as [b [J ->]].
      replace (new + p - new) with p in I by lia. replace (new + q - new) with q in J by lia.
      assert (Fk : Forall (Pk T P) ks).
      { apply Forall_forall. intros x Ix. apply In_nth_error in Ix. destruct Ix as [r Ix]. exact (Pks _ _ Ix). }
      pose proof (order_lt T eqb ltb P T0 ks Fk (as_distinct _ _ _ _ _ _ A) p q a b k k' I J P2 Q2) as OL.
      assert (Pv : P v) by (apply Vc; apply nth_error_In in Xv; exact Xv).
      assert (Pw : P w) by (apply Vc; apply nth_error_In in Yw; exact Yw).
      assert (KL : key_ltb T ltb k k' = true <-> key_ltb T ltb (g0, v) (h0, w) = true).
      { split; apply (key_ltb_eqb T eqb ltb P PE T0); try exact (Pks _ _ P2); try exact (Pks _ _ Q2); auto.
        - destruct P3 as [P3 | P3]; [left; auto | right; apply (key_sym T eqb PE); exact P3].
        - destruct Q3 as [Q3 | Q3]; [left; auto | right; apply (key_sym T eqb PE); exact Q3]. }
      rewrite keys_less_snoc, <- O.
      rewrite (key_ltb_true T ltb (g0, v) (h0, w)) in KL. cbn [fst snd] in KL.
      assert (S1 : g0 = h0 <-> same_keys T eqb cols i j \/ i = j).
      { destruct (Nat.eq_dec i j) as [-> | N].
        - split; [auto | intros _; congruence].
        - rewrite (SG N). tauto. }
      split.
      * intros L. assert (L' : a < b) by lia. apply OL in L'. apply KL in L'. destruct L' as [L' | [E1 L']]; [auto |].
        right. assert (N : i <> j).
        { intros ->. assert (v = w) by congruence. subst w. destruct (ltb_asym T eqb ltb P T0 _ _ Pv Pv L'). congruence. }
        split; [apply (SG N); exact E1 |]. exists v, w. auto.
      * intros H. cut (a < b); [lia |]. apply OL, KL. destruct H as [H | [H [v' [w' [V [W L]]]]]]; [auto |].
        right. split; [apply S1; auto |]. congruence.
    + subst g' h'. intros L. destruct (AO L) as [f [F1 F2]]. exists f. split; [exact F1 |].
      destruct (IR _ F2) as [x [X1 ->]]. exact X1.
Qed.
End Step.

(** the keys to sort are values of the column *)
Lemma process_row_keys : forall row m new ids ks new', process_row T eqb row m new = (ids, ks, new') ->
  forall k, In k ks -> exists x, In x row /\ snd x = Some (snd k).
Proof.
  induction row as [| [g v] row IH]; intros m new ids ks new' E k I; cbn in E.
  - assert (ks = []) by congruence. subst. destruct I.
  - assert (Tail : forall m1 n1, (forall ids1 ks1 n2, process_row T eqb row m1 n1 = (ids1, ks1, n2) ->
                    In k ks1 -> exists x, In x ((g, v) :: row) /\ snd x = Some (snd k))).
    { intros m1 n1 ids1 ks1 n2 E1 I1. destruct (IH _ _ _ _ _ E1 _ I1) as [x [X1 X2]]. exists x. split; [right; exact X1 | exact X2]. }
    destruct g as [g |]; [destruct v as [v |] |].
    + destruct (find_key T eqb (g, v) m).
      * destruct (process_row T eqb row m new) as [[ids1 ks1] n1] eqn:E1. apply (Tail _ _ _ _ _ E1). congruence.
      * destruct (process_row T eqb row (((g, v), new) :: m) (S new)) as [[ids1 ks1] n1] eqn:E1.
        assert (ks = (g, v) :: ks1) by congruence. subst ks. destruct I as [<- | I].
        -- exists (Some g, Some v). split; [left; reflexivity | reflexivity].
        -- exact (Tail _ _ _ _ _ E1 I).
    + destruct (process_row T eqb row m new) as [[ids1 ks1] n1] eqn:E1. apply (Tail _ _ _ _ _ E1). congruence.
    + destruct (process_row T eqb row m new) as [[ids1 ks1] n1] eqn:E1. apply (Tail _ _ _ _ _ E1). congruence.
Qed.

Lemma row_step sort cols c n new ids : grouped sort cols n ids -> length c = n ->
  (sort = true -> total_order_on T eqb ltb P /\ values_ok c) ->
  exists ids' ks, process_row T eqb (combine ids c) [] new = (ids', ks, new + length ks) /\ length ks <= n /\
    grouped sort (cols ++ [c]) n (sort_ids T ltb sort new ks ids') /\
    within new (new + length ks) (sort_ids T ltb sort new ks ids').
Proof.
  intros G L TO. destruct (process_row_ok T eqb (combine ids c) new) as [ids' [ks [R A]]].
  exists ids', ks. split; [exact R |]. split; [eapply ks_len; eassumption |]. split.
  - eapply step_grouped; try eassumption.
    intros Es p k K. destruct (TO Es) as [_ V]. apply nth_error_In in K.
    destruct (process_row_keys _ _ _ _ _ _ R _ K) as [[x y] [I E]]. cbn in E. subst y.
    apply V. apply in_combine_r in I. exact I.
  - eapply step_range; eassumption.
Qed.

(** ** Rows *)
Fixpoint ranges (lo : nat) (rows : list (list (option nat))) : Prop :=
  match rows with
  | [] => True
  | ids :: rows => exists hi, lo <= hi /\ hi <= lo + length ids /\ within lo hi ids /\ ranges hi rows
  end.
(** [colss]: for each row, its columns *)
Definition all_grouped (sort : bool) (colss : list (list (list (option T)))) (ns : list nat) (rows : list (list (option nat))) : Prop :=
  Forall2 (fun x ids => grouped sort (fst x) (snd x) ids) (combine colss ns) rows /\ length colss = length ns.

Lemma array_step sort : forall ns colss cs rows new, all_grouped sort colss ns rows -> map (@length _) cs = ns ->
  (sort = true -> total_order_on T eqb ltb P /\ Forall values_ok cs) ->
  let rows' := process_array T eqb ltb sort (map (fun p => combine (fst p) (snd p)) (combine rows cs)) new in
  all_grouped sort (map (fun p => fst p ++ [snd p]) (combine colss cs)) ns rows' /\ ranges new rows'.
Proof.
  induction ns as [| n ns IH]; intros colss cs rows new [H L] E TO.
  - destruct colss; [| discriminate]. destruct cs; [| discriminate]. inversion H; subst. cbn.
    split; [split; [constructor | reflexivity] | exact I].
  - destruct colss as [| cols colss]; [discriminate |]. destruct cs as [| c cs]; [discriminate |].
    cbn in E. assert (Lc : length c = n) by congruence. assert (E' : map (@length _) cs = ns) by congruence.
    cbn in H. inversion H as [| ? ids ? rows0 G H0]; subst rows. subst. cbn [fst snd] in G.
    cbn [combine map fst snd process_array].
    destruct (row_step sort cols c (length c) new ids G eq_refl) as [ids' [ks [R [Lk [G' W]]]]].
    { intros Es. destruct (TO Es) as [T0 V]. split; [exact T0 |]. inversion V; auto. }
    rewrite R. cbn in L.
    destruct (IH colss cs rows0 (new + length ks)) as [[H1 L1] Rg]; try reflexivity.
    { split; [exact H0 | lia]. }
    { intros Es. destruct (TO Es) as [T0 V]. split; [exact T0 |]. inversion V; auto. }
    cbv zeta. split; [split |].
    + cbn. constructor; [exact G' | exact H1].
    + cbn. f_equal. exact L1.
    + cbn. exists (new + length ks). repeat apply conj; auto; try lia.
      rewrite (g_len _ _ _ _ G'). lia.
Qed.

Lemma nothing_step sort : forall ns colss cs rows lo, all_grouped sort colss ns rows -> map (@length _) cs = ns ->
  Forall (fun c => forall x, In x c -> x = None) cs ->
  let rows' := map (map (fun _ : option nat => @None nat)) rows in
  all_grouped sort (map (fun p => fst p ++ [snd p]) (combine colss cs)) ns rows' /\ ranges lo rows'.
Proof.
  induction ns as [| n ns IH]; intros colss cs rows lo [H L] E Nc.
  - destruct colss; [| discriminate]. destruct cs; [| discriminate]. inversion H; subst. cbn.
    split; [split; [constructor | reflexivity] | exact I].
  - destruct colss as [| cols colss]; [discriminate |]. destruct cs as [| c cs]; [discriminate |].
    cbn in E. assert (Lc : length c = n) by congruence. assert (E' : map (@length _) cs = ns) by congruence.
    cbn in H. inversion H as [| ? ids ? rows0 G H0]; subst rows. subst. cbn [fst snd] in G.
    inversion Nc as [| ? ? Nc1 Nc2]; subst. cbn in L.
    destruct (IH colss cs rows0 lo) as [[H1 L1] Rg]; try reflexivity; [split; [exact H0 | lia] | exact Nc2 |].
    assert (NN : forall i g, nth_error (map (fun _ : option nat => @None nat) ids) i = Some (Some g) -> False).
    { intros i g X. rewrite nth_error_map in X. destruct (nth_error ids i); discriminate. }
    cbv zeta. split; [split |].
    + cbn. constructor; [| exact H1]. cbn [fst snd]. split.
      * rewrite map_length. exact (g_len _ _ _ _ G).
      * intros i Li. split; [intros [g X]; destruct (NN _ _ X) |]. rewrite has_keys_snoc. intros [_ [v V]].
        apply nth_error_In in V. apply Nc1 in V. discriminate.
      * intros i j g h X. destruct (NN _ _ X).
      * intros i j g h X. destruct (NN _ _ X).
    + cbn. f_equal. exact L1.
    + cbn. exists lo. repeat apply conj; auto; try lia. intros i g X. destruct (NN _ _ X).
Qed.

(** ** Keys *)
Definition usable (sort : bool) (k : key_slice T) : Prop :=
  sort = true -> match k_dtype k with Mixed => False | Single sortable => sortable = true | Nothing => True end.
Record key_ok (shape : list edge) (e : edge) (k : key_slice T) : Prop := {
  ko_shape : k_shape k = shape;
  ko_len : length (k_items k) = list_sum e;
  ko_nothing : k_dtype k = Nothing -> Forall (fun x => x = None) (k_items k) }.

Definition columns (e : edge) (ks : list (key_slice T)) (r : nat) : list (list (option T)) :=
  map (fun k => nth r (chunks e (k_items k)) []) ks.

Lemma key_step sort shape e k colss rows : all_grouped sort colss e rows -> key_ok shape e k ->
  (sort = true -> total_order_on T eqb ltb P /\ values_ok (k_items k)) ->
  all_grouped sort (map (fun p => fst p ++ [snd p]) (combine colss (chunks e (k_items k)))) e (process_key T eqb ltb sort e k rows)
  /\ ranges 0 (process_key T eqb ltb sort e k rows).
Proof.
  intros G [S1 L1 N1] TO. unfold process_key.
  assert (Lc : map (@length _) (chunks e (k_items k)) = e) by exact (chunks_lengths e (k_items k) L1).
  assert (TO' : sort = true -> total_order_on T eqb ltb P /\ Forall values_ok (chunks e (k_items k))).
  { intros Es. destruct (TO Es) as [T0 V]. split; [exact T0 |]. apply Forall_forall. intros c Ic v Iv.
    apply V. exact (chunks_in _ _ _ _ Ic Iv). }
  destruct (k_dtype k) eqn:D.
  - apply (nothing_step sort e colss (chunks e (k_items k)) rows 0 G Lc).
    apply Forall_forall. intros c Ic x Ix. specialize (N1 eq_refl). rewrite Forall_forall in N1.
    apply N1. exact (chunks_in _ _ _ _ Ic Ix).
  - exact (array_step sort e colss (chunks e (k_items k)) rows 0 G Lc TO').
  - exact (array_step sort e colss (chunks e (k_items k)) rows 0 G Lc TO').
Qed.

Lemma same_shape_true a b : same_shape a b = true <-> a = b.
Proof. unfold same_shape. destruct (list_eq_dec (list_eq_dec Nat.eq_dec) a b); split; congruence. Qed.

Lemma process_keys_ok sort shape e : forall ks colss rows, all_grouped sort colss e rows ->
  (forall k, In k ks -> key_ok shape e k /\ usable sort k) ->
  (sort = true -> total_order_on T eqb ltb P /\ (forall k, In k ks -> values_ok (k_items k))) ->
  (ks = [] -> ranges 0 rows) ->
  exists rows', process_keys T eqb ltb sort shape e ks rows = GOk rows' /\ ranges 0 rows' /\
    all_grouped sort (fold_left (fun cs k => map (fun p => fst p ++ [snd p]) (combine cs (chunks e (k_items k)))) ks colss) e rows'.
Proof.
  induction ks as [| k ks IH]; intros colss rows G K TO R.
  - exists rows. cbn. auto.
  - destruct (K k (or_introl eq_refl)) as [Ko U]. cbn [process_keys fold_left].
    rewrite (proj2 (same_shape_true _ _) (ko_shape _ _ _ Ko)). cbn [negb].
    assert (X1 : sort && match k_dtype k with Mixed => true | _ => false end = false).
    { unfold usable in U. destruct sort; [| reflexivity]. specialize (U eq_refl). destruct (k_dtype k); auto. destruct U. }
    assert (X2 : sort && match k_dtype k with Single sortable => negb sortable | _ => false end = false).
    { unfold usable in U. destruct sort; [| reflexivity]. specialize (U eq_refl). destruct (k_dtype k); auto.
      subst. reflexivity. }
    rewrite X1, X2.
    destruct (key_step sort shape e k colss rows G Ko) as [G' R'].
    { intros Es. destruct (TO Es) as [T0 V]. split; [exact T0 | apply V; left; reflexivity]. }
    apply IH; auto.
    + intros k' I. apply K. right. exact I.
    + intros Es. destruct (TO Es) as [T0 V]. split; [exact T0 |]. intros k' I. apply V. right. exact I.
Qed.

Lemma fold_columns e : forall ks colss, length colss = length e ->
  (forall k, In k ks -> length (k_items k) = list_sum e) ->
  fold_left (fun cs (k : key_slice T) => map (fun p => fst p ++ [snd p]) (combine cs (chunks e (k_items k)))) ks colss
  = map (fun r => nth r colss [] ++ columns e ks r) (seq 0 (length e)).
Proof.
  assert (Id : forall {A} (d : A) (l : list A), map (fun r => nth r l d) (seq 0 (length l)) = l).
  { intros A d l. induction l as [| x l IH]; cbn; [reflexivity |]. f_equal. rewrite <- seq_shift, map_map. exact IH. }
  induction ks as [| k ks IH]; intros colss L K; cbn [fold_left].
  - rewrite <- L. rewrite <- (Id _ [] colss) at 1. apply map_ext. intros r. unfold columns. cbn. rewrite app_nil_r. reflexivity.
  - assert (Lc : length (chunks e (k_items k)) = length e) by apply chunks_length.
    assert (M : map (fun p => fst p ++ [snd p]) (combine colss (chunks e (k_items k)))
                = map (fun r => nth r colss [] ++ [nth r (chunks e (k_items k)) []]) (seq 0 (length e))).
    { clear IH. revert L Lc. generalize (chunks e (k_items k)) as cs. generalize (length e) as n. clear K.
      intros n cs. revert n cs. induction colss as [| x colss IHc]; intros n cs L Lc.
      - cbn in L. subst n. reflexivity.
      - destruct cs as [| y cs]; [cbn in *; lia |]. destruct n as [| n]; [cbn in *; lia |].
        cbn. f_equal. rewrite <- seq_shift, map_map. apply IHc; cbn in *; lia. }
    rewrite M. rewrite IH.
    + apply map_ext_in. intros r Ir. apply in_seq in Ir.
      rewrite (nth_indep _ [] ((fun r0 => nth r0 colss [] ++ [nth r0 (chunks e (k_items k)) []]) 0)) by (rewrite map_length, seq_length; lia).
      rewrite (map_nth (fun r0 => nth r0 colss [] ++ [nth r0 (chunks e (k_items k)) []])). rewrite seq_nth by lia.
      cbn [plus]. rewrite <- app_assoc. reflexivity.
    + rewrite map_length, seq_length. reflexivity.
    + intros k' I. apply K. right. exact I.
Qed.

Lemma init_grouped sort : forall e, all_grouped sort (map (fun _ => []) e) e (map (repeat (Some 0)) e).
Proof.
  intros e. split; [| apply map_length]. induction e as [| n e IH]; cbn; constructor; [apply grouped_init | exact IH].
Qed.

Theorem rows_ok sort shape e ks : ks <> [] ->
  (forall k, In k ks -> key_ok shape e k /\ usable sort k) ->
  (sort = true -> total_order_on T eqb ltb P /\ (forall k, In k ks -> values_ok (k_items k))) ->
  exists rows, process_keys T eqb ltb sort shape e ks (map (repeat (Some 0)) e) = GOk rows /\ ranges 0 rows /\
    length rows = length e /\
    forall r n ids, nth_error e r = Some n -> nth_error rows r = Some ids -> grouped sort (columns e ks r) n ids.
Proof.
  intros NE K TO.
  destruct (process_keys_ok sort shape e ks _ _ (init_grouped sort e) K TO) as [rows [R [Rg [G L]]]].
  { intros ->. congruence. }
  exists rows. split; [exact R |]. split; [exact Rg |].
  rewrite fold_columns in G; [| apply map_length | intros k I; exact (ko_len _ _ _ (proj1 (K k I)))].
  assert (Gn : forall r x ids, nth_error (combine (map (fun r => nth r (map (fun _ : nat => []) e) [] ++ columns e ks r) (seq 0 (length e))) e) r = Some x ->
               nth_error rows r = Some ids -> grouped sort (fst x) (snd x) ids).
  { clear R Rg. revert G. generalize (combine (map (fun r => nth r (map (fun _ : nat => []) e) [] ++ columns e ks r) (seq 0 (length e))) e).
    intros l F. induction F as [| a b l l' F0 F1 IH]; intros r x ids X Y; [destruct r; discriminate |].
    destruct r as [| r]; cbn in X, Y.
    - assert (a = x) by congruence. assert (b = ids) by congruence. subst. exact F0.
    - exact (IH _ _ _ X Y). }
  split.
  - assert (Ll : length (combine (map (fun r => nth r (map (fun _ : nat => []) e) [] ++ columns e ks r) (seq 0 (length e))) e) = length rows).
    { clear - G. induction G; cbn; congruence. }
    rewrite combine_length, map_length, seq_length in Ll. lia.
  - intros r n ids E X. assert (Lr : r < length e) by (apply nth_error_lt in E; exact E).
    assert (N0 : forall m, nth m (map (fun _ : nat => @nil (list (option T))) e) [] = []).
    { clear. induction e as [| y l IHl]; intros [| m]; cbn; auto. }
    apply (Gn r (columns e ks r, n) ids); [| exact X]. apply nth_error_combine. split; [| exact E].
    rewrite nth_error_map.
    assert (Sq : nth_error (seq 0 (length e)) r = Some r).
    { rewrite (nth_error_nth' _ 0) by (rewrite seq_length; lia). rewrite seq_nth by lia. reflexivity. }
    rewrite Sq. cbn. rewrite N0. reflexivity.
Qed.
End Rows.
