(** group_by and unique as a whole. *)
From Coq Require Import List Bool Arith Lia Permutation Sorted.
From Verif Require Import SliceOpsModel SliceGatherProofs SubsliceOpsProofs GroupModel GroupSpec GroupAssignProofs GroupSortProofs GroupKeysProofs GroupFinalProofs GroupUniqueProofs.
Import ListNotations.
Local Open Scope nat_scope.
Local Open Scope list_scope.

Lemma forall2_impl {A B} (R Q : A -> B -> Prop) : (forall a b, R a b -> Q a b) -> forall l l', Forall2 R l l' -> Forall2 Q l l'.
Proof. intros H l l' F. induction F; constructor; auto. Qed.

Section Whole.
Variable T : Type.
Variables eqb ltb : T -> T -> bool.

Lemma nth_chunk_length {A} e (l : list A) r n : length l = list_sum e -> nth_error e r = Some n ->
  length (nth r (chunks e l) []) = n.
Proof.
  intros L E. pose proof (chunks_lengths e l L) as C.
  assert (X : nth_error (map (@length A) (chunks e l)) r = Some n) by (rewrite C; exact E).
  rewrite nth_error_map in X. destruct (nth_error (chunks e l) r) as [c |] eqn:N; [| discriminate].
  rewrite (nth_error_nth _ _ [] N). cbn in X. congruence.
Qed.

Lemma group_by_ok P sort shape e ks : partial_equivalence T eqb -> ks <> [] ->
  (forall k, In k ks -> key_ok T (shape ++ [e]) e k /\ usable T sort k) ->
  (sort = true -> total_order_on T eqb ltb P /\ (forall k v, In k ks -> In (Some v) (k_items k) -> P v)) ->
  exists gss, group_by_indices T eqb ltb sort ks
      = GOk (shape, split_points (map (@length _) gss), split_points (map (@length _) (concat gss)), map Some (concat (concat gss))) /\
    length gss = length e /\
    forall r n gs, nth_error e r = Some n -> nth_error gss r = Some gs -> row_groups T eqb ltb sort (columns T e ks r) n gs.
Proof.
  intros PE NE K TO.
  destruct (rows_ok T eqb ltb P PE sort (shape ++ [e]) e ks NE K) as [rows [R [Rg [Lr G]]]].
  { intros Es. destruct (TO Es) as [T0 V]. split; [exact T0 |]. intros k I v Iv. exact (V k v I Iv). }
  destruct (create_final_ok rows Rg) as [gss [F C]].
  exists gss.
  assert (Lg : length rows = length gss) by (clear -F; induction F; cbn; congruence).
  split; [| split; [lia |]].
  - destruct ks as [| k ks]; [congruence |]. unfold group_by_indices.
    destruct (K k (or_introl eq_refl)) as [[S0 _ _] _].
    assert (Rv : rev (k_shape k) = e :: rev shape) by (rewrite S0, rev_app_distr; reflexivity).
    rewrite Rv, S0, R, C, rev_involutive. reflexivity.
  - intros r n gs E X.
    assert (Nr : exists ids, nth_error rows r = Some ids /\ lists_groups ids gs).
    { clear -F X. revert r X. induction F as [| a b l l' H F IH]; intros r X; [destruct r; discriminate |].
      destruct r as [| r]; cbn in *; [exists a; split; [reflexivity | congruence] | exact (IH r X)]. }
    destruct Nr as [ids [Y L]]. apply (lists_row_groups T eqb ltb sort _ n ids); [exact (G r n ids E Y) | | exact L].
    intros j H. destruct ks as [| k ks]; [congruence |].
    destruct (H (nth r (chunks e (k_items k)) []) (or_introl eq_refl)) as [v V].
    apply nth_error_lt in V. rewrite (nth_chunk_length e (k_items k) r n) in V; [exact V | | exact E].
    exact (ko_len _ _ _ _ (proj1 (K k (or_introl eq_refl)))).
Qed.

Lemma process_keys_refused sort shape e : forall ks rows,
  (exists er, process_keys T eqb ltb sort shape e ks rows = GErr er) <->
  exists k, In k ks /\ (k_shape k <> shape \/ ~ usable T sort k).
Proof.
  induction ks as [| k ks IH]; intros rows; cbn [process_keys].
  - split; [intros [er E]; discriminate | intros [k [[] _]]].
  - destruct (same_shape (k_shape k) shape) eqn:Q; cbn [negb].
    + apply same_shape_true in Q.
      assert (U : usable T sort k <-> sort && match k_dtype k with Mixed => true | _ => false end = false /\
                  sort && match k_dtype k with Single sortable => negb sortable | _ => false end = false).
      { unfold usable. destruct sort; cbn; [| split; [auto | discriminate]].
        destruct (k_dtype k) as [| | [|]]; cbn; split; auto; try (intros [X Y]; discriminate);
          try (intros X; specialize (X eq_refl); try discriminate; try contradiction). }
      assert (Bad : ~ usable T sort k -> exists k0, In k0 (k :: ks) /\ (k_shape k0 <> shape \/ ~ usable T sort k0)).
      { intros N. exists k. split; [left; reflexivity | right; exact N]. }
      destruct (sort && match k_dtype k with Mixed => true | _ => false end) eqn:X1.
      { split; [intros _; apply Bad; rewrite U; intros [Y _]; discriminate | intros _; eexists; reflexivity]. }
      destruct (sort && match k_dtype k with Single sortable => negb sortable | _ => false end) eqn:X2.
      { split; [intros _; apply Bad; rewrite U; intros [_ Y]; discriminate | intros _; eexists; reflexivity]. }
      rewrite IH. split.
      * intros [k0 [I N]]. exists k0. split; [right; exact I | exact N].
      * intros [k0 [[<- | I] N]]; [| exists k0; auto]. exfalso. destruct N as [N | N]; [congruence |].
        apply N. apply U. auto.
    + split; [| intros _; eexists; reflexivity]. intros _. exists k. split; [left; reflexivity | left].
      intros E. apply same_shape_true in E. congruence.
Qed.
Lemma group_by_refused sort ks : (exists er, group_by_indices T eqb ltb sort ks = GErr er) <->
  match ks with
  | [] => True
  | k :: _ => k_shape k = [] \/ exists k', In k' ks /\ (k_shape k' <> k_shape k \/ ~ usable T sort k')
  end.
Proof.
  unfold group_by_indices. destruct ks as [| k ks]; [split; [auto | eexists; reflexivity] |].
  destruct (rev (k_shape k)) as [| e parents] eqn:R.
  - assert (k_shape k = []). { rewrite <- (rev_involutive (k_shape k)), R. reflexivity. }
    split; [auto | intros _; eexists; reflexivity].
  - assert (k_shape k <> []). { intros E. rewrite E in R. discriminate. }
    pose proof (process_keys_refused sort (k_shape k) e (k :: ks) (map (repeat (Some 0)) e)) as X.
    destruct (process_keys T eqb ltb sort (k_shape k) e (k :: ks) (map (repeat (Some 0)) e)) as [ids | er].
    + destruct (create_final ids) as [[i g] it]. split; [intros [er E]; discriminate |].
      intros [Y | Y]; [contradiction |]. apply X in Y. destruct Y as [er E]. discriminate.
    + split; [intros _; right; apply X; eauto | eauto].
Qed.

Variable is_nan : T -> bool.
(** which values of a slice Unique takes for NaN *)
Definition nan_in (d : dtype) : T -> Prop := match d with Mixed => fun _ => False | _ => fun v => is_nan v = true end.

Lemma unique_ok sort shape e x : partial_equivalence T eqb -> (forall a b, is_nan a = true -> eqb a b = false) ->
  key_ok T (shape ++ [e]) e x -> usable T sort x ->
  (sort = true -> total_order_on T eqb ltb (fun v => is_nan v = false)) ->
  exists us, unique T eqb ltb is_nan sort x = UOk shape (split_points (map (@length _) us)) (concat us) /\
    Forall2 (row_unique T eqb ltb (nan_in (k_dtype x)) sort) (chunks e (k_items x)) us.
Proof.
  intros PE NaN [S0 L0 N0] U TO. unfold unique.
  assert (Rv : rev (k_shape x) = e :: rev shape) by (rewrite S0, rev_app_distr; reflexivity). rewrite Rv.
  assert (X1 : sort && match k_dtype x with Mixed => true | _ => false end = false).
  { unfold usable in U. destruct sort; [| reflexivity]. specialize (U eq_refl). destruct (k_dtype x); auto. destruct U. }
  assert (X2 : sort && match k_dtype x with Single sortable => negb sortable | _ => false end = false).
  { unfold usable in U. destruct sort; [| reflexivity]. specialize (U eq_refl). destruct (k_dtype x); auto. subst. reflexivity. }
  rewrite X1, X2, rev_involutive. cbv zeta.
  destruct (k_dtype x) as [| | sortable] eqn:D; (eexists; split; [reflexivity |]).
  - specialize (N0 eq_refl).
    assert (NR : forall c, In c (chunks e (k_items x)) -> forall y, In y c -> y = None).
    { intros c Ic y Iy. rewrite Forall_forall in N0. apply N0. exact (chunks_in _ _ _ _ Ic Iy). }
    pose proof (chunks_length e (k_items x)) as Lc. revert NR Lc. generalize (chunks e (k_items x)).
    clear -TO. intros cs. revert e. induction cs as [| c cs IH]; intros [| n e] NR Lc; cbn in Lc; try discriminate; constructor.
    + assert (FO : first_occurrences T eqb (fun v => is_nan v = true) c []).
      { exists []. split; [constructor |]. split; [| constructor]. intros i. split; [intros [] |]. intros [v [V _]].
        apply nth_error_In in V. apply (NR c (or_introl eq_refl)) in V. discriminate. }
      unfold row_unique. destruct sort; [| exact FO]. split; [constructor | exists []; auto].
    + apply IH; [| congruence]. intros c' I. apply NR. right. exact I.
  - assert (Es : sort = false) by (destruct sort; [discriminate | reflexivity]). subst sort.
    pose proof (rows_unique T eqb ltb (fun _ => false) PE ltac:(intros; discriminate) false ltac:(discriminate)
                  (chunks e (k_items x)) 1 [] ltac:(intros w s [])) as F.
    unfold row_unique, first_occurrences, same_value, nan_in in *.
    eapply forall2_impl; [| exact F]. cbv beta. intros c u [ps [A [B C]]]. exists ps. split; [exact A |]. split; [| exact C].
    intros i. rewrite B. split; intros [v [V H]]; exists v; (split; [exact V |]); intros j w L W Z;
      apply (H j w L W); destruct Z as [Z | [Z _]]; auto; try discriminate; contradiction.
  - exact (rows_unique T eqb ltb is_nan PE NaN sort TO (chunks e (k_items x)) 1 [] ltac:(intros w s [])).
Qed.

Lemma unique_refused sort x : (exists er, unique T eqb ltb is_nan sort x = UErr er) <-> k_shape x <> [] /\ ~ usable T sort x.
Proof.
  unfold unique. destruct (rev (k_shape x)) as [| e parents] eqn:R.
  - assert (k_shape x = []). { rewrite <- (rev_involutive (k_shape x)), R. reflexivity. }
    split; [intros [er E]; discriminate | intros [N _]; contradiction].
  - assert (k_shape x <> []). { intros E. rewrite E in R. discriminate. }
    unfold usable. destruct sort; cbn [andb].
    + destruct (k_dtype x) as [| | [|]]; cbn; split; try (intros [er E]; discriminate); try (intros [_ N]; exfalso; apply N; auto; fail);
        try (intros _; split; [assumption | intros N; specialize (N eq_refl); try contradiction; try discriminate]);
        try (intros _; eexists; reflexivity).
    + split; [intros [er E]; discriminate | intros [_ N]; exfalso; apply N; discriminate].
Qed.
Lemma unique_item sort x : k_shape x = [] <-> unique T eqb ltb is_nan sort x = UItem.
Proof.
  unfold unique. split.
  - intros ->. reflexivity.
  - intros E. destruct (rev (k_shape x)) as [| e parents] eqn:R.
    + rewrite <- (rev_involutive (k_shape x)), R. reflexivity.
    + exfalso. cbv zeta in E. destruct (sort && match k_dtype x with Mixed => true | _ => false end); [discriminate |].
      destruct (sort && match k_dtype x with Single sortable => negb sortable | _ => false end); discriminate.
Qed.
End Whole.
