(** Operators that change the last dimensions of a slice: select, inverse_select, reverse. *)
From Coq Require Import NArith ZArith List Bool Arith Lia Permutation.
From Verif Require Import ObjectIdModel SchemaModel ItemModel SliceModel SliceSpec SliceProofs SliceBuildProofs
  SliceOpsModel SliceOpsSpec SliceOpsProofs SliceOrProofs SliceGatherProofs.
Import ListNotations.
Local Open Scope nat_scope.

(** ** Lists *)
Lemma kept_length_eq : forall {A B} ms (l : list A) (k : list B), length l = length ms -> length k = length ms ->
  length (kept ms l) = length (kept ms k).
Proof.
  intros A B ms. induction ms as [|m ms IH]; intros [|x l] [|y k] L K; auto; try discriminate.
  cbn in *. destruct m; cbn; auto.
Qed.
Lemma kept_map : forall {A B} (f : A -> B) ms l, map f (kept ms l) = kept ms (map f l).
Proof.
  intros A B f ms. induction ms as [|m ms IH]; intros [|x l]; auto. cbn. destruct m; cbn; rewrite IH; auto.
Qed.
Lemma kept_app : forall {A} a b (l : list A), kept (a ++ b) l = kept a (firstn (length a) l) ++ kept b (skipn (length a) l).
Proof.
  intros A a. induction a as [|m a IH]; intros b l; auto. destruct l as [|x l].
  - cbn. rewrite ?firstn_nil, ?skipn_nil. destruct b; reflexivity.
  - cbn. rewrite IH. destruct m; reflexivity.
Qed.
Lemma kept_all : forall {A} u (l : list A) n, length l = n -> kept (repeat (Some u) n) l = l.
Proof. intros A u l n <-. induction l as [|x l IH]; cbn; congruence. Qed.
Lemma kept_none : forall {A} (l : list A) n, kept (repeat None n) l = [].
Proof. intros A l n. revert l. induction n as [|n IH]; intros [|x l]; cbn; auto. Qed.
Lemma kept_count : forall {A} ms (l : list A), length l = length ms -> length (kept ms l) = length (filter isSome ms).
Proof.
  intros A ms. induction ms as [|m ms IH]; intros [|x l] L; auto; try discriminate. cbn in *. destruct m; cbn; auto.
Qed.
Lemma expanded_cons : forall x l n e, expanded (x :: l) (n :: e) = repeat x n ++ expanded l e.
Proof. reflexivity. Qed.
Lemma expanded_length : forall l e, length l = length e -> length (expanded l e) = list_sum e.
Proof. intros l e H. now apply map2_repeat_length. Qed.
(** keeping groups *)
Lemma chunks_kept : forall {A} ms e (F : list A), length ms = length e -> length F = list_sum e ->
  chunks (kept ms e) (kept (expanded ms e) F) = kept ms (chunks e F).
Proof.
  intros A ms. induction ms as [|m ms IH]; intros [|n e] F L LF; auto; try discriminate.
  cbn in L. rewrite expanded_cons, kept_app, repeat_length.
  change (list_sum (n :: e)) with (n + list_sum e) in LF.
  assert (L1 : length (firstn n F) = n) by (apply firstn_length_le; lia).
  assert (L2 : length (skipn n F) = list_sum e) by (rewrite skipn_length; lia).
  cbn [kept chunks]. destruct m as [u|].
  - rewrite kept_all by auto. cbn [chunks]. rewrite firstn_app, L1, Nat.sub_diag. cbn [firstn]. rewrite app_nil_r.
    rewrite firstn_all2 by lia. f_equal. rewrite skipn_app, L1, Nat.sub_diag. rewrite (skipn_all2 (firstn n F)) by lia.
    cbn [app skipn]. apply IH; auto.
  - rewrite kept_none. cbn [app]. apply IH; auto.
Qed.
(** keeping elements of groups *)
Lemma chunks_filtered : forall {A} e ms (F : list A), length ms = list_sum e -> length F = list_sum e ->
  chunks (map (fun g => length (filter isSome g)) (chunks e ms)) (kept ms F) = map2 kept (chunks e ms) (chunks e F).
Proof.
  intros A e. induction e as [|n e IH]; intros ms F LM LF; auto.
  change (list_sum (n :: e)) with (n + list_sum e) in LM, LF.
  assert (L1 : length (firstn n F) = n) by (apply firstn_length_le; lia).
  assert (L2 : length (skipn n F) = list_sum e) by (rewrite skipn_length; lia).
  assert (M1 : length (firstn n ms) = n) by (apply firstn_length_le; lia).
  assert (M2 : length (skipn n ms) = list_sum e) by (rewrite skipn_length; lia).
  cbn [chunks map map2]. assert (K : kept ms F = kept (firstn n ms) (firstn n F) ++ kept (skipn n ms) (skipn n F)).
  { rewrite <- (firstn_skipn n ms) at 1. rewrite kept_app, M1. reflexivity. }
  assert (C : length (kept (firstn n ms) (firstn n F)) = length (filter isSome (firstn n ms))) by (apply kept_count; lia).
  rewrite K. rewrite <- C. f_equal.
  - rewrite firstn_app, Nat.sub_diag. cbn. rewrite app_nil_r. apply firstn_all.
  - rewrite skipn_app, Nat.sub_diag, skipn_all. cbn [app skipn]. apply IH; auto.
Qed.
Lemma chunks_sum : forall {A} e (ms : list (option A)), length ms = list_sum e ->
  list_sum (map (fun g => length (filter isSome g)) (chunks e ms)) = length (filter isSome ms).
Proof.
  intros A e. induction e as [|n e IH]; intros ms L; [destruct ms; [reflexivity|discriminate]|].
  change (list_sum (n :: e)) with (n + list_sum e) in L. cbn [chunks map].
  change (length (filter isSome (firstn n ms)) + list_sum (map (fun g => length (filter isSome g)) (chunks e (skipn n ms))) =
          length (filter isSome ms)).
  rewrite IH by (rewrite skipn_length; lia). rewrite <- (firstn_skipn n ms) at 3. rewrite filter_app, app_length. reflexivity.
Qed.

(** ** Shapes *)
Lemma shape_from_fits : forall sh n k, fits n sh k -> shape_from n sh = true.
Proof.
  induction sh as [|e sh IH]; intros n k H; auto. destruct H as [H1 H2]. cbn. unfold parent_size, child_size.
  rewrite H1, Nat.eqb_refl. cbn. eapply IH; eauto.
Qed.
Lemma fits_app : forall a b n k, fits n (a ++ b) k <-> exists m, fits n a m /\ fits m b k.
Proof.
  induction a as [|e a IH]; intros b n k; cbn.
  - split; [eauto|]. intros (m & -> & H). exact H.
  - rewrite IH. split.
    + intros (H1 & m & H2 & H3). exists m. auto.
    + intros (m & (H1 & H2) & H3). split; auto. exists m. auto.
Qed.
Lemma fits_unique : forall sh n k1 k2, fits n sh k1 -> fits n sh k2 -> k1 = k2.
Proof.
  induction sh as [|e sh IH]; intros n k1 k2 H1 H2; cbn in *; [congruence|]. eapply IH; [apply H1|apply H2].
Qed.
Lemma edge_eqb_eq : forall a b, edge_eqb a b = true <-> a = b.
Proof. intros a b. unfold edge_eqb. destruct (list_eq_dec Nat.eq_dec a b); split; congruence. Qed.
Lemma shape_eqb_eq : forall a b, shape_eqb a b = true <-> a = b.
Proof.
  induction a as [|x a IH]; intros [|y b]; cbn; split; try congruence.
  - intros H. apply andb_prop in H. destruct H as [H1 H2]. apply edge_eqb_eq in H1. apply IH in H2. congruence.
  - intros H. injection H as -> ->. apply andb_true_iff. split; [now apply edge_eqb_eq|now apply IH].
Qed.
Lemma broadcastable_spec : forall a b, broadcastable a b = true <-> exists c, b = a ++ c.
Proof.
  intros a b. unfold broadcastable. split.
  - intros H. apply andb_prop in H. destruct H as [_ H2]. apply shape_eqb_eq in H2.
    exists (skipn (length a) b). rewrite H2 at 1. symmetry. apply firstn_skipn.
  - intros (c & ->). apply andb_true_iff. split.
    + apply Nat.leb_le. rewrite app_length. lia.
    + apply shape_eqb_eq. now rewrite firstn_app, Nat.sub_diag, firstn_all, app_nil_r.
Qed.
Lemma forest_length : forall sh n l, fits n sh (length l) -> length (forest sh l) = n.
Proof.
  induction sh as [|e sh IH]; intros n l H; cbn in *.
  - now rewrite map_length.
  - unfold group. rewrite map_length, chunks_length. apply H.
Qed.
Lemma forest_app : forall a b l, forest (a ++ b) l = fold_right group (forest b l) a.
Proof. intros a b l. unfold forest. apply fold_right_app. Qed.

(** ** Arrays of masks *)
Lemma nth_elements_present : forall n a i, arr_ok n a -> i < n -> d_present a i = isSome (nth i (elements a) None).
Proof.
  intros n a i O Hi. rewrite (elements_nth n) by (auto; apply O). now apply (present_get n).
Qed.
Lemma kept_indices : forall {A} (g : nat -> A) (P : nat -> bool) ms k,
  (forall j, j < length ms -> P (k + j) = isSome (nth j ms None)) ->
  map g (filter P (seq k (length ms))) = kept ms (map g (seq k (length ms))).
Proof.
  intros A g P ms. induction ms as [|m ms IH]; intros k H; auto. cbn [length seq filter map kept].
  assert (P0 : P k = isSome m). { specialize (H 0). cbn in H. rewrite Nat.add_0_r in H. apply H. lia. }
  assert (R : map g (filter P (seq (S k) (length ms))) = kept ms (map g (seq (S k) (length ms)))).
  { apply IH. intros j Hj. specialize (H (S j)). cbn [length nth] in H. rewrite Nat.add_succ_r in H. cbn [Nat.add]. apply H. lia. }
  rewrite P0. destruct m; cbn [isSome map]; now rewrite R.
Qed.
Lemma kept_present : forall {A} (g : nat -> A) n m, arr_ok n m ->
  map g (present_indices m) = kept (elements m) (map g (seq 0 n)).
Proof.
  intros A g n m O. unfold present_indices. pose proof (ao_size _ _ O) as SZ.
  assert (L : length (elements m) = n) by now rewrite elements_length.
  rewrite SZ. rewrite <- L. apply kept_indices. rewrite L. intros j Hj. cbn [Nat.add]. now apply (nth_elements_present n).
Qed.
Lemma select_edge_kept : forall n e m, arr_ok n m -> length e = n -> select_edge e m = kept (elements m) e.
Proof.
  intros n e m O L. unfold select_edge. rewrite (kept_present _ n) by auto. f_equal. rewrite <- L.
  apply nth_ext with (d := 0) (d' := 0); [now rewrite map_length, seq_length|]. intros i Hi.
  rewrite map_length, seq_length in Hi. now rewrite nth_map_seq.
Qed.
Lemma elements_of_list : forall k l, elements (of_list k l) = l.
Proof.
  intros k l. apply nth_ext with (d := None) (d' := None).
  - rewrite elements_length. reflexivity.
  - intros i Hi. rewrite elements_length in Hi. rewrite (elements_nth _ _ i eq_refl Hi). apply of_list_get.
Qed.
Lemma arr_expand_elements : forall n a e, arr_ok n a -> length e = n -> elements (arr_expand a e) = expanded (elements a) e.
Proof.
  intros n a e O L. unfold arr_expand. rewrite elements_of_list. rewrite (ao_size _ _ O), <- L.
  rewrite (flat_repeat (d_get a)). unfold expanded, elements. now rewrite (ao_size _ _ O), L.
Qed.
Lemma arr_expand_ok : forall n a e, arr_ok n a -> length e = n -> arr_ok (child_size e) (arr_expand a e).
Proof.
  intros n a e O L. rewrite (arr_expand_gather n) by auto. rewrite <- expand_idx_length. apply (gather_ok n); auto.
  intros i Hi. rewrite <- L. now apply expand_idx_lt.
Qed.
Lemma select_below_ok : forall below n m N, arr_ok n m -> fits n below N ->
  exists es m', select_below below m = (es, m') /\ arr_ok N m' /\
    (forall l, length l = N -> fits (length (kept (elements m) (elements m))) es (length (kept (elements m') l)) /\
       forest es (kept (elements m') l) = kept (elements m) (forest below l)).
Proof.
  induction below as [|e r IH]; intros n m N O F.
  - cbn in F. subst N. exists [], m. split; [reflexivity|]. split; auto. intros l L.
    assert (LE : length (elements m) = n) by (rewrite elements_length; apply O). split.
    + cbn. apply kept_length_eq; congruence.
    + cbn. apply kept_map.
  - destruct F as [L F].
    destruct (IH (child_size e) (arr_expand m e) N (arr_expand_ok n m e O L) F) as (es & m' & E & O' & Q).
    exists (select_edge e m :: es), m'. cbn [select_below]. rewrite E. split; auto. split; auto.
    intros l Ll. destruct (Q l Ll) as [Q1 Q2]. rewrite (arr_expand_elements n) in Q1, Q2 by auto.
    assert (LE : length (elements m) = n) by (rewrite elements_length; apply O).
    rewrite (select_edge_kept n) by auto. split.
    + cbn [fits]. split; [apply kept_length_eq; congruence|].
      replace (list_sum (kept (elements m) e)) with (length (kept (expanded (elements m) e) (expanded (elements m) e))); auto.
      clear - LE L. revert LE L. generalize (elements m) as ms. revert n.
      induction e as [|k e IH]; intros n [|x ms] LE L; auto; cbn in LE, L; try lia.
      rewrite expanded_cons, kept_app, repeat_length. rewrite firstn_app, repeat_length, Nat.sub_diag.
      rewrite skipn_app, repeat_length, Nat.sub_diag. cbn [firstn skipn]. rewrite app_nil_r.
      rewrite firstn_all2 by now rewrite repeat_length. rewrite skipn_all2 by now rewrite repeat_length. cbn [app].
      rewrite app_length. rewrite (IH (pred n)) by lia. cbn [kept]. destruct x.
      * rewrite kept_all by apply repeat_length. rewrite repeat_length. reflexivity.
      * rewrite kept_none. reflexivity.
    + change (forest (kept (elements m) e :: es) (kept (elements m') l))
        with (map Node (chunks (kept (elements m) e) (forest es (kept (elements m') l)))).
      rewrite Q2. change (forest (e :: r) l) with (map Node (chunks e (forest r l))). rewrite <- kept_map. f_equal.
      apply chunks_kept; [congruence|]. apply forest_length. now rewrite Ll.
Qed.

Lemma empty_arr_ok : forall k n, arr_ok n (empty_arr k n) /\ elements (empty_arr k n) = repeat None n.
Proof.
  intros k n. assert (NB : forall i, bit (repeat false n) i = true -> i < n -> False).
  { intros i H Hi. unfold bit in H. destruct (repeat false n) eqn:E; [destruct n; [lia|discriminate]|].
    rewrite <- E in H. rewrite nth_repeat in H. discriminate. }
  split.
  - constructor.
    + unfold d_size. cbn. apply repeat_length.
    + right. cbn. apply repeat_length.
    + intros i Hi P. exfalso. eapply NB; eauto.
  - apply nth_ext with (d := None) (d' := None).
    + rewrite elements_length, repeat_length. unfold d_size. cbn. apply repeat_length.
    + intros i Hi. rewrite elements_length in Hi. rewrite (elements_nth _ _ i eq_refl Hi). rewrite nth_repeat.
      unfold d_get. destruct (d_present (empty_arr k n) i) eqn:P; auto. cbn. apply nth_repeat.
Qed.
Lemma mask_array_ok : forall filter, slice_wf filter ->
  (~ is_mask (items filter) -> mask_array filter = Fails EMask) /\
  (is_mask (items filter) -> exists m, mask_array filter = Done m /\ arr_ok (s_size filter) m /\ elements m = items filter).
Proof.
  intros filter W. unfold mask_array. destruct (slice_count filter =? 0) eqn:C.
  - apply Nat.eqb_eq in C. pose proof (proj1 (count_zero filter W) C) as N.
    assert (I : items filter = repeat None (s_size filter)).
    { apply items_eq; [now rewrite repeat_length|]. intros i Hi. rewrite nth_repeat. auto. }
    split.
    + intros NM. exfalso. apply NM. rewrite I. apply Forall_forall. intros x Hx. apply repeat_spec in Hx. auto.
    + intros _. destruct (empty_arr_ok KUnit (s_size filter)) as [A B]. eexists. split; [reflexivity|]. split; auto. congruence.
  - destruct (mask_cases filter W) as [[V _]|[(a & V & D & K & M)|(V & D & NM)]].
    + unfold slice_count in C. rewrite V in C. discriminate.
    + split; [tauto|]. intros _. rewrite D, V. exists a. split; auto.
      assert (O : arr_ok (s_size filter) a) by (apply wf_array; auto; rewrite V; now left). split; auto.
      unfold elements, items. rewrite (ao_size _ _ O). apply map_ext_in. intros i Hi. apply in_seq in Hi.
      symmetry. apply single_item; auto. lia.
    + split; [|tauto]. intros _. destruct (s_dtype filter) as [[]|]; try reflexivity. congruence.
Qed.

Section Shapes.
Variable visit : list (kind * storage) -> list (kind * storage).
Hypothesis visits : forall m, Permutation (visit m) m.

(** ** select *)
Lemma select_ok : forall ds sh filter fsh, good_slice ds -> slice_wf filter ->
  fits 1 sh (s_size ds) -> fits 1 fsh (s_size filter) ->
  (length fsh = 0 \/ length sh < length fsh -> select visit ds sh filter fsh = Fails ERank) /\
  (0 < length fsh <= length sh -> ~ (exists below, sh = fsh ++ below) -> select visit ds sh filter fsh = Fails EBroadcast) /\
  (0 < length fsh -> (exists below, sh = fsh ++ below) -> ~ is_mask (items filter) -> select visit ds sh filter fsh = Fails EMask) /\
  (forall up e below, fsh = up ++ [e] -> sh = up ++ e :: below -> is_mask (items filter) ->
   exists s sh', select visit ds sh filter fsh = Done (s, sh') /\ good_slice s /\ fits 1 sh' (s_size s) /\
     length sh' = length sh /\ firstn (length up) sh' = up /\
     forest sh' (items s) =
       fold_right group (map Node (map2 kept (chunks e (items filter)) (chunks e (forest below (items ds))))) up /\
     (below = [] -> sh' = up ++ [map (fun g => length (List.filter present_item g)) (chunks e (items filter))] /\
        items s = kept (items filter) (items ds))).
Proof.
  intros ds sh filter fsh G W F FF. assert (G' := G). destruct G' as (Wd & AW & AO). unfold select.
  split. { intros [H|H]; [rewrite H; reflexivity|]. destruct (Nat.ltb_spec (length fsh) 1); auto.
    destruct (Nat.ltb_spec (length sh) (length fsh)); auto. lia. }
  split. { intros H NB. destruct (Nat.ltb_spec (length fsh) 1); [lia|]. destruct (Nat.ltb_spec (length sh) (length fsh)); [lia|].
    destruct (broadcastable fsh sh) eqn:B; auto. apply broadcastable_spec in B. tauto. }
  destruct (mask_array_ok filter W) as [M1 M2].
  split. { intros H (below & ->) NM. destruct (Nat.ltb_spec (length fsh) 1); [lia|].
    destruct (Nat.ltb_spec (length (fsh ++ below)) (length fsh)); [rewrite app_length in *; lia|].
    rewrite (proj2 (broadcastable_spec fsh (fsh ++ below))) by eauto. cbn [negb]. now rewrite M1. }
  intros up e below EF ES IM. destruct (M2 IM) as (m & Em & Om & Im).
  assert (LF : length fsh = S (length up)) by (rewrite EF, app_length; cbn; lia).
  destruct (Nat.ltb_spec (length fsh) 1); [lia|].
  destruct (Nat.ltb_spec (length sh) (length fsh)); [rewrite ES, app_length in *; cbn in *; lia|].
  rewrite (proj2 (broadcastable_spec fsh sh)).
  2:{ exists below. rewrite EF, ES, <- app_assoc. reflexivity. }
  cbn [negb]. rewrite Em. cbn [bind_out].
  replace (length fsh - 1) with (length up) by lia.
  assert (SK : skipn (length up) sh = e :: below) by (rewrite ES, skipn_app, Nat.sub_diag, skipn_all; reflexivity).
  assert (FN : firstn (length up) sh = up) by (rewrite ES, firstn_app, Nat.sub_diag, firstn_all; cbn; apply app_nil_r).
  rewrite SK, FN.
  rewrite ES in F. apply fits_app in F. destruct F as (p & Fu & Fe). destruct Fe as [Le Fb].
  assert (SF : s_size filter = list_sum e).
  { rewrite EF in FF. apply fits_app in FF. destruct FF as (p' & Fu' & Fe'). cbn in Fe'. apply Fe'. }
  rewrite SF in Om.
  destruct (select_below_ok below (list_sum e) m (s_size ds) Om Fb) as (es & m' & Eb & Om' & Q). rewrite Eb.
  assert (LM : length (items filter) = list_sum e) by (rewrite items_length; auto).
  assert (CG : count_groups e m = map (fun g => length (List.filter isSome g)) (chunks e (items filter))).
  { unfold count_groups. now rewrite Im. }
  destruct (Q (items ds) (items_length ds)) as [Q1 Q2].
  assert (KL : length (kept (elements m) (elements m)) = list_sum (count_groups e m)).
  { rewrite CG, chunks_sum by auto. rewrite Im. apply kept_count. reflexivity. }
  assert (FT : fits 1 (up ++ count_groups e m :: es) (length (kept (elements m') (items ds)))).
  { apply fits_app. exists p. split; auto. cbn [fits]. split; [|now rewrite <- KL].
    rewrite CG, map_length, chunks_length. exact Le. }
  unfold from_edges. rewrite (shape_from_fits _ _ _ FT). cbn [bind_out]. cbv zeta.
  destruct (gather_builder visit visits ds (map Some (present_indices m')) (s_allocs ds) (fun a => arr_at a (present_indices m')) Wd)
    as (b & s & E1 & E2 & _ & S' & I & _ & GS).
  - intros i Hi. apply in_map_iff in Hi. destruct Hi as (j & Ej & Hj). assert (j = i) by congruence. subst j.
    unfold present_indices in Hj. apply filter_In in Hj. destruct Hj as [Hj _]. apply in_seq in Hj.
    rewrite (ao_size _ _ Om') in Hj. lia.
  - intros a Ha. unfold arr_at, gather. now rewrite map_map.
  - assert (PC : present_count m' = length (map Some (present_indices m'))) by (rewrite map_length; reflexivity).
    rewrite PC, E1. cbn [obind]. rewrite E2. cbn [of_opt bind_out].
    assert (IS : items s = kept (elements m') (items ds)).
    { rewrite I. unfold gathered. rewrite map_map. rewrite (kept_present _ (s_size ds)) by auto. reflexivity. }
    exists s, (up ++ count_groups e m :: es). split; auto. split; [apply GS; auto; now apply knows_own|].
    rewrite <- items_length, IS. split; auto. split.
    { assert (Les : length es = length below).
      { clear - Eb. revert m es m' Eb. induction below as [|x r IH]; intros m es m' E; cbn in E.
        - now inversion E.
        - destruct (select_below r (arr_expand m x)) as [es' m''] eqn:R. inversion E; subst. cbn. f_equal. eauto. }
      rewrite ES, !app_length. cbn. lia. }
    split. { rewrite firstn_app, Nat.sub_diag, firstn_all. cbn. apply app_nil_r. }
    split; [|intros ->; cbn in Eb; inversion Eb; subst es m'; rewrite CG, Im; split; reflexivity].
    rewrite forest_app. f_equal.
    change (forest (count_groups e m :: es) (kept (elements m') (items ds)))
      with (map Node (chunks (count_groups e m) (forest es (kept (elements m') (items ds))))).
    f_equal. rewrite Q2, CG, Im. apply chunks_filtered; auto. apply forest_length. now rewrite items_length.
Qed.

(** ** inverse_select *)
Fixpoint ranks (ms : list (option value)) (k : nat) : list (option nat) :=
  match ms with
  | [] => []
  | None :: ms => None :: ranks ms k
  | Some _ :: ms => Some k :: ranks ms (S k)
  end.
Lemma ranks_length : forall ms k, length (ranks ms k) = length ms.
Proof. induction ms as [|[v|] ms IH]; intros k; cbn; auto. Qed.
Lemma ranks_lt : forall ms k i, In (Some i) (ranks ms k) -> i < k + length (filter isSome ms).
Proof.
  induction ms as [|[v|] ms IH]; intros k i H; cbn in *; [destruct H| |].
  - destruct H as [H|H]; [assert (k = i) by congruence; lia|]. apply IH in H. lia.
  - destruct H as [H|H]; [discriminate|]. now apply IH.
Qed.
Lemma upd_here : forall {A} (pre : list A) y x rest, upd (length pre) y (pre ++ x :: rest) = pre ++ y :: rest.
Proof. intros A pre. induction pre as [|p pre IH]; intros y x rest; cbn; auto. now rewrite IH. Qed.
Lemma from_indices_ranks : forall a (P : nat -> bool) ms pre k N, length (filter isSome ms) <= N ->
  (forall j, j < length ms -> P (length pre + j) = isSome (nth j ms None)) ->
  fold_left (fun l '(p, i) => upd p (d_get a i) l) (combine (filter P (seq (length pre) (length ms))) (seq k N))
    (pre ++ repeat None (length ms)) = pre ++ gather a (ranks ms k).
Proof.
  intros a P ms. induction ms as [|m ms IH]; intros pre k N LN H.
  - cbn. reflexivity.
  - assert (P0 : P (length pre) = isSome m). { specialize (H 0). cbn in H. rewrite Nat.add_0_r in H. apply H. lia. }
    assert (R : forall y j, j < length ms -> P (length (pre ++ [y]) + j) = isSome (nth j ms None)).
    { intros y j Hj. specialize (H (S j)). cbn [length nth] in H. rewrite app_length. cbn [length].
      replace (length pre + 1 + j) with (length pre + S j) by lia. apply H. lia. }
    assert (LP : forall y : option value, length (pre ++ [y]) = S (length pre)) by (intros; rewrite app_length; cbn; lia).
    cbn [length seq filter repeat]. rewrite P0. destruct m as [v|]; cbn [isSome ranks gather map].
    + cbn in LN. destruct N as [|N]; [lia|]. cbn [seq combine fold_left]. rewrite upd_here.
      specialize (IH (pre ++ [d_get a k]) (S k) N ltac:(lia) (R _)). rewrite LP in IH. rewrite <- !app_assoc in IH. exact IH.
    + specialize (IH (pre ++ [None]) k N LN (R _)). rewrite LP in IH. rewrite <- !app_assoc in IH. exact IH.
Qed.
Lemma spread_ranks : forall (g : nat -> option value) ms k N, length (filter isSome ms) = N ->
  map (fun o => match o with Some i => g i | None => None end) (ranks ms k) = spread ms (map g (seq k N)).
Proof.
  intros g ms. induction ms as [|[v|] ms IH]; intros k N L; auto.
  - cbn in L. destruct N as [|N]; [lia|]. cbn. f_equal. apply IH. lia.
  - cbn in L. cbn. f_equal. now apply IH.
Qed.
Lemma inverse_select_ok : forall ds sh filter up e, good_slice ds -> slice_wf filter ->
  fits 1 sh (s_size ds) -> fits 1 (up ++ [e]) (s_size filter) ->
  let counts := map (fun g => length (List.filter present_item g)) (chunks e (items filter)) in
  (~ is_mask (items filter) -> inverse_select visit ds sh filter (up ++ [e]) = Fails EMask) /\
  (is_mask (items filter) -> sh <> up ++ [counts] -> inverse_select visit ds sh filter (up ++ [e]) = Fails EShape) /\
  (is_mask (items filter) -> sh = up ++ [counts] ->
   exists s, inverse_select visit ds sh filter (up ++ [e]) = Done s /\ good_slice s /\ s_size s = s_size filter /\
     items s = spread (items filter) (items ds)).
Proof.
  intros ds sh filter up e G W F FF counts. assert (G' := G). destruct G' as (Wd & AW & AO). unfold inverse_select.
  destruct (mask_array_ok filter W) as [M1 M2].
  split. { intros NM. now rewrite M1. }
  apply fits_app in FF. destruct FF as (p & Fu & Fe). cbn in Fe. destruct Fe as [Le SF].
  assert (X : is_mask (items filter) -> exists m, mask_array filter = Done m /\ arr_ok (s_size filter) m /\
     elements m = items filter /\ count_groups e m = counts).
  { intros IM. destruct (M2 IM) as (m & E & O & I). exists m. split; auto. split; auto. split; auto.
    unfold count_groups, counts. rewrite I. apply map_ext. intros g. reflexivity. }
  assert (LC : length counts = p) by (unfold counts; rewrite map_length, chunks_length; exact Le).
  assert (FT : shape_from 1 (up ++ [counts]) = true).
  { apply (shape_from_fits _ _ (list_sum counts)). apply fits_app. exists p. split; auto. cbn. auto. }
  assert (RV : rev (up ++ [e]) = e :: rev up) by (rewrite rev_app_distr; reflexivity).
  rewrite RV, rev_involutive. split.
  - intros IM NS. destruct (X IM) as (m & E & O & I & C). rewrite E. cbn [bind_out]. rewrite C.
    unfold from_edges. rewrite FT. cbn [bind_out]. destruct (shape_eqb (up ++ [counts]) sh) eqn:SE; auto.
    apply shape_eqb_eq in SE. congruence.
  - intros IM ES. destruct (X IM) as (m & E & O & I & C). rewrite E. cbn [bind_out]. rewrite C.
    unfold from_edges. rewrite FT. cbn [bind_out].
    rewrite (proj2 (shape_eqb_eq (up ++ [counts]) sh)) by auto. cbn [negb].
    assert (SD : s_size ds = length (List.filter isSome (items filter))).
    { rewrite ES in F. apply fits_app in F. destruct F as (p' & _ & F). cbn in F. destruct F as [_ ->].
      rewrite <- (chunks_sum e) by (rewrite items_length; auto). unfold counts. reflexivity. }
    set (idx := ranks (items filter) 0).
    destruct (gather_builder visit visits ds idx (s_allocs ds) (fun a => from_indices (present_indices m) a (d_size m)) Wd)
      as (b & s & E1 & E2 & _ & S' & I' & _ & GS).
    + intros i Hi. apply ranks_lt in Hi. cbn in Hi. rewrite SD. exact Hi.
    + intros a Ha. unfold from_indices. f_equal. unfold present_indices.
      assert (LI : d_size m = length (items filter)) by (rewrite items_length; apply O). rewrite LI.
      pose proof (from_indices_ranks a (d_present m) (items filter) [] 0 (d_size a)) as Q. cbn [length app] in Q. apply Q.
      * rewrite (ao_size _ _ (wf_array ds a Wd Ha)), SD. lia.
      * intros j Hj. rewrite <- I. rewrite items_length in Hj. cbn. now apply (nth_elements_present (s_size filter)).
    + assert (LX : d_size m = length idx).
      { unfold idx. rewrite ranks_length, items_length. apply O. }
      rewrite LX in *. rewrite E1. cbn [obind]. rewrite E2. exists s. split; auto.
      split; [apply GS; auto; now apply knows_own|]. split; [rewrite S', <- LX; apply O|]. rewrite I'.
      unfold gathered, idx. rewrite (spread_ranks (item_at ds) _ 0 (s_size ds)); auto.
Qed.

(** ** Selecting and putting back *)
Lemma spread_kept : forall ms l, length l = length ms -> spread ms (kept ms l) = map2 masked l ms.
Proof.
  induction ms as [|[v|] ms IH]; intros [|x l] L; auto; try discriminate; cbn in *; f_equal; apply IH; lia.
Qed.
Lemma kept_spread : forall ms l, length l = length (filter isSome ms) -> kept ms (spread ms l) = l.
Proof.
  induction ms as [|[v|] ms IH]; intros l L.
  - destruct l; [reflexivity|discriminate].
  - destruct l as [|x l]; [discriminate|]. cbn. f_equal. apply IH. cbn in L. lia.
  - cbn. now apply IH.
Qed.
Lemma put_back : forall ds sh filter, good_slice ds -> slice_wf filter -> sh <> [] ->
  fits 1 sh (s_size ds) -> fits 1 sh (s_size filter) -> is_mask (items filter) ->
  exists s sh' t, select visit ds sh filter sh = Done (s, sh') /\ inverse_select visit s sh' filter sh = Done t /\
    good_slice t /\ items t = map2 masked (items ds) (items filter).
Proof.
  intros ds sh filter G W NE F1 F2 IM. destruct (exists_last NE) as (up & e & ->).
  destruct (select_ok ds (up ++ [e]) filter (up ++ [e]) G W F1 F2) as (_ & _ & _ & S').
  destruct (S' up e [] eq_refl eq_refl IM) as (s & sh' & E & GS & FS & _ & _ & _ & K).
  destruct (K eq_refl) as [K1 K2]. exists s, sh'.
  destruct (inverse_select_ok s sh' filter up e GS W FS F2) as (_ & _ & I).
  destruct (I IM K1) as (t & Et & Gt & St & It). exists t. split; auto. split; auto. split; auto.
  rewrite It, K2. apply spread_kept. rewrite !items_length. eapply fits_unique; eauto.
Qed.
Lemma take_out : forall ds sh filter up e, good_slice ds -> slice_wf filter ->
  fits 1 sh (s_size ds) -> fits 1 (up ++ [e]) (s_size filter) -> is_mask (items filter) ->
  sh = up ++ [map (fun g => length (List.filter present_item g)) (chunks e (items filter))] ->
  exists s t, inverse_select visit ds sh filter (up ++ [e]) = Done s /\
    select visit s (up ++ [e]) filter (up ++ [e]) = Done (t, sh) /\ good_slice t /\ items t = items ds.
Proof.
  intros ds sh filter up e G W F1 F2 IM ES.
  destruct (inverse_select_ok ds sh filter up e G W F1 F2) as (_ & _ & I).
  destruct (I IM ES) as (s & Es & Gs & Ss & Is). exists s.
  destruct (select_ok s (up ++ [e]) filter (up ++ [e]) Gs W) as (_ & _ & _ & S'); auto. { now rewrite Ss. }
  destruct (S' up e [] eq_refl eq_refl IM) as (t & sh' & E & GS & FS & _ & _ & _ & K).
  destruct (K eq_refl) as [K1 K2]. exists t. split; auto. split; [congruence|]. split; auto.
  rewrite K2, Is. apply kept_spread. rewrite items_length.
  rewrite ES in F1. apply fits_app in F1. destruct F1 as (p' & _ & F). cbn in F. destruct F as [_ ->].
  apply fits_app in F2. destruct F2 as (p & _ & F). cbn in F. destruct F as [_ F].
  rewrite <- (chunks_sum e) by (rewrite items_length; auto). reflexivity.
Qed.

(** ** reverse *)
Fixpoint mirror (e : edge) (p : nat) : nat :=
  match e with
  | [] => p
  | n :: r => if p <? n then n - 1 - p else n + mirror r (p - n)
  end.
Lemma mirror_lt : forall e p, p < list_sum e -> mirror e p < list_sum e.
Proof.
  induction e as [|n e IH]; intros p H; [cbn in H; lia|]. change (list_sum (n :: e)) with (n + list_sum e) in *. cbn [mirror].
  destruct (Nat.ltb_spec p n); [lia|]. specialize (IH (p - n) ltac:(lia)). lia.
Qed.
Lemma mirror_mirror : forall e p, p < list_sum e -> mirror e (mirror e p) = p.
Proof.
  induction e as [|n e IH]; intros p H; [reflexivity|]. change (list_sum (n :: e)) with (n + list_sum e) in *. cbn [mirror].
  destruct (Nat.ltb_spec p n).
  - destruct (Nat.ltb_spec (n - 1 - p) n); lia.
  - destruct (Nat.ltb_spec (n + mirror e (p - n)) n); [lia|].
    replace (n + mirror e (p - n) - n) with (mirror e (p - n)) by lia. rewrite IH; lia.
Qed.
Lemma seq_shift_by : forall k n, map (fun p => k + p) (seq 0 n) = seq k n.
Proof.
  intros k n. apply nth_ext with (d := 0) (d' := 0); [now rewrite map_length, !seq_length|].
  intros i Hi. rewrite map_length, seq_length in Hi. now rewrite nth_map_seq, seq_nth.
Qed.
Lemma mirror_rev : forall {A} (g : nat -> A) e k,
  map (fun p => g (k + mirror e p)) (seq 0 (list_sum e)) = concat (map (@rev A) (chunks e (map g (seq k (list_sum e))))).
Proof.
  intros A g e. induction e as [|n e IH]; intros k; auto. change (list_sum (n :: e)) with (n + list_sum e).
  cbn [chunks map concat]. rewrite !seq_app, !map_app. rewrite firstn_app, skipn_app.
  assert (L : length (map g (seq k n)) = n) by now rewrite map_length, seq_length.
  rewrite L, Nat.sub_diag. cbn [firstn skipn]. rewrite app_nil_r, firstn_all2, skipn_all2 by lia. cbn [app]. f_equal.
  - rewrite <- map_rev. apply nth_ext with (d := g 0) (d' := g 0).
    + now rewrite !map_length, rev_length, !seq_length.
    + intros i Hi. rewrite map_length, seq_length in Hi. rewrite nth_map_seq by auto. rewrite map_nth.
      rewrite rev_nth by now rewrite seq_length. rewrite seq_length, seq_nth by lia. cbn [mirror].
      destruct (Nat.ltb_spec i n); [|lia]. f_equal. lia.
  - rewrite <- IH. cbn [Nat.add]. rewrite <- (seq_shift_by n (list_sum e)). rewrite map_map. apply map_ext_in. intros p Hp. cbn [mirror].
    destruct (Nat.ltb_spec (n + p) n); [lia|]. f_equal. replace (n + p - n) with p by lia. lia.
Qed.
Lemma split_from_head : forall e o, exists r, split_from o e = o :: r.
Proof. intros [|n e] o; cbn; eauto. Qed.
Lemma advance_ok : forall e o x, o <= x -> x < o + list_sum e ->
  exists o' n r, advance (split_from o e) x = Some (split_from o' (n :: r)) /\ o <= o' /\ o' <= x /\ x < o' + n /\
    o' + list_sum (n :: r) = o + list_sum e /\
    (forall y, o' <= y -> o + mirror e (y - o) = o' + mirror (n :: r) (y - o')).
Proof.
  induction e as [|n e IH]; intros o x H1 H2; [cbn in H2; lia|].
  change (list_sum (n :: e)) with (n + list_sum e) in H2. cbn [split_from].
  destruct (split_from_head e (o + n)) as (q & Eq). cbn [advance]. rewrite Eq. destruct (Nat.leb_spec (o + n) x) as [LE|GT].
  - rewrite <- Eq. destruct (IH (o + n) x LE ltac:(lia)) as (o' & n' & r & A & B1 & B2 & B3 & B4 & B5).
    exists o', n', r. split; [exact A|]. split; [lia|]. split; auto. split; auto.
    split. { change (list_sum (n :: e)) with (n + list_sum e). lia. }
    intros y Hy. rewrite <- B5 by auto. cbn [mirror]. destruct (Nat.ltb_spec (y - o) n); [lia|].
    replace (y - (o + n)) with (y - o - n) by lia. lia.
  - exists o, n, e. cbn [split_from]. rewrite Eq. auto 10.
Qed.
Lemma reverse_loop : forall n a e, arr_ok n a -> list_sum e = n ->
  forall m k o e' R, k + m = n -> o <= k -> o + list_sum e' = n ->
  (forall y, k <= y -> mirror e y = o + mirror e' (y - o)) ->
  length R = n -> (forall p, p < n -> nth p R None = if mirror e p <? k then d_get a (mirror e p) else None) ->
  exists sp R', ofold (reverse_step a) (filter (d_present a) (seq k m)) (split_from o e', R) = Some (sp, R') /\
    length R' = n /\ forall p, p < n -> nth p R' None = d_get a (mirror e p).
Proof.
  intros n a e O SE. induction m as [|m IH]; intros k o e' R KM OK SE' MI LR HR.
  - exists (split_from o e'), R. split; [reflexivity|]. split; auto. intros p Hp. rewrite HR by auto.
    pose proof (mirror_lt e p ltac:(lia)). destruct (Nat.ltb_spec (mirror e p) k); auto; lia.
  - cbn [seq filter]. destruct (ok_get n a k O ltac:(lia)) as [(P & v & Gv & _ & V)|(P & Gv)]; rewrite P.
    + rewrite ofold_cons. unfold reverse_step at 1. cbn [fst snd].
      destruct (advance_ok e' o k OK ltac:(lia)) as (o2 & g & r & A & B1 & B2 & B3 & B4 & B5). rewrite A. cbn [obind].
      destruct (split_from_head r (o2 + g)) as (q & Eq). cbn [split_from]. rewrite Eq.
      assert (MK : o2 + (o2 + g - k - 1) = mirror e k).
      { rewrite MI, B5 by auto. cbn [mirror]. destruct (Nat.ltb_spec (k - o2) g); lia. }
      rewrite MK, V. rewrite <- Eq.
      destruct (IH (S k) o2 (g :: r) (upd (mirror e k) (Some v) R)) as (sp & R' & E & L' & H').
      * lia.
      * lia.
      * lia.
      * intros y Hy. rewrite MI by lia. apply B5. lia.
      * rewrite upd_length. exact LR.
      * intros p Hp. pose proof (mirror_lt e k ltac:(lia)) as ML. destruct (Nat.eq_dec p (mirror e k)) as [->|NE].
        -- rewrite nth_upd, Nat.eqb_refl by lia. rewrite mirror_mirror by lia. destruct (Nat.ltb_spec k (S k)); [congruence|lia].
        -- rewrite nth_upd by lia. destruct (Nat.eqb_spec p (mirror e k)) as [|_]; [congruence|]. rewrite HR by auto.
           assert (mirror e p <> k) by (intros X; apply NE; rewrite <- X; symmetry; apply mirror_mirror; lia).
           destruct (Nat.ltb_spec (mirror e p) k), (Nat.ltb_spec (mirror e p) (S k)); auto; lia.
      * exists sp, R'. split; [exact E|]. auto.
    + apply (IH (S k) o e' R); auto; try lia.
      * intros y Hy. apply MI. lia.
      * intros p Hp. rewrite HR by auto. destruct (Nat.ltb_spec (mirror e p) k), (Nat.ltb_spec (mirror e p) (S k)); auto; try lia.
        assert (mirror e p = k) by lia. congruence.
Qed.
Definition reverse_idx (e : edge) : list (option nat) := map (fun p => Some (mirror e p)) (seq 0 (list_sum e)).
Lemma reverse_array_ok : forall n a e, arr_ok n a -> list_sum e = n ->
  reverse_array e a = Some (of_list (d_kind a) (gather a (reverse_idx e))).
Proof.
  intros n a e O SE. unfold reverse_array. rewrite (ao_size _ _ O).
  destruct (reverse_loop n a e O SE n 0 0 e (repeat None n)) as (sp & R & E & L & H); auto.
  - intros y _. cbn. now rewrite Nat.sub_0_r.
  - apply repeat_length.
  - intros p Hp. rewrite nth_repeat. reflexivity.
  - unfold split_points. rewrite E. cbn [obind snd]. do 2 f_equal. apply nth_ext with (d := None) (d' := None).
    + unfold gather, reverse_idx. now rewrite !map_length, seq_length, SE.
    + intros p Hp. rewrite L in Hp. rewrite H by auto. unfold gather, reverse_idx. rewrite map_map, SE. now rewrite nth_map_seq.
Qed.
Lemma reverse_ok : forall ds up e, slice_wf ds -> child_size e = s_size ds ->
  exists s, reverse visit ds (up ++ [e]) = Done s /\ slice_wf s /\ s_size s = s_size ds /\
    items s = concat (map (@rev (option value)) (chunks e (items ds))) /\
    (s_allocs s = no_allocs \/ s = ds /\ s_values ds = []).
Proof.
  intros ds up e W L. unfold reverse.
  assert (IT : gathered ds (reverse_idx e) = concat (map (@rev (option value)) (chunks e (items ds)))).
  { unfold gathered, reverse_idx, items. rewrite map_map. unfold child_size in L. rewrite <- L.
    exact (mirror_rev (item_at ds) e 0). }
  assert (LX : length (reverse_idx e) = s_size ds) by (unfold reverse_idx; now rewrite map_length, seq_length).
  assert (IX : forall i, In (Some i) (reverse_idx e) -> i < s_size ds).
  { intros i Hi. apply in_map_iff in Hi. destruct Hi as (p & Ep & Hp). apply in_seq in Hp.
    assert (i = mirror e p) by congruence. subst i. rewrite <- L. apply mirror_lt. lia. }
  destruct (is_empty_unknown ds) eqn:EU.
  { unfold is_empty_unknown in EU. apply Nat.eqb_eq, length_zero_iff_nil in EU.
    exists ds. split; auto. split; auto. split; auto. split; auto. rewrite <- IT. rewrite empty_items by auto. rewrite <- LX.
    unfold gathered. clear - EU. induction (reverse_idx e) as [|o q IH]; auto. cbn. rewrite <- IH.
    destruct o; auto. now rewrite empty_item_at. }
  rewrite rev_app_distr. cbn [rev app].
  destruct (gather_builder visit visits ds (reverse_idx e) no_allocs
      (fun a => match reverse_array e a with Some a => a | None => a end) W IX) as (b & s & E1 & E2 & Ws & S' & I & A & _).
  { intros a Ha. now rewrite (reverse_array_ok (s_size ds) a e (wf_array ds a W Ha)). }
  assert (E1' : ofold (fun a b => obind (reverse_array e a) (fun a => insert_array a b)) (s_values ds) (new_builder (s_size ds) no_allocs) = Some b).
  { rewrite <- LX, <- E1. generalize (new_builder (length (reverse_idx e)) no_allocs).
    assert (Q : forall a, In a (s_values ds) -> reverse_array e a <> None).
    { intros a Ha. rewrite (reverse_array_ok (s_size ds) a e (wf_array ds a W Ha)) by auto. discriminate. }
    revert Q. generalize (s_values ds) as vs. clear. induction vs as [|a q IH]; intros Q b0; auto. rewrite !ofold_cons.
    destruct (reverse_array e a) eqn:Ra; [|exfalso; apply (Q a); auto; now left]. cbn [obind].
    destruct (insert_array d b0); cbn [obind]; auto. apply IH. intros a' Ha'. apply Q. now right. }
  rewrite E1'. cbn [obind]. rewrite E2. exists s. split; auto. split; auto. split; [congruence|].
  split; [rewrite I; exact IT|]. left.
  destruct (s_values s) as [|a0 q] eqn:V; [|apply A; congruence].
  exfalso. (* a slice with values has an item, and so has the result *)
  destruct (some_item ds W) as (i & v & Hi & Ei). { intros E; unfold is_empty_unknown in EU; rewrite E in EU; discriminate. }
  assert (X : item_at s (mirror e i) = None) by now apply empty_item_at.
  unfold child_size in L. pose proof (mirror_lt e i ltac:(lia)) as ML.
  rewrite <- nth_items in X by (rewrite S', LX, <- L; auto). rewrite I in X. unfold gathered, reverse_idx in X.
  rewrite map_map in X. rewrite nth_map_seq in X by auto. rewrite mirror_mirror in X by lia. congruence.
Qed.
Lemma chunks_map_rev : forall {A} e (l : list A), length l = list_sum e ->
  concat (map (@rev A) (chunks e (concat (map (@rev A) (chunks e l))))) = l.
Proof.
  intros A e. induction e as [|n e IH]; intros l L; [destruct l; [reflexivity|discriminate]|].
  change (list_sum (n :: e)) with (n + list_sum e) in L. cbn [chunks map concat].
  assert (L1 : length (rev (firstn n l)) = n) by (rewrite rev_length; apply firstn_length_le; lia).
  rewrite firstn_app, skipn_app, L1, Nat.sub_diag. cbn [firstn skipn]. rewrite app_nil_r, firstn_all2, skipn_all2 by lia.
  cbn [app]. rewrite rev_involutive, IH by (rewrite skipn_length; lia). apply firstn_skipn.
Qed.
Lemma reverse_twice : forall ds up e, slice_wf ds -> child_size e = s_size ds ->
  exists s t, reverse visit ds (up ++ [e]) = Done s /\ reverse visit s (up ++ [e]) = Done t /\ slice_wf t /\
    items t = items ds.
Proof.
  intros ds up e W L. destruct (reverse_ok ds up e W L) as (s & E & Ws & Ss & Is & _).
  destruct (reverse_ok s up e Ws) as (t & E2 & Wt & St & It & _); [congruence|].
  exists s, t. split; auto. split; auto. split; auto. rewrite It, Is. apply chunks_map_rev.
  rewrite items_length. symmetry. exact L.
Qed.
(** a slice without items that are objects *)
Lemma reverse_good : forall ds up e, good_slice ds -> child_size e = s_size ds ->
  (forall o, ~ In (Some (val KObjectId o)) (items ds)) ->
  exists s, reverse visit ds (up ++ [e]) = Done s /\ good_slice s.
Proof.
  intros ds up e (W & AW & AO) L NO. destruct (reverse_ok ds up e W L) as (s & E & Ws & Ss & Is & A).
  exists s. split; auto. split; auto. split.
  - intros i o Hi Ei. exfalso. apply (NO o). rewrite <- nth_items in Ei by auto.
    assert (X : In (Some (val KObjectId o)) (items s)).
    { rewrite <- Ei. apply nth_In. now rewrite items_length. }
    rewrite Is in X. apply in_concat in X. destruct X as (g & Hg & Ho). apply in_map_iff in Hg.
    destruct Hg as (g' & <- & Hg). apply in_rev in Ho. eapply chunks_in; eauto.
  - destruct A as [->|[-> _]]; auto. exact no_allocs_ok.
Qed.
End Shapes.
