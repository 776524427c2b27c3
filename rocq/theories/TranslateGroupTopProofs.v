(** Proofs about translating keys to groups: the whole operator. *)
From Coq Require Import NArith ZArith List Bool Arith Lia Sorted.
From Verif Require Import ObjectIdModel SchemaModel ItemModel DictModel DictProofs SliceModel SliceProofs SliceSpec
  SliceOpsModel SliceOpsSpec SliceOpsProofs SliceShapeProofs SubsliceModel SubsliceSpec SubsliceProofs SubsliceOpsProofs GroupModel GroupSpec GroupKeysProofs GroupProofs
  TranslateModel TranslateSpec TranslateProofs TranslateTopProofs TranslateGroupModel TranslateGroupProofs.
Import ListNotations.
Local Open Scope nat_scope.

Lemma edge_of_points : forall l o, edge_of (split_from o l) = l.
Proof.
  induction l as [| n l IH]; intros o; [reflexivity |]. cbn [split_from]. specialize (IH (o + n)).
  destruct l as [| m l]; cbn [split_from edge_of] in *; f_equal; try lia; try reflexivity. exact IH.
Qed.

Lemma combine_repeat {A B C} (f : A -> B -> C) x : forall l : list B,
  map (fun p => f (fst p) (snd p)) (combine (repeat x (length l)) l) = map (f x) l.
Proof. induction l as [| y l IH]; cbn; [reflexivity |]. f_equal. exact IH. Qed.

(** the items of the groups *)
Definition grouped (rows : list (list ditem)) (gss : list (list (list nat))) : list (list (list ditem)) :=
  map2 (fun row gs => map (of_group row) gs) rows gss.
Lemma take_grouped : forall (rows : list (list ditem)) (gss : list (list (list nat))), length rows = length gss ->
  map (fun x => pick (fst x) (snd x))
    (combine (below_it (below_it rows (map (@length _) gss)) (map (@length _) (concat gss))) (map Some (concat (concat gss))))
  = concat (concat (grouped rows gss)).
Proof.
  induction rows as [| row rows IH]; intros [| gs gss] L; try discriminate L; [reflexivity |].
  cbn [map concat grouped map2]. unfold below_it at 2. cbn [map2 concat].
  change (concat (map2 (fun x n => repeat x n) rows (map (@length _) gss))) with (below_it rows (map (@length _) gss)).
  rewrite map_app, below_app, repeat_length.
  assert (F1 : firstn (length gs) (map (@length nat) gs ++ map (@length nat) (concat gss)) = map (@length nat) gs).
  { rewrite <- (map_length (@length nat) gs) at 1. rewrite firstn_app, Nat.sub_diag, firstn_all. cbn. apply app_nil_r. }
  assert (F2 : skipn (length gs) (map (@length nat) gs ++ map (@length nat) (concat gss)) = map (@length nat) (concat gss)).
  { rewrite <- (map_length (@length nat) gs) at 1. rewrite skipn_app, Nat.sub_diag, skipn_all. reflexivity. }
  rewrite F1, F2. clear F1 F2.
  assert (E : below_it (repeat row (length gs)) (map (@length nat) gs) = repeat row (list_sum (map (@length nat) gs))).
  { rewrite <- (map_length (@length nat) gs) at 1. apply below_repeat. }
  rewrite E, list_sum_map_concat. rewrite !concat_app, !map_app.
  rewrite combine_app_ by (rewrite repeat_length, map_length; reflexivity).
  rewrite map_app. f_equal.
  - rewrite <- (map_length Some (concat gs)) at 1. rewrite combine_repeat, map_map.
    unfold of_group. clear. induction gs as [| g gs IH]; [reflexivity |]. cbn [concat map]. rewrite map_app. f_equal. exact IH.
  - apply IH. cbn in L. lia.
Qed.
Lemma grouped_lengths : forall rows gss, length rows = length gss ->
  map (@length _) (grouped rows gss) = map (@length _) gss /\ map (@length _) (concat (grouped rows gss)) = map (@length _) (concat gss).
Proof.
  induction rows as [| row rows IH]; intros [| gs gss] L; try discriminate L; [split; reflexivity |].
  cbn [grouped map2 map concat]. destruct (IH gss) as [A B]; [cbn in L; lia |]. split.
  - f_equal; [apply map_length | exact A].
  - rewrite !map_app. f_equal; [| exact B]. rewrite map_map. apply map_ext. intros g. unfold of_group. apply map_length.
Qed.
Lemma grouped_nth : forall rows gss p, length rows = length gss -> p < length gss ->
  nth p (grouped rows gss) [] = map (of_group (nth p rows [])) (nth p gss []).
Proof.
  induction rows as [| row rows IH]; intros [| gs gss] p L H; try discriminate L; [cbn in H; lia |].
  cbn [grouped map2]. destruct p as [| p]; [reflexivity |]. cbn [nth]. apply IH; cbn in *; lia.
Qed.

Lemma is_prefix_refl s : is_prefix s s = true.
Proof. apply is_prefix_spec. exists []. symmetry. apply app_nil_r. Qed.

Section Top.
Variable same : value -> value -> bool.
Variable is_nan : value -> bool.
Variable cast : list ditem -> option (list ditem).
Variable key_schema_ok : bool.
Variables (outer : shape) (e : edge) (to_shape : shape) (keys_to : list ditem) (keys_from : key_slice value) (values_from : list ditem).
Hypothesis setting_ok : group_setting same is_nan cast outer e to_shape keys_to keys_from values_from.

Let rows := chunks e (k_items keys_from).
Let value_rows := chunks e values_from.
Let result := translate_group same is_nan cast key_schema_ok to_shape keys_to keys_from (outer ++ [e]) values_from.

Lemma setting_facts : partial_equivalence value same /\ (forall a b, is_nan a = true -> same a b = false) /\
  (forall v w, possible_key v -> (same v w = true <-> v = w)) /\ key_ok value (outer ++ [e]) e keys_from.
Proof. destruct setting_ok as (A & B & C & D & _). auto. Qed.

Lemma rows_facts p : p < length e -> length (nth p rows []) = length (nth p value_rows []) /\ nth_error e p = Some (length (nth p rows [])).
Proof.
  intros P. destruct setting_ok as (_ & _ & _ & D & _ & _ & L & _).
  destruct (nth_error e p) as [n |] eqn:En; [| apply nth_error_None in En; lia].
  unfold rows, value_rows. rewrite !(chunk_len e _ p n); auto. exact (ko_len _ _ _ _ D).
Qed.

Lemma group_cases : exists gss : list (list (list nat)),
  length gss = length e /\
  (forall p, p < length e -> row_groups value same (fun _ _ => false) false [nth p rows []] (length (nth p rows [])) (nth p gss [])) /\
  let ge := map (@length _) gss in
  let U := map (map (collapse_row same)) (grouped rows gss) in
  result =
    match translate same is_nan cast key_schema_ok to_shape keys_to (mkKey (outer ++ [ge]) (k_dtype keys_from) (concat U))
            (outer ++ [ge]) (concat (map index_row U)) with
    | TErr er => TGErr er
    | TOk found => TGOk (map (fun x => select_row (fst x) (snd x)) (combine (broadcast (grouped value_rows gss) outer to_shape) found))
    end /\ chunks ge (concat U) = U /\ length (concat U) = list_sum ge /\
    (forall p, p < length e -> nth p U [] = keys_of same (nth p rows []) (nth p gss [])).
Proof.
  destruct setting_ok as (A & B & C & D & F & F' & L & CL).
  destruct (group_by_ok value same (fun _ _ => false) (fun _ => True) false outer e [keys_from] A ltac:(discriminate)) as [gss [E [Lg H]]].
  { intros k [<- | []]. split; [exact D | unfold usable; discriminate]. }
  { discriminate. }
  exists gss. split; [exact Lg |].
  assert (Lr : length rows = length gss) by (unfold rows; rewrite chunks_length; congruence).
  assert (Lv : length value_rows = length gss) by (unfold value_rows; rewrite chunks_length; congruence).
  split.
  { intros p P. destruct (rows_facts p P) as [_ En].
    assert (Eg : nth_error gss p = Some (nth p gss [])) by (apply nth_error_nth'; lia).
    exact (H p _ _ En Eg). }
  cbv zeta.
  assert (LU : map (@length _) (map (map (collapse_row same)) (grouped rows gss)) = map (@length _) gss).
  { rewrite map_map. rewrite <- (proj1 (grouped_lengths rows gss Lr)). apply map_ext. intros a. apply map_length. }
  assert (CU : chunks (map (@length _) gss) (concat (map (map (collapse_row same)) (grouped rows gss))) = map (map (collapse_row same)) (grouped rows gss)).
  { rewrite <- LU. apply concat_chunks. }
  split; [| split; [exact CU |]].
  - unfold result, translate_group. rewrite (ko_shape _ _ _ _ D).
    assert (X : shape_eqb (outer ++ [e]) (outer ++ [e]) = true) by (apply SliceShapeProofs.shape_eqb_eq; reflexivity).
    rewrite X. cbn [negb]. rewrite rev_app_distr. cbn [rev app]. rewrite E. unfold split_points. rewrite !edge_of_points.
    assert (T : forall items, length (chunks e items) = length gss ->
      chunks (map (@length _) (concat gss)) (take_items e items outer ((outer ++ [map (@length _) gss]) ++ [map (@length _) (concat gss)]) (map Some (concat (concat gss))))
      = concat (grouped (chunks e items) gss)).
    { intros items Li. unfold take_items.
      assert (S : skipn (length outer) ((outer ++ [map (@length _) gss]) ++ [map (@length _) (concat gss)]) = [map (@length _) gss; map (@length _) (concat gss)]).
      { rewrite <- app_assoc. rewrite skipn_app, skipn_all, Nat.sub_diag. reflexivity. }
      rewrite broadcast_stretched with (k := list_sum (map (@length _) (concat gss))).
      - unfold stretched. rewrite S. cbn [fold_left]. rewrite take_grouped by exact Li.
        rewrite <- (proj2 (grouped_lengths _ gss Li)). apply concat_chunks.
      - rewrite S. cbn. rewrite map_length, !map_length. split; [congruence |]. split; [| reflexivity].
        change (fold_right Nat.add 0) with list_sum. rewrite list_sum_map_concat. reflexivity. }
    rewrite !T by (rewrite chunks_length; congruence).
    change (chunks e (k_items keys_from)) with rows. change (chunks e values_from) with value_rows.
    rewrite concat_map, CU.
    assert (CV : chunks (map (@length _) gss) (concat (grouped value_rows gss)) = grouped value_rows gss).
    { rewrite <- (proj1 (grouped_lengths value_rows gss Lv)). apply concat_chunks. }
    rewrite CV. reflexivity.
  - split.
    + rewrite <- LU. rewrite list_sum_map_concat. reflexivity.
    + intros p P. change (nth p (map (map (collapse_row same)) (grouped rows gss)) []) with (nth p (map (map (collapse_row same)) (grouped rows gss)) (map (collapse_row same) [])).
      rewrite map_nth.
      rewrite grouped_nth by (auto; lia). unfold keys_of. rewrite map_map. reflexivity.
Qed.

Definition all_possible_keys : Prop := forall k, In (Some k) (k_items keys_from) -> possible_key k.

Lemma in_rows k : In (Some k) (k_items keys_from) <-> exists p, p < length e /\ In (Some k) (nth p rows []).
Proof.
  destruct setting_ok as (_ & _ & _ & D & _).
  assert (C : concat rows = k_items keys_from) by (apply TranslateProofs.chunks_concat, (ko_len _ _ _ _ D)).
  rewrite <- C, in_concat. split.
  - intros [row [I Ik]]. apply In_nth with (d := []) in I. destruct I as [p [P E]]. unfold rows in P. rewrite chunks_length in P.
    exists p. split; [exact P |]. rewrite E. exact Ik.
  - intros [p [P I]]. exists (nth p rows []). split; [apply nth_In; unfold rows; rewrite chunks_length; exact P | exact I].
Qed.

Lemma group_facts : exists gss : list (list (list nat)),
  let ge := map (@length _) gss in
  let U := map (map (collapse_row same)) (grouped rows gss) in
  let K := mkKey (outer ++ [ge]) (k_dtype keys_from) (concat U) in
  length gss = length e /\
  (forall p, p < length e -> row_groups value same (fun _ _ => false) false [nth p rows []] (length (nth p rows [])) (nth p gss [])) /\
  result =
    match translate same is_nan cast key_schema_ok to_shape keys_to K (outer ++ [ge]) (concat (map index_row U)) with
    | TErr er => TGErr er
    | TOk found => TGOk (map (fun x => select_row (fst x) (snd x)) (combine (broadcast (grouped value_rows gss) outer to_shape) found))
    end /\ chunks ge (concat U) = U /\ chunks ge (concat (map index_row U)) = map index_row U /\
  (forall p, p < length e -> nth p U [] = keys_of same (nth p rows []) (nth p gss [])) /\
  setting same is_nan cast outer ge to_shape keys_to K (outer ++ [ge]) (concat (map index_row U)) /\
  ((forall k, In (Some k) (concat U) -> possible_key k) <-> all_possible_keys) /\
  (all_possible_keys -> Forall (distinct (same_value value same (nan_in value is_nan (k_dtype keys_from)))) U).
Proof.
  destruct group_cases as [gss [Lg [G [R [CU [LU N]]]]]]. exists gss. cbv zeta in *.
  set (ge := map (@length _) gss) in *. set (U := map (map (collapse_row same)) (grouped rows gss)) in *.
  assert (LgU : length U = length e) by (rewrite <- CU, chunks_length; unfold ge; rewrite map_length; exact Lg).
  assert (IL : map (@length _) (map index_row U) = ge).
  { rewrite <- (chunks_lengths ge (concat U) LU), CU, map_map. apply map_ext. intros row. unfold index_row.
    clear. assert (X : forall o, length (map2 (fun i x => match x with Some _ => Some (int64 i) | None => None end) (seq o (length row)) row) = length row).
    { induction row as [| x row IH]; intros o; [reflexivity |]. cbn [length seq map2]. f_equal. apply IH. }
    apply X. }
  destruct setting_ok as (A & B & C & D & F & F' & L & CL).
  assert (IU : forall x, In x (concat U) -> exists p, p < length e /\ In x (keys_of same (nth p rows []) (nth p gss []))).
  { intros x I. apply in_concat in I. destruct I as [row [I Ix]]. apply In_nth with (d := []) in I. destruct I as [p [P E]].
    exists p. split; [lia |]. rewrite <- N by lia. rewrite E. exact Ix. }
  split; [exact Lg |]. split; [exact G |]. split; [exact R |]. split; [exact CU |].
  split; [rewrite <- IL at 1; apply concat_chunks |]. split; [exact N |]. split; [| split].
  - split; [exact A |]. split; [exact B |]. split; [intros v P; apply C; auto |]. split.
    + split; [reflexivity | exact LU |]. cbn [k_dtype k_items]. intros Dt. apply Forall_forall. intros x I. exfalso.
      destruct (IU x I) as [p [P Ix]]. destruct (keys_of_in same _ _ _ eq_refl (G p P) x Ix) as [k [-> Ik]].
      pose proof (ko_nothing _ _ _ _ D Dt) as NN. rewrite Forall_forall in NN.
      assert (X : In (Some k) (k_items keys_from)) by (apply in_rows; eauto). apply NN in X. discriminate X.
    + assert (Le : length ge = length e) by (unfold ge; rewrite map_length; exact Lg).
      split; [rewrite Le; exact F |]. split; [exact F' |]. split; [| exact CL].
      assert (LI : length (concat (map index_row U)) = list_sum ge) by (rewrite <- IL; symmetry; apply list_sum_map_concat).
      rewrite LI. rewrite <- Le in F. clear - F. revert F. generalize 1. induction outer as [| f o IH]; intros n; cbn; [intros ->; auto |].
      intros [L R]. split; [exact L |]. apply IH. exact R.
  - split.
    + intros H k I. apply in_rows in I. destruct I as [p [P I]].
      apply (proj1 (possible_rows same C (nth p rows []) (nth p rows []) (nth p gss []) eq_refl (G p P))); [| exact I].
      intros k' I'. apply H. apply in_concat. exists (nth p U []). split; [apply nth_In; lia | rewrite N by exact P; exact I'].
    + intros H k I. destruct (IU _ I) as [p [P I']].
      apply (proj2 (possible_rows same C (nth p rows []) (nth p rows []) (nth p gss []) eq_refl (G p P))); [| exact I'].
      intros k' Ik. apply H, in_rows. eauto.
  - intros H. apply Forall_forall. intros row I. apply In_nth with (d := []) in I. destruct I as [p [P E]]. rewrite LgU in P.
    rewrite <- E, N by exact P. apply (keys_of_distinct same is_nan B C _ _ _ eq_refl (G p P)).
    intros k Ik. apply H, in_rows. eauto.
Qed.

Lemma group_succeeds : (exists res, result = TGOk res) <->
  is_prefix outer to_shape = true /\ cast keys_to <> None /\ key_schema_ok = true /\ all_possible_keys.
Proof.
  destruct group_facts as [gss H]. cbv zeta in H. destruct H as (Lg & G & R & CU & CI & N & S & P & Dis).
  pose proof (is_prefix_refl (outer ++ [map (@length _) gss])) as PR.
  destruct S as (A & B & C & D & _).
  pose proof (translate_succeeds _ is_nan cast key_schema_ok A B outer (map (@length _) gss) to_shape (outer ++ [map (@length _) gss])
    keys_to (concat (map index_row (map (map (collapse_row same)) (grouped rows gss)))) _ D) as T.
  cbn [k_items k_dtype] in T. rewrite CU in T. rewrite R.
  destruct (translate _ _ _ _ _ _ _ _ _) as [found | er].
  - split; [intros _ | intros _; eexists; reflexivity]. destruct (proj1 T (ex_intro _ found eq_refl)) as (_ & T2 & T3 & _ & T5 & T6).
    split; [exact T2 |]. split; [exact T3 |]. split; [exact T5 |]. apply P. exact T6.
  - split; [intros [res E]; discriminate E |]. intros (H1 & H2 & H3 & H4). exfalso.
    assert (X : exists res, TErr er = TOk res) by (apply T; repeat split; auto; apply P; exact H4). destruct X as [r X]. discriminate X.
Qed.

Lemma group_ok res : result = TGOk res -> exists ks, cast keys_to = Some ks /\ length res = length keys_to /\
  Forall2 (fun x r => r = with_key (fst (fst x)) (snd (fst x)) (snd x))
    (combine (stretched (combine rows value_rows) outer to_shape) ks) res.
Proof.
  intros E. destruct (proj1 group_succeeds (ex_intro _ res E)) as (PO & _ & _ & AP).
  destruct group_facts as [gss H]. cbv zeta in H. destruct H as (Lg & G & R & CU & CI & N & S & P & Dis).
  rewrite R in E. clear R.
  set (ge := map (@length _) gss) in *. set (U := map (map (collapse_row same)) (grouped rows gss)) in *.
  destruct (translate _ _ _ _ _ _ _ _ _) as [found | er] eqn:Et; [| discriminate E].
  inversion E as [E']. clear E.
  destruct S as (A & B & C & D & F & F' & Fv & CL).
  destruct (translate_ok _ _ _ _ A B C _ _ _ _ _ _ _ D F F' Fv CL found Et) as [ks [Ec [Lf T]]].
  cbn [k_items] in T. rewrite CU in T.
  assert (SI : stretched (concat (map index_row U)) (outer ++ [ge]) (outer ++ [ge]) = concat (map index_row U)).
  { unfold stretched. rewrite skipn_all. reflexivity. }
  match type of T with context [combine U ?x] => assert (XI : x = map index_row U) by (etransitivity; [apply (f_equal (chunks ge)); exact SI | exact CI]) end.
  rewrite XI in T. clear XI. exists ks. split; [exact Ec |].
  assert (Lge : length ge = length e) by (unfold ge; rewrite map_length; exact Lg).
  assert (LU : length U = length e) by (rewrite <- CU, chunks_length; exact Lge).
  assert (Lr : length rows = length e) by apply chunks_length.
  assert (Lv : length value_rows = length e) by apply chunks_length.
  assert (LG : length (grouped value_rows gss) = length e).
  { rewrite <- (map_length (@length _) (grouped value_rows gss)), (proj1 (grouped_lengths value_rows gss ltac:(congruence))). exact Lge. }
  assert (Ft : fits (length e) (skipn (length outer) to_shape) (length keys_to)).
  { apply is_prefix_spec in PO. destruct PO as [r PO]. rewrite <- Lge. apply prefix_fits with r; assumption. }
  assert (BT : broadcast (grouped value_rows gss) outer to_shape = stretched (grouped value_rows gss) outer to_shape)
    by (apply broadcast_stretched with (k := length keys_to); rewrite LG; exact Ft).
  rewrite BT. clear BT. rewrite (stretched_seq (grouped value_rows gss) []), LG.
  rewrite (stretched_seq (combine rows value_rows) ([], [])). rewrite (stretched_seq (combine U (map index_row U)) ([], [])) in T.
  assert (L1 : length (combine rows value_rows) = length e) by (rewrite combine_length; lia).
  assert (L2 : length (combine U (map index_row U)) = length e) by (rewrite combine_length, map_length; lia).
  rewrite L1. rewrite L2 in T.
  assert (Ls : length (stretched (seq 0 (length e)) outer to_shape) = length keys_to) by (apply stretched_length; rewrite seq_length; exact Ft).
  split; [rewrite map_length, combine_length, map_length, Ls, Lf; lia |].
  assert (IS : forall p, In p (stretched (seq 0 (length e)) outer to_shape) -> p < length e).
  { intros p I. apply stretched_in, in_seq in I. lia. }
  assert (Lk : length ks = length keys_to) by (apply CL; exact Ec). rewrite <- Ls in Lk.
  revert IS Lk T. generalize (stretched (seq 0 (length e)) outer to_shape). clear Ec Lf Et Ls. clear E'.
  intros ids IS. revert ks found. induction ids as [| p ids IH]; intros [| k ks] found Lk T; try discriminate Lk.
  - inversion T; subst. constructor.
  - cbn [map combine] in T. inversion T as [| ? r ? found' T1 T2]; subst. clear T.
    cbn [map combine]. constructor.
    + cbn [fst snd] in T1 |- *. assert (Pp : p < length e) by (apply IS; left; reflexivity).
      rewrite combine_nth in T1 by (symmetry; apply map_length). rewrite combine_nth by congruence. cbn [fst snd] in T1 |- *.
      change (nth p (map index_row U) []) with (nth p (map index_row U) (index_row [])) in T1. rewrite map_nth in T1.
      rewrite N in T1 by exact Pp. rewrite grouped_nth by (congruence || lia).
      destruct (rows_facts p Pp) as [SL _]. destruct setting_ok as (_ & _ & Ceq & _).
      apply (group_found same Ceq (nth p rows []) (nth p value_rows []) (nth p gss []) SL (G p Pp) k r); [| exact T1].
      intros k' Ik. apply AP, in_rows. eauto.
    + apply IH; [intros q Iq; apply IS; right; exact Iq | cbn in Lk; lia | exact T2].
Qed.
End Top.
