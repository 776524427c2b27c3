(** Proofs about translating keys: the whole operator. *)
From Coq Require Import NArith ZArith List Bool Arith Lia Sorted.
From Verif Require Import ObjectIdModel SchemaModel ItemModel DictModel DictProofs SliceModel SliceProofs SliceSpec
  SliceOpsModel SliceOpsSpec SliceOpsProofs SubsliceModel SubsliceSpec SubsliceProofs GroupModel GroupSpec GroupKeysProofs GroupProofs
  TranslateModel TranslateSpec TranslateProofs.
Import ListNotations.
Local Open Scope nat_scope.

Lemma stretched_seq {A} (l : list A) d from to_ : stretched l from to_ = map (fun i => nth i l d) (stretched (seq 0 (length l)) from to_).
Proof.
  rewrite <- stretched_map. f_equal. apply nth_ext with d d; [rewrite map_length, seq_length; reflexivity |].
  intros i H. symmetry. exact (nth_map_seq (fun i => nth i l d) (length l) i d H).
Qed.

Section Top.
Variable same : value -> value -> bool.
Variable is_nan : value -> bool.
Variable cast : list ditem -> option (list ditem).
Variable key_schema_ok : bool.
Hypothesis same_pe : partial_equivalence value same.
Hypothesis same_nan : forall a b, is_nan a = true -> same a b = false.
Hypothesis same_refl : forall v, possible_key v -> same v v = true.
Variables (outer : shape) (e : edge) (to_shape values_shape : shape).
Variables (keys_to values_from : list ditem) (keys_from : key_slice value).
Hypothesis keys_ok : key_ok value (outer ++ [e]) e keys_from.
Hypothesis outer_fits : fits 1 outer (length e).
Hypothesis to_fits : fits 1 to_shape (length keys_to).
Hypothesis values_fit : fits 1 values_shape (length values_from).
Hypothesis cast_length : forall l l', cast l = Some l' -> length l' = length l.

Let rows := chunks e (k_items keys_from).
Let the_same := same_value value same (nan_in value is_nan (k_dtype keys_from)).
Let value_rows := chunks e (stretched values_from values_shape (outer ++ [e])).
Let result := translate same is_nan cast key_schema_ok to_shape keys_to keys_from values_shape values_from.


Lemma unique_rows : exists sp u, unique value same (fun _ _ => false) is_nan false keys_from = UOk outer sp u /\
  ((length (filter isSome (k_items keys_from)) =? length u) = true <-> Forall (distinct the_same) rows).
Proof.
  destruct (unique_ok value same (fun _ _ => false) is_nan false outer e keys_from same_pe same_nan keys_ok) as [us [E F]];
    [unfold usable; discriminate | discriminate |].
  eexists; eexists; split; [exact E |]. cbn [row_unique] in F.
  destruct (rows_distinct same (nan_in value is_nan (k_dtype keys_from)) (proj1 same_pe) rows us F) as [_ H].
  assert (C : concat rows = k_items keys_from) by (apply chunks_concat, (ko_len _ _ _ _ keys_ok)).
  rewrite C in H. rewrite Nat.eqb_eq. split; [intros X; apply H; symmetry; exact X | intros X; symmetry; apply H; exact X].
Qed.

Lemma all_possible : existsb (fun k => isSome k && unsupported_key k) (k_items keys_from) = false <->
  forall k, In (Some k) (k_items keys_from) -> possible_key k.
Proof.
  split.
  - intros H k I. apply possible_supported. destruct (unsupported_key (Some k)) eqn:E; [| reflexivity].
    assert (X : existsb (fun k => isSome k && unsupported_key k) (k_items keys_from) = true).
    { apply existsb_exists. exists (Some k). split; [exact I |]. rewrite E. reflexivity. }
    congruence.
  - intros H. apply not_true_iff_false. intros X. apply existsb_exists in X. destruct X as [[k |] [I B]]; [| discriminate B].
    apply H, possible_supported in I. rewrite I in B. discriminate B.
Qed.

Lemma translate_cases : result =
  if negb (is_prefix values_shape (outer ++ [e])) then TErr EValues
  else if negb (is_prefix outer to_shape) then TErr EKeysTo
  else match cast keys_to with
       | None => TErr ECast
       | Some ks =>
           if negb (length (filter isSome (k_items keys_from)) =? match unique value same (fun _ _ => false) is_nan false keys_from with UOk _ _ u => length u | _ => 0 end)
           then TErr EDuplicates
           else if negb key_schema_ok then TErr EKeySchema
           else if existsb (fun k => isSome k && unsupported_key k) (k_items keys_from) then TErr EKeyType
           else TOk (map (fun x => get_one (set_in_dicts (broadcast (seq 0 (length e)) outer (outer ++ [e])) (k_items keys_from)
                                              (broadcast values_from values_shape (outer ++ [e])) (new_dicts (length e))) (fst x) (snd x))
                         (combine (broadcast (seq 0 (length e)) outer to_shape) ks))
       end.
Proof.
  unfold result, translate. rewrite (ko_shape _ _ _ _ keys_ok), !is_prefix_broadcastable, rev_app_distr. cbn [rev app].
  rewrite rev_involutive. destruct unique_rows as [sp [u [E _]]]. rewrite E. reflexivity.
Qed.

Lemma translate_succeeds : (exists res, result = TOk res) <->
  is_prefix values_shape (outer ++ [e]) = true /\ is_prefix outer to_shape = true /\ cast keys_to <> None /\
  Forall (distinct the_same) rows /\ key_schema_ok = true /\ (forall k, In (Some k) (k_items keys_from) -> possible_key k).
Proof.
  rewrite translate_cases. destruct unique_rows as [sp [u [E D]]]. rewrite E. rewrite <- D, <- all_possible.
  destruct (is_prefix values_shape (outer ++ [e])); cbn [negb]; [| split; [intros [r H]; discriminate H | intuition discriminate]].
  destruct (is_prefix outer to_shape); cbn [negb]; [| split; [intros [r H]; discriminate H | intuition discriminate]].
  destruct (cast keys_to) as [ks |]; [| split; [intros [r H]; discriminate H | intuition congruence]].
  destruct (_ =? _); cbn [negb]; [| split; [intros [r H]; discriminate H | intuition discriminate]].
  destruct key_schema_ok; cbn [negb]; [| split; [intros [r H]; discriminate H | intuition discriminate]].
  destruct (existsb _ _); [split; [intros [r H]; discriminate H | intuition discriminate] |].
  split; [intros _; intuition discriminate | intros _; eexists; reflexivity].
Qed.

Lemma once_rows p : Forall (distinct the_same) rows -> (forall k, In (Some k) (k_items keys_from) -> possible_key k) ->
  p < length e -> once (nth p rows []) /\ forall k, In (Some k) (nth p rows []) -> possible_key k.
Proof.
  intros D K P. assert (I : In (nth p rows []) rows) by (apply nth_In; unfold rows; rewrite chunks_length; exact P).
  assert (K' : forall k, In (Some k) (nth p rows []) -> possible_key k).
  { intros k Ik. apply K. rewrite <- (chunks_concat e (k_items keys_from)) by apply (ko_len _ _ _ _ keys_ok).
    apply in_concat. exists (nth p rows []). split; assumption. }
  split; [| exact K'].
  rewrite Forall_forall in D. specialize (D _ I). intros i j k Ei Ej.
  assert (R : the_same k k) by (left; apply same_refl, K'; exact (nth_error_In _ _ Ei)).
  destruct (Nat.lt_trichotomy i j) as [L | [L | L]]; [| exact L |]; exfalso.
  - exact (D i j k k L Ei Ej R).
  - exact (D j i k k L Ej Ei R).
Qed.

Lemma values_length : is_prefix values_shape (outer ++ [e]) = true ->
  broadcast values_from values_shape (outer ++ [e]) = stretched values_from values_shape (outer ++ [e]) /\
  length (stretched values_from values_shape (outer ++ [e])) = list_sum e.
Proof.
  intros H. apply is_prefix_spec in H. destruct H as [r H].
  assert (F : fits (length values_from) (skipn (length values_shape) (outer ++ [e])) (list_sum e)).
  { apply prefix_fits with r; [exact H | exact values_fit |]. clear - outer_fits. revert outer_fits. generalize 1.
    induction outer as [| f o IH]; intros n; cbn; [intros ->; auto |]. intros [L R]. split; [exact L |]. apply IH. exact R. }
  split; [apply broadcast_stretched with (list_sum e); exact F | apply stretched_length; exact F].
Qed.

Lemma dicts_ok p : is_prefix values_shape (outer ++ [e]) = true -> p < length e ->
  nth_error (set_in_dicts (broadcast (seq 0 (length e)) outer (outer ++ [e])) (k_items keys_from)
               (broadcast values_from values_shape (outer ++ [e])) (new_dicts (length e))) p
  = Some (row_dict (nth p rows []) (nth p value_rows [])).
Proof.
  intros H P. destruct (values_length H) as [-> LV]. unfold set_in_dicts.
  assert (B : broadcast (seq 0 (length e)) outer (outer ++ [e]) = below_it (seq 0 (length e)) e).
  { rewrite broadcast_stretched with (k := list_sum e).
    - unfold stretched. rewrite skipn_app, skipn_all, Nat.sub_diag. reflexivity.
    - rewrite skipn_app, skipn_all, Nat.sub_diag, seq_length. cbn. auto. }
  rewrite B, set_in_dicts_nth. unfold new_dicts.
  rewrite nth_error_repeat by exact P. cbn [option_map]. f_equal. unfold row_dict. f_equal.
  pose proof (rows_of e (combine (k_items keys_from) (stretched values_from values_shape (outer ++ [e]))) 0 p) as R.
  cbn [Nat.add] in R. etransitivity; [apply R; [rewrite combine_length, LV, (ko_len _ _ _ _ keys_ok); lia | exact P] |].
  rewrite chunks_combine, nth_map2_combine. reflexivity.
Qed.

Lemma translate_ok res : result = TOk res -> exists ks, cast keys_to = Some ks /\ length res = length keys_to /\
  Forall2 (fun x r => translated (fst (fst x)) (snd (fst x)) (snd x) r)
    (combine (stretched (combine rows value_rows) outer to_shape) ks) res.
Proof.
  intros E. destruct (proj1 translate_succeeds (ex_intro _ res E)) as [PV [PO [C [D [_ K]]]]].
  rewrite translate_cases in E. rewrite PV, PO in E. cbn [negb] in E.
  destruct (cast keys_to) as [ks |] eqn:Ec; [| congruence]. exists ks. split; [reflexivity |].
  destruct (negb _); [discriminate E |]. destruct (negb key_schema_ok); [discriminate E |]. destruct (existsb _ _); [discriminate E |].
  inversion E as [E']. clear E E' C.
  assert (F : fits (length e) (skipn (length outer) to_shape) (length keys_to)).
  { apply is_prefix_spec in PO. destruct PO as [r PO]. apply prefix_fits with r; assumption. }
  assert (BT : broadcast (seq 0 (length e)) outer to_shape = stretched (seq 0 (length e)) outer to_shape)
    by (apply broadcast_stretched with (k := length keys_to); rewrite seq_length; exact F).
  rewrite BT. clear BT.
  assert (LS : length (stretched (seq 0 (length e)) outer to_shape) = length keys_to) by (apply stretched_length; rewrite seq_length; exact F).
  assert (Lc : length ks = length keys_to) by (apply cast_length; exact Ec).
  split; [rewrite map_length, combine_length, LS, Lc; lia |].
  assert (LR : length (combine rows value_rows) = length e) by (rewrite combine_length; unfold rows, value_rows; rewrite !chunks_length; lia).
  rewrite (stretched_seq (combine rows value_rows) ([], [])), LR.
  assert (G : forall ids (ks : list ditem), (forall p, In p ids -> p < length e) ->
    Forall2 (fun x r => translated (fst (fst x)) (snd (fst x)) (snd x) r)
      (combine (map (fun i => nth i (combine rows value_rows) ([], [])) ids) ks)
      (map (fun x => get_one (set_in_dicts (broadcast (seq 0 (length e)) outer (outer ++ [e])) (k_items keys_from)
         (broadcast values_from values_shape (outer ++ [e])) (new_dicts (length e))) (fst x) (snd x)) (combine ids ks))).
  { induction ids as [| p ids IH]; intros [| k ks'] H; cbn [map combine]; try constructor.
    - cbn [fst snd]. assert (P : p < length e) by (apply H; left; reflexivity).
      rewrite combine_nth by (unfold rows, value_rows; rewrite !chunks_length; reflexivity). cbn [fst snd].
      destruct (once_rows p D K P) as [O K'].
      apply get_translated; [| exact O | exact K' | apply dicts_ok; assumption].
      destruct (nth_error e p) as [n |] eqn:En; [| apply nth_error_None in En; lia].
      unfold rows, value_rows. rewrite !(chunk_len e _ p n); auto; [apply values_length; exact PV | apply (ko_len _ _ _ _ keys_ok)].
    - apply IH. intros q Iq. apply H. right. exact Iq. }
  apply G. intros p Ip. apply stretched_in in Ip. apply in_seq in Ip. lia.
Qed.
End Top.

(** Keys of which none is twice have one value each *)
Lemma translated_once ks vs key r r' : once ks -> translated ks vs key r -> translated ks vs key r' -> r = r'.
Proof.
  intros O T T'. destruct T as [| i k v Ei Ev | k N]; inversion T' as [| j k' v' Ej Ev' | k' N']; subst; try reflexivity.
  - assert (i = j) by (eapply O; eassumption). subst. congruence.
  - destruct N'. exact (nth_error_In _ _ Ei).
  - destruct N. exact (nth_error_In _ _ Ej).
Qed.

Lemma translate_one_value : forall same is_nan cast schema_ok outer e to_shape keys_to keys_from values_shape values_from,
  setting same is_nan cast outer e to_shape keys_to keys_from values_shape values_from ->
  (exists res, translate same is_nan cast schema_ok to_shape keys_to keys_from values_shape values_from = TOk res) ->
  forall ks vs key r r', In ks (chunks e (k_items keys_from)) -> translated ks vs key r -> translated ks vs key r' -> r = r'.
Proof.
  intros * (A & B & C & D & E & F & G & H) Ok ks vs key r r' I T T'.
  apply (translate_succeeds _ _ _ _ A B _ _ _ _ _ _ _ D) in Ok. destruct Ok as [_ [_ [_ [Dis [_ K]]]]].
  apply In_nth with (d := []) in I. destruct I as [p [P Ep]]. rewrite chunks_length in P.
  destruct (once_rows same is_nan C outer e keys_from D p Dis K P) as [O _]. rewrite Ep in O.
  exact (translated_once ks vs key r r' O T T').
Qed.

Lemma own_row k w : once k -> length k = length w -> forall a b r, k = a ++ b ->
  Forall2 (fun x r => translated (fst (fst x)) (snd (fst x)) (snd x) r) (combine (repeat (k, w) (length b)) b) r ->
  r = map2 (fun k v => match k with Some _ => v | None => None end) b (skipn (length a) w).
Proof.
  intros O L a b. revert a. induction b as [| x b IH]; intros a r E F.
  - cbn in F. inversion F. reflexivity.
  - cbn [length repeat combine] in F. inversion F as [| ? y ? r' T F' E1 E2]. subst. cbn [fst snd] in T.
    assert (Lw : length a < length w) by (rewrite <- L, app_length; cbn; lia).
    destruct (nth_error w (length a)) as [v |] eqn:Ev; [| apply nth_error_None in Ev; lia].
    assert (Es : skipn (length a) w = v :: skipn (length (a ++ [x])) w).
    { rewrite app_length, Nat.add_comm. cbn. clear - Ev. revert w Ev. induction (length a) as [| n IHn]; intros [| y w] Ev; cbn in *; try discriminate.
      - congruence.
      - apply IHn. exact Ev. }
    rewrite Es. cbn [map2]. f_equal.
    + destruct x as [k |]; [| inversion T; reflexivity].
      eapply translated_once; [exact O | exact T |]. apply (Found _ _ (length a)); [| exact Ev].
      rewrite nth_error_app2, Nat.sub_diag by lia. reflexivity.
    + apply IH; [rewrite <- app_assoc; reflexivity | exact F'].
Qed.

Lemma map2_app {A B C} (f : A -> B -> C) : forall a c b d, length a = length c -> map2 f (a ++ b) (c ++ d) = map2 f a c ++ map2 f b d.
Proof. induction a as [| x a IH]; intros [| y c] b d H; cbn in *; try discriminate; auto. f_equal. apply IH. lia. Qed.

Lemma own_rows : forall e (K W res : list ditem), length K = list_sum e -> length W = list_sum e ->
  Forall once (chunks e K) ->
  Forall2 (fun x r => translated (fst (fst x)) (snd (fst x)) (snd x) r) (combine (below_it (combine (chunks e K) (chunks e W)) e) K) res ->
  res = map2 (fun k v => match k with Some _ => v | None => None end) K W.
Proof.
  induction e as [| n e IH]; intros K W res LK LW O F.
  - cbn in F. inversion F. destruct K; [reflexivity | discriminate LK].
  - cbn [list_sum fold_right] in LK, LW. change (fold_right Nat.add 0 e) with (list_sum e) in LK, LW.
    cbn [chunks] in O, F. inversion O as [| ? ? O1 O2]. subst.
    cbn [combine] in F. unfold below_it in F. cbn [map2 concat] in F.
    change (concat (map2 (fun x n => repeat x n) (combine (chunks e (skipn n K)) (chunks e (skipn n W))) e))
      with (below_it (combine (chunks e (skipn n K)) (chunks e (skipn n W))) e) in F.
    assert (L1 : length (firstn n K) = n) by (rewrite firstn_length; lia).
    assert (L2 : length (firstn n W) = n) by (rewrite firstn_length; lia).
    rewrite <- (firstn_skipn n K) in F at 3. rewrite combine_app_ in F by (rewrite repeat_length; lia).
    apply Forall2_app_inv_l in F. destruct F as [r1 [r2 [F1 [F2 ->]]]].
    rewrite <- (firstn_skipn n K) at 1. rewrite <- (firstn_skipn n W) at 1.
    rewrite map2_app by lia. f_equal.
    + apply (own_row (firstn n K) (firstn n W) O1 ltac:(lia) [] (firstn n K)); [reflexivity |]. rewrite L1. exact F1.
    + apply IH; [rewrite skipn_length; lia | rewrite skipn_length; lia | exact O2 | exact F2].
Qed.

Lemma translate_own_keys : forall same is_nan cast schema_ok outer e keys_from values_shape values_from res,
  setting same is_nan cast outer e (outer ++ [e]) (k_items keys_from) keys_from values_shape values_from ->
  cast (k_items keys_from) = Some (k_items keys_from) ->
  translate same is_nan cast schema_ok (outer ++ [e]) (k_items keys_from) keys_from values_shape values_from = TOk res ->
  res = map2 (fun k v => match k with Some _ => v | None => None end)
          (k_items keys_from) (stretched values_from values_shape (outer ++ [e])).
Proof.
  intros * (A & B & C & D & E & F & G & H) Ec Er.
  destruct (translate_ok _ _ _ _ A B C _ _ _ _ _ _ _ D E F G H res Er) as [ks [Ek [_ T]]].
  assert (ks = k_items keys_from) by congruence. subst ks.
  assert (Ok : exists res, translate same is_nan cast schema_ok (outer ++ [e]) (k_items keys_from) keys_from values_shape values_from = TOk res)
    by (exists res; exact Er).
  apply (translate_succeeds _ _ _ _ A B _ _ _ _ _ _ _ D) in Ok. destruct Ok as [PV [_ [_ [Dis [_ K]]]]].
  apply own_rows with e.
  - apply (ko_len _ _ _ _ D).
  - apply (values_length outer e values_shape values_from E G PV).
  - apply Forall_forall. intros ks I. apply In_nth with (d := []) in I. destruct I as [p [P Ep]]. rewrite chunks_length in P.
    destruct (once_rows same is_nan C outer e keys_from D p Dis K P) as [O _]. rewrite Ep in O. exact O.
  - unfold stretched at 1 in T. rewrite skipn_app, skipn_all, Nat.sub_diag in T. cbn [skipn app fold_left] in T. exact T.
Qed.
