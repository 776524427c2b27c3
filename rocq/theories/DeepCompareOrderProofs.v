From Coq Require Import String Ascii List Bool Arith NArith ZArith Lia Permutation Sorted.
From Verif Require Import DeepCompareModel DeepCompareSpec.
Import ListNotations.
Local Open Scope string_scope.
Local Open Scope nat_scope.
Local Open Scope list_scope.

(** * Comparisons *)
Record good_cmp {A} (c : A -> A -> comparison) : Prop := {
  gc_eq : forall a b, c a b = Eq <-> a = b;
  gc_opp : forall a b, c b a = CompOpp (c a b);
  gc_trans : forall a b d, c a b = Lt -> c b d = Lt -> c a d = Lt }.

Lemma nat_good : good_cmp Nat.compare.
Proof.
  constructor; intros.
  - apply Nat.compare_eq_iff.
  - apply Nat.compare_antisym.
  - rewrite Nat.compare_lt_iff in *. lia.
Qed.
Lemma n_good : good_cmp N.compare.
Proof.
  constructor; intros.
  - apply N.compare_eq_iff.
  - apply N.compare_antisym.
  - rewrite N.compare_lt_iff in *. lia.
Qed.
Lemma z_good : good_cmp Z.compare.
Proof.
  constructor; intros.
  - apply Z.compare_eq_iff.
  - symmetry. apply Zcompare_antisym.
  - rewrite Z.compare_lt_iff in *. lia.
Qed.
Lemma str_lt_trans a : forall b c, String.compare a b = Lt -> String.compare b c = Lt -> String.compare a c = Lt.
Proof.
  induction a as [|x a IH]; intros [|y b] [|z c]; simpl; try congruence; auto.
  intros H1 H2. unfold Ascii.compare in *.
  destruct (N.compare_spec (N_of_ascii x) (N_of_ascii y)); try discriminate;
    destruct (N.compare_spec (N_of_ascii y) (N_of_ascii z)); try discriminate.
  - rewrite (proj2 (N.compare_eq_iff _ _)) by congruence. eauto.
  - rewrite (proj2 (N.compare_lt_iff _ _)) by lia. reflexivity.
  - rewrite (proj2 (N.compare_lt_iff _ _)) by lia. reflexivity.
  - rewrite (proj2 (N.compare_lt_iff _ _)) by lia. reflexivity.
Qed.
Lemma str_good : good_cmp String.compare.
Proof.
  constructor; intros.
  - split; [apply String.compare_eq_iff|]. intros ->. induction b as [|x b IH]; auto. cbn. unfold Ascii.compare.
    rewrite (proj2 (N.compare_eq_iff _ _) eq_refl). auto.
  - apply String.compare_antisym.
  - eauto using str_lt_trans.
Qed.
Definition lex {A B} (c : A -> A -> comparison) (d : B -> B -> comparison) (x y : A * B) : comparison :=
  match c (fst x) (fst y) with Eq => d (snd x) (snd y) | r => r end.
Lemma lex_good {A B} (c : A -> A -> comparison) (d : B -> B -> comparison) :
  good_cmp c -> good_cmp d -> good_cmp (lex c d).
Proof.
  intros C D. constructor; unfold lex.
  - intros [a b] [a' b']. cbn. destruct (c a a') eqn:E.
    + apply (gc_eq _ C) in E. subst. rewrite (gc_eq _ D). split; congruence.
    + split; [discriminate|]. intros X. injection X as -> ->. rewrite (proj2 (gc_eq _ C _ _) eq_refl) in E. discriminate.
    + split; [discriminate|]. intros X. injection X as -> ->. rewrite (proj2 (gc_eq _ C _ _) eq_refl) in E. discriminate.
  - intros [a b] [a' b']. cbn. rewrite (gc_opp _ C a a'). destruct (c a a'); cbn; auto. apply (gc_opp _ D).
  - intros [a b] [a' b'] [a'' b'']. cbn.
    destruct (c a a') eqn:E; destruct (c a' a'') eqn:E'; try discriminate.
    + apply (gc_eq _ C) in E. apply (gc_eq _ C) in E'. subst. rewrite (proj2 (gc_eq _ C _ _) eq_refl). apply (gc_trans _ D).
    + apply (gc_eq _ C) in E. subst. rewrite E'. auto.
    + apply (gc_eq _ C) in E'. subst. rewrite E. auto.
    + rewrite (gc_trans _ C _ _ _ E E'). auto.
Qed.

(** * Keys as codes *)
Definition z_code (x : item) : Z :=
  match x with
  | Int _ v => v | Float _ (Some v) => v
  | Obj k n => Z.of_N (okind_rank k + 5 * n)
  | Other _ v => Z.of_N v
  | DType d => Z.of_N (dtype_code d)
  | _ => 0%Z
  end.
Definition s_code (x : item) : string := match x with Text s => s | _ => "" end.
Definition i_code (k : key) : nat := match k with KListItem i => i | _ => 0 end.
Definition code (k : key) : nat * (nat * (N * (Z * string))) :=
  (key_rank k, (i_code k, (type_id (key_value k), (z_code (key_value k), s_code (key_value k))))).
Definition code_cmp := lex Nat.compare (lex Nat.compare (lex N.compare (lex Z.compare String.compare))).
Lemma code_good : good_cmp code_cmp.
Proof. repeat apply lex_good; auto using nat_good, n_good, z_good, str_good. Qed.

Definition good_key (k : key) : Prop :=
  is_nan (key_value k) = false /\ match k with KSliceItem _ => False | _ => True end.

Lemma item_code_inj a b : is_nan a = false -> is_nan b = false ->
  type_id a = type_id b -> z_code a = z_code b -> s_code a = s_code b -> a = b.
Proof.
  intros Na Nb T Z W.
  destruct a as [|k n|w v|w [v|]|t v|s|d]; destruct b as [|k' n'|w' v'|w' [v'|]|t' v'|s'|d'];
    cbn [is_nan] in Na, Nb; try discriminate Na; try discriminate Nb;
    cbn [z_code s_code] in Z, W;
    try destruct w; try destruct w'; try destruct t; try destruct t'; cbn [type_id] in T; try discriminate T;
    try congruence.
  - apply N2Z.inj in Z. destruct k, k'; unfold okind_rank in Z; try (exfalso; lia); f_equal; lia.
  - f_equal. lia.
  - f_equal. lia.
  - f_equal. lia.
  - f_equal. lia.
  - apply N2Z.inj in Z. destruct d, d'; unfold dtype_code in Z; try (exfalso; lia); try congruence. f_equal. f_equal. lia.
Qed.

Lemma item_eqb_iff a b : type_id a = type_id b -> is_nan a = false -> is_nan b = false ->
  item_eqb a b = true <-> a = b.
Proof.
  intros T Na Nb. split.
  - intros E.
    destruct a as [|k n|w v|w [v|]|t v|s|d]; destruct b as [|k' n'|w' v'|w' [v'|]|t' v'|s'|d'];
      try (cbn in Na, Nb; discriminate);
      try (unfold item_eqb in E; destruct (item_eq_dec _ _); [congruence|discriminate]);
      cbn in E; apply Z.eqb_eq in E; destruct w, w'; cbn in T; try discriminate T; congruence.
  - intros ->. destruct b as [|k' n'|w' v'|w' [v'|]|t' v'|s'|d']; try (cbn in Nb; discriminate);
      unfold item_eqb; try (destruct (item_eq_dec _ _); congruence); apply Z.eqb_refl.
Qed.

Lemma item_ltb_code a b : type_id a = type_id b -> is_nan a = false -> is_nan b = false -> a <> b ->
  item_ltb a b = match lex Z.compare String.compare (z_code a, s_code a) (z_code b, s_code b) with Lt => true | _ => false end.
Proof.
  intros T Na Nb D.
  destruct a as [|k n|w v|w [v|]|t v|s|d]; destruct b as [|k' n'|w' v'|w' [v'|]|t' v'|s'|d'];
    try (cbn in Na, Nb; discriminate);
    try (destruct w; cbn in T; discriminate); try (destruct w'; cbn in T; discriminate);
    try (destruct t; cbn in T; discriminate); try (destruct t'; cbn in T; discriminate);
    try (cbn in T; discriminate);
    try (destruct w, w'; discriminate T); try (destruct w, t'; discriminate T); try (destruct t, w'; discriminate T).
  - congruence.
  - unfold lex. cbn [item_ltb z_code s_code fst snd]. rewrite N2Z.inj_compare.
    unfold N.ltb. destruct (N.compare _ _); reflexivity.
  - unfold lex. cbn. unfold Z.ltb. destruct (Z.compare v v'); reflexivity.
  - unfold lex. cbn. unfold Z.ltb. destruct (Z.compare v v'); reflexivity.
  - unfold lex. cbn [item_ltb z_code s_code fst snd]. rewrite N2Z.inj_compare.
    unfold N.ltb. destruct (N.compare _ _); reflexivity.
  - unfold lex. cbn. reflexivity.
  - unfold lex. cbn [item_ltb z_code s_code fst snd]. rewrite N2Z.inj_compare.
    unfold N.ltb. destruct (N.compare _ _); reflexivity.
Qed.

Lemma compare_code a b : good_key a -> good_key b -> compare_order a b = code_cmp (code a) (code b).
Proof.
  intros [Na Ka] [Nb Kb]. unfold compare_order, code_cmp, code. unfold lex at 1. cbn [fst snd].
  destruct (Nat.eqb_spec (key_rank a) (key_rank b)) as [E|E]; cbn [negb].
  2:{ destruct (Nat.compare_spec (key_rank a) (key_rank b)); congruence. }
  rewrite E, (proj2 (Nat.compare_eq_iff _ _) eq_refl).
  assert (V : i_code a = i_code b -> match a, b with KListItem _, KListItem _ => False | _, _ => True end ->
    (if negb (N.eqb (type_id (key_value a)) (type_id (key_value b)))
           then N.compare (type_id (key_value a)) (type_id (key_value b))
           else if item_eqb (key_value a) (key_value b) then Eq
           else if item_ltb (key_value a) (key_value b) then Lt else Gt) =
    lex Nat.compare (lex N.compare (lex Z.compare String.compare))
      (i_code a, (type_id (key_value a), (z_code (key_value a), s_code (key_value a))))
      (i_code b, (type_id (key_value b), (z_code (key_value b), s_code (key_value b))))).
  { intros I _. unfold lex at 1. cbn [fst snd]. rewrite I, (proj2 (Nat.compare_eq_iff _ _) eq_refl).
    unfold lex at 1. cbn [fst snd].
    destruct (N.eqb_spec (type_id (key_value a)) (type_id (key_value b))) as [T|T]; cbn [negb].
    2:{ destruct (N.compare_spec (type_id (key_value a)) (type_id (key_value b))); congruence. }
    rewrite T, (proj2 (N.compare_eq_iff _ _) eq_refl).
    destruct (item_eqb (key_value a) (key_value b)) eqn:Q.
    - apply item_eqb_iff in Q; auto. rewrite Q. symmetry.
      apply (proj2 (gc_eq _ (lex_good _ _ z_good str_good) _ _) eq_refl).
    - assert (D : key_value a <> key_value b).
      { intros D. apply (proj2 (item_eqb_iff _ _ T Na Nb)) in D. congruence. }
      rewrite (item_ltb_code _ _ T Na Nb D).
      destruct (lex Z.compare String.compare (z_code (key_value a), s_code (key_value a)) (z_code (key_value b), s_code (key_value b))) eqn:L; auto.
      exfalso. apply (gc_eq _ (lex_good _ _ z_good str_good)) in L. apply D. apply item_code_inj; congruence. }
  destruct a, b; try discriminate E; try contradiction; try (apply V; cbn; auto; fail).
  unfold lex. cbn. destruct (Nat.compare i i0); reflexivity.
Qed.

(** Keys without the positions in dicts *)
Definition label (k : key) : key :=
  match k with KDictKey _ v => KDictKey 0 v | KDictValue _ v => KDictValue 0 v | k => k end.
Lemma label_field a b : good_key a -> good_key b -> label a = label b <-> field_of a = field_of b.
Proof. intros [_ A] [_ B]. destruct a, b; cbn in *; try contradiction; split; congruence. Qed.
Lemma code_label a b : good_key a -> good_key b -> code a = code b <-> label a = label b.
Proof.
  intros [Na Ka] [Nb Kb]. split.
  - unfold code. intros E.
    assert (E1 : key_rank a = key_rank b) by congruence.
    assert (E2 : i_code a = i_code b) by congruence.
    assert (E3 : type_id (key_value a) = type_id (key_value b)) by congruence.
    assert (E4 : z_code (key_value a) = z_code (key_value b)) by congruence.
    assert (E5 : s_code (key_value a) = s_code (key_value b)) by congruence.
    pose proof (item_code_inj _ _ Na Nb E3 E4 E5) as V.
    destruct a, b; cbn in *; try discriminate; try contradiction; congruence.
  - intros E. destruct a, b; cbn in *; try discriminate; try contradiction; try congruence;
      injection E as ->; reflexivity.
Qed.
Lemma compare_eq_iff a b : good_key a -> good_key b -> compare_order a b = Eq <-> label a = label b.
Proof. intros A B. rewrite compare_code by auto. rewrite (gc_eq _ code_good). apply code_label; auto. Qed.
Lemma compare_opp a b : good_key a -> good_key b -> compare_order b a = CompOpp (compare_order a b).
Proof. intros A B. rewrite !compare_code by auto. apply (gc_opp _ code_good). Qed.
Lemma compare_trans a b c : good_key a -> good_key b -> good_key c ->
  compare_order a b = Lt -> compare_order b c = Lt -> compare_order a c = Lt.
Proof. intros A B C. rewrite !compare_code by auto. apply (gc_trans _ code_good). Qed.
Lemma compare_label a b c : good_key a -> good_key b -> good_key c -> label a = label b ->
  compare_order a c = compare_order b c.
Proof. intros A B C E. rewrite !compare_code by auto. apply code_label in E; auto. rewrite E. reflexivity. Qed.
