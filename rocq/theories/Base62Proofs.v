From Coq Require Import NArith List Bool Lia.
From Verif Require Import Base62Model.
Import ListNotations.
Open Scope N_scope.

Lemma inverse_ok : (31 ^ 10 * kInverse) mod two128 = 1.
Proof. vm_compute. reflexivity. Qed.

Lemma k62_factor : k62Power10 = 31 ^ 10 * 2 ^ 10.
Proof. vm_compute. reflexivity. Qed.

Lemma k62_pow : k62Power10 = 62 ^ 10.
Proof. vm_compute. reflexivity. Qed.

Lemma divide_exact v :
  v < two128 ->
  divide_by_62_power10 v (v mod k62Power10) = v / k62Power10.
Proof.
  intros Hv. unfold divide_by_62_power10.
  assert (Hk : k62Power10 <> 0) by (vm_compute; discriminate).
  pose proof (N.div_mod v k62Power10 Hk) as Hdm.
  pose proof (N.mod_lt v k62Power10 Hk) as Hlt.
  set (q := v / k62Power10) in *. set (r := v mod k62Power10) in *.
  assert (E : (v + two128 - r) mod two128 = k62Power10 * q).
  { replace (v + two128 - r) with (k62Power10 * q + 1 * two128) by lia.
    rewrite N.mod_add by (vm_compute; discriminate).
    apply N.mod_small. lia. }
  rewrite E. rewrite N.shiftr_div_pow2.
  rewrite k62_factor at 1.
  replace (31 ^ 10 * 2 ^ 10 * q) with ((31 ^ 10 * q) * 2 ^ 10) by ring.
  rewrite N.div_mul by (vm_compute; discriminate).
  replace (31 ^ 10 * q * kInverse) with (q * (31 ^ 10 * kInverse)) by ring.
  rewrite <- N.mul_mod_idemp_r by (vm_compute; discriminate).
  rewrite inverse_ok. rewrite N.mul_1_r.
  apply N.mod_small.
  assert (q <= v). { unfold q. apply N.div_le_upper_bound; auto.
    assert (1 <= k62Power10) by (vm_compute; discriminate). nia. }
  lia.
Qed.

Lemma base62_index_char i : i < 62 -> base62_index (base62_char i) = i.
Proof.
  intros H. unfold base62_char, base62_index.
  destruct (N.ltb_spec i 10).
  - replace (97 <=? 48 + i) with false by (symmetry; apply N.leb_gt; lia).
    replace (65 <=? 48 + i) with false by (symmetry; apply N.leb_gt; lia).
    replace (48 <=? 48 + i) with true by (symmetry; apply N.leb_le; lia).
    replace (48 + i <=? 57) with true by (symmetry; apply N.leb_le; lia).
    cbn [andb]. lia.
  - destruct (N.ltb_spec i 36).
    + replace (97 <=? 65 + (i - 10)) with false by (symmetry; apply N.leb_gt; lia).
      replace (65 <=? 65 + (i - 10)) with true by (symmetry; apply N.leb_le; lia).
      replace (65 + (i - 10) <=? 90) with true by (symmetry; apply N.leb_le; lia).
      cbn [andb]. lia.
    + replace (97 <=? 97 + (i - 36)) with true by (symmetry; apply N.leb_le; lia).
      replace (97 + (i - 36) <=? 122) with true by (symmetry; apply N.leb_le; lia).
      cbn [andb]. lia.
Qed.

Lemma append_char_length s : forall v acc,
  length (append_char s v acc) = (s + length acc)%nat.
Proof.
  induction s; intros; simpl; auto.
  rewrite IHs. simpl. lia.
Qed.

Definition alnum (c : N) : Prop :=
  (48 <= c <= 57) \/ (65 <= c <= 90) \/ (97 <= c <= 122).

Lemma base62_char_alnum i : i < 62 -> alnum (base62_char i).
Proof.
  intros. unfold base62_char, alnum.
  destruct (N.ltb_spec i 10); [lia|]. destruct (N.ltb_spec i 36); lia.
Qed.

Lemma append_char_alnum s : forall v acc,
  Forall alnum acc -> Forall alnum (append_char s v acc).
Proof.
  induction s; intros; simpl; auto.
  apply IHs. constructor; auto.
  apply base62_char_alnum. apply N.mod_lt. discriminate.
Qed.

(** Positional value of a list of digits, most significant first. *)
Definition value (l : list N) : N :=
  fold_left (fun a c => a * 62 + base62_index c) l 0.

Lemma value_from l : forall a,
  fold_left (fun a c => a * 62 + base62_index c) l a
  = a * 62 ^ N.of_nat (length l) + value l.
Proof.
  induction l as [|c l IH]; intros a.
  - cbn. lia.
  - unfold value. cbn [fold_left length]. rewrite (IH (a * 62 + _)), (IH (0 * 62 + _)).
    rewrite Nat2N.inj_succ, N.pow_succ_r'. lia.
Qed.

Lemma value_cons c l :
  value (c :: l) = base62_index c * 62 ^ N.of_nat (length l) + value l.
Proof. unfold value at 1. cbn [fold_left]. rewrite value_from. f_equal. Qed.

Lemma append_char_value s : forall v acc,
  v < 62 ^ N.of_nat s ->
  value (append_char s v acc) = v * 62 ^ N.of_nat (length acc) + value acc.
Proof.
  induction s; intros v acc H.
  - cbn in H. cbn [append_char]. replace v with 0 by lia. lia.
  - cbn [append_char]. rewrite Nat2N.inj_succ, N.pow_succ_r' in H.
    rewrite IHs.
    + rewrite value_cons. cbn [length].
      rewrite base62_index_char by (apply N.mod_lt; discriminate).
      rewrite Nat2N.inj_succ, N.pow_succ_r'.
      pose proof (N.div_mod v 62 ltac:(discriminate)) as E.
      set (q := v / 62) in *. set (r := v mod 62) in *.
      rewrite E. ring.
    + apply N.div_lt_upper_bound; lia.
Qed.

Lemma decode_mod l : forall a,
  fold_left (fun res c => (res * 62 + base62_index c) mod two128) l (a mod two128)
  = (fold_left (fun a c => a * 62 + base62_index c) l a) mod two128.
Proof.
  induction l as [|c l IH]; intros a; [reflexivity|].
  cbn [fold_left]. rewrite <- IH. f_equal.
  rewrite <- (N.add_mod_idemp_l (_ * _)) by (vm_compute; discriminate).
  rewrite N.mul_mod_idemp_l by (vm_compute; discriminate).
  rewrite N.add_mod_idemp_l by (vm_compute; discriminate). reflexivity.
Qed.

Lemma decode_value l : decode_base62 l = value l mod two128.
Proof. unfold decode_base62, value. rewrite <- decode_mod. reflexivity. Qed.

Lemma low64_small v : (v mod k62Power10) mod two64 = v mod k62Power10.
Proof.
  apply N.mod_small. apply N.lt_trans with k62Power10.
  - apply N.mod_lt. vm_compute. discriminate.
  - vm_compute. reflexivity.
Qed.

Lemma base62_repr_value v : v < two128 -> value (base62_repr v) = v.
Proof.
  intros Hv. unfold base62_repr. cbv zeta.
  rewrite low64_small, divide_exact by exact Hv.
  set (v1 := v / k62Power10).
  assert (Hk : k62Power10 <> 0) by (vm_compute; discriminate).
  assert (Hv1 : v1 < two128).
  { apply N.div_lt_upper_bound; auto. assert (1 <= k62Power10) by (vm_compute; discriminate). nia. }
  rewrite low64_small, divide_exact by exact Hv1.
  set (v2 := v1 / k62Power10).
  assert (Hv2 : v2 < 62 ^ 2).
  { apply N.div_lt_upper_bound; auto. apply N.div_lt_upper_bound; auto.
    apply N.lt_le_trans with two128; [exact Hv|vm_compute; discriminate]. }
  rewrite (N.mod_small v2 two64)
    by (apply N.lt_trans with (62^2); [exact Hv2|vm_compute; reflexivity]).
  rewrite append_char_value by exact Hv2.
  rewrite append_char_value
    by (change (62 ^ N.of_nat 10) with (62^10); rewrite <- k62_pow; apply N.mod_lt; auto).
  rewrite append_char_value
    by (change (62 ^ N.of_nat 10) with (62^10); rewrite <- k62_pow; apply N.mod_lt; auto).
  rewrite !append_char_length. cbn [length].
  change (62 ^ N.of_nat (10 + (10 + 0))) with (62 ^ 10 * 62 ^ 10).
  change (62 ^ N.of_nat (10 + 0)) with (62 ^ 10).
  change (62 ^ N.of_nat 0) with 1.
  rewrite <- !k62_pow. change (value []) with 0.
  pose proof (N.div_mod v k62Power10 Hk) as E1.
  pose proof (N.div_mod v1 k62Power10 Hk) as E2.
  fold v1 in E1. fold v2 in E2.
  set (m1 := v mod k62Power10) in *. set (m2 := v1 mod k62Power10) in *.
  rewrite E1, E2. ring.
Qed.

Lemma base62_repr_length v : length (base62_repr v) = kBase62Length.
Proof. unfold base62_repr. cbv zeta. rewrite !append_char_length. reflexivity. Qed.

Lemma base62_repr_alnum v : Forall alnum (base62_repr v).
Proof. unfold base62_repr. cbv zeta. repeat apply append_char_alnum. constructor. Qed.

Lemma base62_roundtrip v : v < two128 -> decode_base62 (base62_repr v) = v.
Proof.
  intros. rewrite decode_value, base62_repr_value by auto. apply N.mod_small. auto.
Qed.

(** The other direction: every alphanumeric text of length 22 whose positional
    value fits in 128 bits is the encoding of its own decoding. *)
Lemma char_index c : alnum c -> base62_char (base62_index c) = c.
Proof.
  unfold alnum, base62_char, base62_index. intros H.
  destruct (N.leb_spec 97 c), (N.leb_spec c 122), (N.leb_spec 65 c), (N.leb_spec c 90),
    (N.leb_spec 48 c), (N.leb_spec c 57); cbn [andb]; try lia.
  all: repeat match goal with |- context[?a <? ?b] => destruct (N.ltb_spec a b) end; lia.
Qed.

Lemma index_lt c : base62_index c < 62.
Proof.
  unfold base62_index.
  destruct (N.leb_spec 97 c), (N.leb_spec c 122), (N.leb_spec 65 c), (N.leb_spec c 90),
    (N.leb_spec 48 c), (N.leb_spec c 57); cbn [andb]; lia.
Qed.

Lemma value_lt l : value l < 62 ^ N.of_nat (length l).
Proof.
  induction l as [|c l IH]; [cbn; lia|].
  rewrite value_cons. cbn [length]. rewrite Nat2N.inj_succ, N.pow_succ_r'.
  pose proof (index_lt c). nia.
Qed.

Lemma value_inj l : forall l',
  Forall alnum l -> Forall alnum l' -> length l = length l' ->
  value l = value l' -> l = l'.
Proof.
  induction l as [|c l IH]; intros [|c' l'] H H' Hlen E; try discriminate; auto.
  inversion H; inversion H'; subst. rewrite !value_cons in E.
  cbn [length] in Hlen. injection Hlen as Hlen. rewrite Hlen in E.
  pose proof (value_lt l) as B1. pose proof (value_lt l') as B2. rewrite Hlen in B1.
  set (p := 62 ^ N.of_nat (length l')) in *.
  assert (Ei : base62_index c = base62_index c') by nia.
  rewrite Ei in E. assert (value l = value l') by lia.
  f_equal; [|apply IH; auto].
  rewrite <- (char_index c), <- (char_index c') by auto. congruence.
Qed.

Lemma base62_surjective t :
  length t = kBase62Length -> Forall alnum t -> value t < two128 ->
  base62_repr (decode_base62 t) = t.
Proof.
  intros Hl Ha Hv. rewrite decode_value, N.mod_small by auto.
  apply value_inj.
  - apply base62_repr_alnum.
  - exact Ha.
  - rewrite base62_repr_length. auto.
  - apply base62_repr_value. auto.
Qed.
