(** The names of the files of a directory: different files have different
    names, the pattern for committed metadata selects exactly those files while
    update numbers have at most twelve digits, and the greatest name is the
    one with the greatest number. *)
From Coq Require Import String Ascii.
From Coq Require Import NArith List Bool PeanoNat Lia ZifyBool ZifyN.
From Verif Require Import StoreModel.
Import ListNotations.
Local Open Scope nat_scope.

Lemma append_assoc (a b c : string) :
  append (append a b) c = append a (append b c).
Proof. induction a as [|x a IH]; cbn; congruence. Qed.

Lemma append_length (a b : string) :
  String.length (append a b) = String.length a + String.length b.
Proof. induction a as [|x a IH]; cbn; congruence. Qed.

Lemma append_inj (a b c d : string) :
  String.length a = String.length b -> append a c = append b d ->
  a = b /\ c = d.
Proof.
  revert b; induction a as [|x a IH]; intros [|y b] L E; cbn in *; try discriminate.
  - auto.
  - injection E as -> E. destruct (IH b) as [-> ->]; auto.
Qed.

Lemma append_inj_r (a b c : string) : append a c = append b c -> a = b.
Proof.
  intros E.
  assert (L : String.length a = String.length b).
  { apply (f_equal String.length) in E. rewrite !append_length in E. lia. }
  exact (proj1 (append_inj a b c c L E)).
Qed.

Lemma append_inj_l (a b c : string) : append a b = append a c -> b = c.
Proof. intros E. exact (proj2 (append_inj a a b c eq_refl E)). Qed.

(** Exactly [k] digits *)
Fixpoint digits (k : nat) (n : N) : string :=
  match k with
  | O => EmptyString
  | S k => append (digits k (n / 10)) (one (digit (n mod 10)))
  end.

Lemma digits_length k n : String.length (digits k n) = k.
Proof.
  revert n; induction k as [|k IH]; intros n; cbn; [reflexivity|].
  rewrite append_length, IH. cbn. lia.
Qed.

Lemma digits_zero k : digits k 0 = zeros k.
Proof.
  induction k as [|k IH]; [reflexivity|].
  cbn [digits]. change (0 / 10)%N with 0%N. change (0 mod 10)%N with 0%N.
  rewrite IH. clear IH. induction k as [|k IH]; [reflexivity|].
  cbn. f_equal. exact IH.
Qed.

Lemma zeros_snoc k : append (zeros k) "0" = zeros (S k).
Proof. induction k as [|k IH]; [reflexivity|]. cbn. f_equal. exact IH. Qed.

Lemma decimal_aux_digits k : forall fuel n,
  (n < 10 ^ N.of_nat (S k))%N -> N.size_nat n < fuel ->
  append (zeros (S k - String.length (decimal_aux fuel n))) (decimal_aux fuel n)
  = digits (S k) n
  /\ String.length (decimal_aux fuel n) <= S k.
Proof.
  induction k as [|k IH]; intros fuel n L F.
  - destruct fuel as [|fuel]; [lia|]. cbn [decimal_aux].
    replace (10 ^ N.of_nat 1)%N with 10%N in L by reflexivity.
    destruct (N.ltb_spec n 10) as [_|H]; [|lia].
    cbn [String.length one Nat.sub zeros append digits].
    rewrite N.mod_small by lia. auto.
  - destruct fuel as [|fuel]; [lia|]. cbn [decimal_aux].
    destruct (N.ltb_spec n 10) as [H|H].
    + split; [|cbn; lia]. cbn [one String.length].
      replace (S (S k) - 1) with (S k) by lia.
      change (append (zeros (S k)) (one (digit n)) = digits (S (S k)) n).
      change (digits (S (S k)) n)
        with (append (digits (S k) (n / 10)) (one (digit (n mod 10)))).
      rewrite N.div_small, N.mod_small by lia. now rewrite digits_zero.
    + destruct (IH fuel (n / 10)%N) as [E B].
      * apply N.div_lt_upper_bound; [lia|].
        replace (N.of_nat (S (S k))) with (N.succ (N.of_nat (S k))) in L by lia.
        rewrite N.pow_succ_r' in L. lia.
      * assert (Q : (N.size (n / 10) < N.size n)%N).
        { rewrite !N.size_log2 by
            (try (intros Z; apply N.div_small_iff in Z; lia); lia).
          apply -> N.succ_lt_mono.
          assert (D : (n / 10 < n)%N) by (apply N.div_lt; lia).
          assert (P : (0 < n / 10)%N)
            by (apply N.div_str_pos; lia).
          assert (T : (2 * (n / 10) <= n)%N).
          { pose proof (N.mul_div_le n 10). lia. }
          assert (T2 : (N.log2 (2 * (n / 10)) <= N.log2 n)%N) by now apply N.log2_le_mono.
          rewrite N.log2_double in T2 by lia. lia. }
        assert (S2 : forall x, N.size_nat x = N.to_nat (N.size x)).
        { intros x. destruct x as [|p]; [reflexivity|]. cbn.
          induction p as [p IHp|p IHp|]; cbn; [| |reflexivity];
            rewrite IHp; rewrite Pnat.Pos2Nat.inj_succ; reflexivity. }
        rewrite S2 in *. lia.
      * rewrite append_length. cbn [one String.length].
        split; [|lia].
        replace (S (S k) - (String.length (decimal_aux fuel (n / 10)) + 1))
          with (S k - String.length (decimal_aux fuel (n / 10))) by lia.
        rewrite <- append_assoc, E. reflexivity.
Qed.

Definition capacity : N := 10 ^ 12.

Lemma zfill_digits n : (n < capacity)%N -> zfill (decimal n) = digits 12 n.
Proof.
  intros L. unfold zfill, decimal, num_digits.
  apply (decimal_aux_digits 11); [exact L|lia].
Qed.

Lemma decimal_aux_long k : forall fuel n,
  (10 ^ N.of_nat k <= n)%N -> N.size_nat n < fuel ->
  k < String.length (decimal_aux fuel n).
Proof.
  induction k as [|k IH]; intros fuel n L F.
  - destruct fuel as [|fuel]; [lia|]. cbn [decimal_aux].
    destruct (n <? 10)%N; cbn [one String.length]; [lia|].
    rewrite append_length. cbn [one String.length]. lia.
  - destruct fuel as [|fuel]; [lia|]. cbn [decimal_aux].
    replace (N.of_nat (S k)) with (N.succ (N.of_nat k)) in L by lia.
    rewrite N.pow_succ_r' in L.
    assert (P : (0 < 10 ^ N.of_nat k)%N) by (apply N.neq_0_lt_0, N.pow_nonzero; lia).
    destruct (N.ltb_spec n 10) as [H|H]; [lia|].
    rewrite append_length. cbn [one String.length].
    enough (k < String.length (decimal_aux fuel (n / 10))) by lia.
    apply IH.
    + apply N.div_le_lower_bound; lia.
    + assert (T : (2 * (n / 10) <= n)%N).
      { pose proof (N.mul_div_le n 10). lia. }
      assert (P2 : (0 < n / 10)%N) by (apply N.div_str_pos; lia).
      assert (T2 : (N.log2 (2 * (n / 10)) <= N.log2 n)%N) by now apply N.log2_le_mono.
      rewrite N.log2_double in T2 by lia.
      assert (S2 : forall x, N.size_nat x = N.to_nat (N.size x)).
      { intros x. destruct x as [|p]; [reflexivity|]. cbn.
        induction p as [p IHp|p IHp|]; cbn; [| |reflexivity];
          rewrite IHp; rewrite Pnat.Pos2Nat.inj_succ; reflexivity. }
      rewrite S2 in *. rewrite N.size_log2 in * by lia. lia.
Qed.

Lemma zfill_long n : (capacity <= n)%N -> 12 < String.length (zfill (decimal n)).
Proof.
  intros L. unfold zfill. rewrite append_length.
  assert (12 < String.length (decimal n)).
  { unfold decimal. apply decimal_aux_long; [exact L|lia]. }
  lia.
Qed.

(** ** Digits *)

Fixpoint all_digits (s : string) : bool :=
  match s with
  | EmptyString => true
  | String c s => is_digit c && all_digits s
  end.

Lemma all_digits_append a b : all_digits (append a b) = all_digits a && all_digits b.
Proof.
  induction a as [|x a IH]; cbn; [reflexivity|]. now rewrite IH, andb_assoc.
Qed.

Lemma is_digit_digit n : (n < 10)%N -> is_digit (digit n) = true.
Proof.
  intros L. unfold digit, is_digit.
  assert (E : nat_of_ascii (ascii_of_N (48 + n)) = N.to_nat (48 + n)).
  { unfold nat_of_ascii. rewrite N_ascii_embedding by lia. reflexivity. }
  rewrite E. lia.
Qed.

Lemma all_digits_zeros k : all_digits (zeros k) = true.
Proof. induction k as [|k IH]; [reflexivity|exact IH]. Qed.

Lemma all_digits_decimal_aux fuel : forall n, all_digits (decimal_aux fuel n) = true.
Proof.
  induction fuel as [|fuel IH]; intros n; cbn [decimal_aux]; [reflexivity|].
  destruct (N.ltb_spec n 10) as [H|H].
  - cbn. now rewrite is_digit_digit.
  - rewrite all_digits_append, IH. cbn [one all_digits].
    rewrite is_digit_digit; [reflexivity|]. apply N.mod_lt. lia.
Qed.

Lemma all_digits_zfill n : all_digits (zfill (decimal n)) = true.
Proof.
  unfold zfill. rewrite all_digits_append, all_digits_zeros. apply all_digits_decimal_aux.
Qed.

(** digits followed by something that is no digit: both parts are determined *)
Lemma digits_split a b : forall (x y : ascii) (s t : string),
  all_digits a = true -> all_digits b = true ->
  is_digit x = false -> is_digit y = false ->
  append a (String x s) = append b (String y t) -> a = b /\ String x s = String y t.
Proof.
  revert b; induction a as [|c a IH]; intros [|d b] x y s t A B X Y E; cbn in *.
  - auto.
  - injection E as -> E. apply andb_true_iff in B as [B _]. congruence.
  - injection E as -> E. apply andb_true_iff in A as [A _]. congruence.
  - injection E as -> E. apply andb_true_iff in A as [_ A]. apply andb_true_iff in B as [_ B].
    destruct (IH b x y s t A B X Y E) as [-> E']. auto.
Qed.

Lemma digit_inj a b : (a < 10)%N -> (b < 10)%N -> digit a = digit b -> a = b.
Proof.
  intros A B E. unfold digit in E.
  apply (f_equal N_of_ascii) in E. rewrite !N_ascii_embedding in E by lia. lia.
Qed.

(** ** The numbers are determined by their decimal text *)

Lemma decimal_aux_nonempty fuel n :
  N.size_nat n < fuel -> 0 < String.length (decimal_aux fuel n).
Proof.
  destruct fuel as [|fuel]; [lia|]. intros _. cbn [decimal_aux].
  destruct (n <? 10)%N; [cbn; lia|]. rewrite append_length. cbn. lia.
Qed.

Lemma digits_inj k : forall a b,
  (a < 10 ^ N.of_nat k)%N -> (b < 10 ^ N.of_nat k)%N -> digits k a = digits k b -> a = b.
Proof.
  induction k as [|k IH]; intros a b A B E.
  - change (10 ^ N.of_nat 0)%N with 1%N in *. lia.
  - cbn [digits] in E.
    apply append_inj in E as [E1 E2]; [|now rewrite !digits_length].
    injection E2 as E2. apply digit_inj in E2; try (apply N.mod_lt; lia).
    replace (N.of_nat (S k)) with (N.succ (N.of_nat k)) in * by lia.
    rewrite N.pow_succ_r' in *.
    apply IH in E1; try (apply N.div_lt_upper_bound; lia).
    rewrite (N.div_mod a 10), (N.div_mod b 10) by lia. congruence.
Qed.

Lemma bound_exists (n : N) : exists k, (n < 10 ^ N.of_nat (S k))%N.
Proof.
  exists (N.to_nat n). rewrite Nnat.Nat2N.inj_succ, Nnat.N2Nat.id.
  assert (H : (n < 10 ^ n)%N) by (apply N.pow_gt_lin_r; lia).
  rewrite N.pow_succ_r'. lia.
Qed.

Lemma pow_mono (i j : nat) : i <= j -> (10 ^ N.of_nat i <= 10 ^ N.of_nat j)%N.
Proof. intros H. apply N.pow_le_mono_r; lia. Qed.

(** the decimal text of a number determines it, even after filling *)
Lemma zfill_inj a b : zfill (decimal a) = zfill (decimal b) -> a = b.
Proof.
  destruct (bound_exists a) as [ka HA], (bound_exists b) as [kb HB].
  set (k := Nat.max 11 (Nat.max ka kb)).
  assert (A : (a < 10 ^ N.of_nat (S k))%N).
  { eapply N.lt_le_trans; [exact HA|]. apply pow_mono. subst k. lia. }
  assert (B : (b < 10 ^ N.of_nat (S k))%N).
  { eapply N.lt_le_trans; [exact HB|]. apply pow_mono. subst k. lia. }
  clear HA HB.
  destruct (decimal_aux_digits k (S (N.size_nat a)) a A (Nat.lt_succ_diag_r _)) as [EA LA].
  destruct (decimal_aux_digits k (S (N.size_nat b)) b B (Nat.lt_succ_diag_r _)) as [EB LB].
  fold (decimal a) in EA, LA. fold (decimal b) in EB, LB.
  intros E.
  assert (Z : forall i j, append (zeros i) (zeros j) = zeros (i + j)).
  { clear. intros i j. induction i as [|i IH]; cbn; [reflexivity|now rewrite IH]. }
  assert (F : forall s, String.length s <= S k ->
    append (zeros (S k - String.length (zfill s))) (zfill s)
    = append (zeros (S k - String.length s)) s).
  { intros s L. unfold zfill at 2. rewrite <- append_assoc, Z. f_equal. f_equal.
    unfold zfill. rewrite append_length.
    assert (ZL : forall i, String.length (zeros i) = i).
    { clear. intros i. induction i as [|i IH]; cbn; [reflexivity|now rewrite IH]. }
    rewrite ZL. unfold num_digits. subst k. lia. }
  apply (digits_inj (S k)); [exact A|exact B|].
  rewrite <- EA, <- EB, <- (F _ LA), <- (F _ LB), E. reflexivity.
Qed.

(** ** Names of different files are different *)

Definition fname_ok (f : fname) : Prop :=
  match f with
  | BagFile u _ => String.length u = 36
  | MetaFile _ => True
  | TempFile _ u => String.length u = 36
  end.

Lemma render_inj f g : fname_ok f -> fname_ok g -> render f = render g -> f = g.
Proof.
  destruct f as [u i|n|n u], g as [v j|m|m v]; cbn [render fname_ok]; intros F G E;
    try discriminate E.
  - apply append_inj_l in E. apply append_inj in E as [-> E]; [|congruence].
    apply append_inj_l in E. apply append_inj_r in E. apply zfill_inj in E.
    f_equal. lia.
  - apply append_inj_l in E. apply append_inj_r in E. apply zfill_inj in E. congruence.
  - apply append_inj_l in E.
    change ".pb"%string with (String "." "pb") in E at 1.
    change (append "-" (append v ".pb")) with (String "-" (append v ".pb")) in E.
    apply digits_split in E as [_ E]; try reflexivity; try apply all_digits_zfill.
    discriminate.
  - apply append_inj_l in E.
    change (append "-" (append u ".pb")) with (String "-" (append u ".pb")) in E.
    change ".pb"%string with (String "." "pb") in E at 2.
    apply digits_split in E as [_ E]; try reflexivity; try apply all_digits_zfill.
    discriminate.
  - apply append_inj_l in E.
    change (append "-" (append u ".pb")) with (String "-" (append u ".pb")) in E.
    change (append "-" (append v ".pb")) with (String "-" (append v ".pb")) in E.
    apply digits_split in E as [E1 E2]; try reflexivity; try apply all_digits_zfill.
    apply zfill_inj in E1. injection E2 as E2. apply append_inj_r in E2. congruence.
Qed.

(** ** The pattern *)

Lemma strip_prefix_append p s : strip_prefix p (append p s) = Some s.
Proof.
  induction p as [|x p IH]; cbn; [reflexivity|]. now rewrite Ascii.eqb_refl.
Qed.

Lemma strip_digits_append a s k :
  all_digits a = true -> String.length a = k -> strip_digits k (append a s) = Some s.
Proof.
  revert k; induction a as [|c a IH]; intros [|k] A L; cbn in *; try discriminate.
  - reflexivity.
  - apply andb_true_iff in A as [-> A]. auto.
Qed.

Lemma strip_digits_too_long k : forall a s,
  all_digits a = true -> k < String.length a ->
  exists c s', is_digit c = true /\ strip_digits k (append a s) = Some (String c s').
Proof.
  induction k as [|k IH]; intros [|c a] s A L; cbn in *; try lia.
  - apply andb_true_iff in A as [C A]. eauto.
  - apply andb_true_iff in A as [-> A]. apply IH; [exact A|lia].
Qed.

Lemma zfill_length_12 n : (n < capacity)%N -> String.length (zfill (decimal n)) = 12.
Proof. intros L. rewrite zfill_digits by exact L. apply digits_length. Qed.

Lemma strip_zfill n x s : is_digit x = false ->
  strip_digits 12 (append (zfill (decimal n)) (String x s))
  = if (n <? capacity)%N then Some (String x s)
    else strip_digits 12 (append (zfill (decimal n)) (String x s)).
Proof.
  intros X. destruct (N.ltb_spec n capacity) as [L|L]; [|reflexivity].
  apply strip_digits_append; [apply all_digits_zfill|now apply zfill_length_12].
Qed.

Theorem matches_pattern_iff f :
  matches_pattern (render f) = true <-> exists n, (n < capacity)%N /\ f = MetaFile n.
Proof.
  unfold matches_pattern. destruct f as [u i|n|n u]; cbn [render].
  - split; [discriminate|]. intros (n & _ & E). discriminate.
  - rewrite strip_prefix_append. unfold num_digits.
    change ".pb"%string with (String "." "pb") at 1.
    rewrite strip_zfill by reflexivity.
    destruct (N.ltb_spec n capacity) as [L|L].
    + split; [intros _; eauto|reflexivity].
    + destruct (strip_digits_too_long 12 (zfill (decimal n)) ".pb")
        as (c & s & C & E); [apply all_digits_zfill|now apply zfill_long|].
      change ".pb"%string with (String "." "pb") in E. rewrite E.
      split.
      * intros H. apply String.eqb_eq in H. injection H as -> _. discriminate.
      * intros (m & H & [= <-]). lia.
  - rewrite strip_prefix_append. unfold num_digits.
    change (append "-" (append u ".pb")) with (String "-" (append u ".pb")).
    rewrite strip_zfill by reflexivity.
    destruct (N.ltb_spec n capacity) as [L|L].
    + split; [discriminate|]. intros (m & _ & E). discriminate.
    + destruct (strip_digits_too_long 12 (zfill (decimal n)) (String "-" (append u ".pb")))
        as (c & s & C & E); [apply all_digits_zfill|now apply zfill_long|].
      rewrite E. split.
      * intros H. apply String.eqb_eq in H. injection H as -> _. discriminate.
      * intros (m & _ & H). discriminate.
Qed.

(** ** The order of names is the order of numbers *)

Lemma compare_append (a b c d : string) :
  String.length a = String.length b ->
  String.compare (append a c) (append b d)
  = match String.compare a b with Eq => String.compare c d | o => o end.
Proof.
  revert b; induction a as [|x a IH]; intros [|y b] L; cbn in *; try discriminate.
  - reflexivity.
  - destruct (Ascii.compare x y); auto.
Qed.

Lemma compare_digit a b : (a < 10)%N -> (b < 10)%N ->
  String.compare (one (digit a)) (one (digit b)) = N.compare a b.
Proof.
  intros A B. unfold digit, one. cbn [String.compare]. unfold Ascii.compare.
  rewrite !N_ascii_embedding by lia.
  assert (E : (48 + a ?= 48 + b)%N = (a ?= b)%N).
  { destruct (N.compare_spec a b) as [E|E|E].
    - subst. apply N.compare_refl.
    - apply N.compare_lt_iff. lia.
    - apply N.compare_gt_iff. lia. }
  rewrite E. destruct (a ?= b)%N; reflexivity.
Qed.

Lemma compare_digits k : forall a b,
  (a < 10 ^ N.of_nat k)%N -> (b < 10 ^ N.of_nat k)%N ->
  String.compare (digits k a) (digits k b) = N.compare a b.
Proof.
  induction k as [|k IH]; intros a b A B.
  - change (10 ^ N.of_nat 0)%N with 1%N in *. replace a with 0%N by lia.
    replace b with 0%N by lia. reflexivity.
  - cbn [digits]. rewrite compare_append by now rewrite !digits_length.
    replace (N.of_nat (S k)) with (N.succ (N.of_nat k)) in * by lia.
    rewrite N.pow_succ_r' in *.
    rewrite IH by (apply N.div_lt_upper_bound; lia).
    rewrite compare_digit by (apply N.mod_lt; lia).
    pose proof (N.div_mod a 10 ltac:(lia)) as DA.
    pose proof (N.div_mod b 10 ltac:(lia)) as DB.
    pose proof (N.mod_lt a 10 ltac:(lia)) as MA.
    pose proof (N.mod_lt b 10 ltac:(lia)) as MB.
    set (qa := (a / 10)%N) in *. set (qb := (b / 10)%N) in *.
    set (ra := (a mod 10)%N) in *. set (rb := (b mod 10)%N) in *.
    clearbody qa qb ra rb. clear IH A B.
    destruct (N.compare_spec qa qb) as [E|E|E].
    + destruct (N.compare_spec ra rb), (N.compare_spec a b); try reflexivity; lia.
    + destruct (N.compare_spec a b); try reflexivity; lia.
    + destruct (N.compare_spec a b); try reflexivity; lia.
Qed.

Theorem name_order a b : (a < capacity)%N -> (b < capacity)%N ->
  String.ltb (render (MetaFile a)) (render (MetaFile b)) = (a <? b)%N.
Proof.
  intros A B. unfold String.ltb. cbn [render].
  rewrite compare_append by reflexivity.
  change (String.compare "metadata-" "metadata-") with Eq. cbv iota beta.
  rewrite !zfill_digits by assumption.
  rewrite compare_append by now rewrite !digits_length.
  rewrite compare_digits by assumption.
  unfold N.ltb. destruct (a ?= b)%N; reflexivity.
Qed.
