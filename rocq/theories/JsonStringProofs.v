(** Quoting and unquoting (C37). *)
From Coq Require Import String NArith ZArith List Bool Lia ZifyBool ZifyN.
From Verif Require Import JsonModel JsonSpec JsonChunkProofs JsonProofs.
Import ListNotations.
Open Scope N_scope.

(** ** UTF-8 *)
Lemma split_div a b k : b < k -> (k * a + b) / k = a /\ (k * a + b) mod k = b.
Proof.
  intros H. split.
  - symmetry. apply (N.div_unique _ _ _ b); [exact H|reflexivity].
  - symmetry. apply (N.mod_unique _ _ a); [exact H|reflexivity].
Qed.

Lemma utf8_u8 u e : u8 u e -> ~ (0xD800 <= u <= 0xDFFF) -> utf8 u = e.
Proof.
  intros H Hns. unfold utf8. destruct H as [a Ha|a b Ha Hb Hm|a b c Ha Hb Hc Hm|a b c d Ha Hb Hc Hd Hm].
  - apply N.ltb_lt in Ha. now rewrite Ha.
  - replace (64 * a + b <? 0x80) with false by (symmetry; apply N.ltb_ge; lia).
    replace (64 * a + b <? 0x800) with true by (symmetry; apply N.ltb_lt; lia).
    destruct (split_div a b 64 Hb) as [-> ->]. reflexivity.
  - set (u := 4096 * a + 64 * b + c) in *.
    replace (u <? 0x80) with false by (symmetry; apply N.ltb_ge; unfold u; lia).
    replace (u <? 0x800) with false by (symmetry; apply N.ltb_ge; unfold u; lia).
    replace ((0xD800 <=? u) && (u <=? 0xDFFF)) with false
      by (symmetry; apply andb_false_iff; rewrite !N.leb_gt; lia).
    replace (u <? 0x10000) with true by (symmetry; apply N.ltb_lt; unfold u; lia).
    assert (E1 : u / 4096 = a).
    { unfold u. rewrite <- N.add_assoc. apply (split_div a (64 * b + c) 4096). lia. }
    assert (E2 : u / 64 = 64 * a + b /\ u mod 64 = c).
    { unfold u. replace (4096 * a + 64 * b + c) with (64 * (64 * a + b) + c) by lia. now apply split_div. }
    destruct E2 as [-> ->]. rewrite E1. destruct (split_div a b 64 Hb) as [_ ->]. reflexivity.
  - set (u := 262144 * a + 4096 * b + 64 * c + d) in *.
    replace (u <? 0x80) with false by (symmetry; apply N.ltb_ge; lia).
    replace (u <? 0x800) with false by (symmetry; apply N.ltb_ge; lia).
    replace ((0xD800 <=? u) && (u <=? 0xDFFF)) with false
      by (symmetry; apply andb_false_iff; rewrite !N.leb_gt; lia).
    replace (u <? 0x10000) with false by (symmetry; apply N.ltb_ge; lia).
    replace (u <? 0x110000) with true by (symmetry; apply N.ltb_lt; lia).
    assert (E1 : u / 262144 = a).
    { unfold u. replace (262144 * a + 4096 * b + 64 * c + d) with (262144 * a + (4096 * b + 64 * c + d)) by lia.
      apply split_div. lia. }
    assert (E2 : u / 64 = 64 * (64 * a + b) + c /\ u mod 64 = d).
    { unfold u. replace (262144 * a + 4096 * b + 64 * c + d) with (64 * (64 * (64 * a + b) + c) + d) by lia. now apply split_div. }
    assert (E3 : u / 4096 = 64 * a + b).
    { unfold u. replace (262144 * a + 4096 * b + 64 * c + d) with (4096 * (64 * a + b) + (64 * c + d)) by lia.
      apply split_div. lia. }
    destruct E2 as [-> ->]. rewrite E1, E3. destruct (split_div a b 64 Hb) as [_ ->].
    destruct (split_div (64 * a + b) c 64 Hc) as [_ ->]. reflexivity.
Qed.

(** ** Hexadecimal digits *)
Lemma hex_digit_spec (c v : N) : hex_digit c v -> is_hex c = true /\ digit_value c = v /\ (c =? cQuote) = false /\ v < 16.
Proof.
  unfold hex_digit, is_hex, digit_value, cQuote. intros H.
  destruct H as [[H ->]|[[H ->]|[H ->]]].
  - replace (48 <=? c) with true by lia. replace (c <=? 57) with true by lia. cbn [andb orb]. repeat split; lia.
  - replace (c <=? 57) with false by lia. replace (97 <=? c) with true by lia. replace (c <=? 102) with true by lia.
    rewrite andb_false_r. cbn [andb orb]. repeat split; lia.
  - replace (c <=? 57) with false by lia. replace (97 <=? c) with false by lia. replace (65 <=? c) with true by lia.
    replace (c <=? 70) with true by lia. rewrite andb_false_r. cbn [andb orb]. repeat split; lia.
Qed.

Lemma digits4 w x y z : ((((0 * 16 + w) * 16 + x) * 16 + y) * 16 + z) = 4096 * w + 256 * x + 16 * y + z.
Proof. lia. Qed.

(** ** Unquoting a literal *)
Definition US : unq_st := mkUnq true [].

Lemma unq_char c : c <> cQuote -> c <> cBackslash -> unq_step US c = (US, [c]).
Proof. intros H1 H2. apply N.eqb_neq in H1, H2. cbn. now rewrite H1, H2. Qed.

Lemma simple_escape_inv c v : simple_escape c = Some v ->
  unq_step (mkUnq true [cBackslash]) c = (US, [v]).
Proof.
  unfold simple_escape, US. cbn [unq_step]. unfold cQuote, cBackslash.
  repeat match goal with
  | |- context [c =? ?k] => destruct (c =? k) eqn:?; cbn [orb];
      [intros E; injection E as <-; match goal with H : (c =? _) = true |- _ => apply N.eqb_eq in H; subst c end; reflexivity|]
  end. discriminate.
Qed.

Lemma unq_hex4 pre a1 a2 a3 a4 u : (pre = [] \/ exists p1 p2 p3 p4, pre = [cBackslash; 117; p1; p2; p3; p4]) ->
  hex4 a1 a2 a3 a4 u ->
  loop unq_step (mkUnq true (pre ++ [cBackslash; 117])) [a1; a2; a3] =
    (mkUnq true (pre ++ [cBackslash; 117; a1; a2; a3]), []) /\
  is_hex a4 = true /\ (a4 =? cQuote) = false /\
  fold_left (fun v c => v * 16 + digit_value c) [a1; a2; a3; a4] 0 = u.
Proof.
  intros Hp (w & x & y & z & H1 & H2 & H3 & H4 & ->).
  apply hex_digit_spec in H1, H2, H3, H4.
  destruct H1 as (I1 & V1 & Q1 & _), H2 as (I2 & V2 & Q2 & _), H3 as (I3 & V3 & Q3 & _), H4 as (I4 & V4 & Q4 & _).
  split; [|split; [exact I4|split; [exact Q4|]]].
  - destruct Hp as [->|(p1 & p2 & p3 & p4 & ->)]; cbn -[N.eqb is_hex];
      rewrite Q1, I1; cbn -[N.eqb is_hex]; rewrite Q2, I2; cbn -[N.eqb is_hex]; rewrite Q3, I3; reflexivity.
  - cbn [fold_left]. rewrite V1, V2, V3, V4. apply digits4.
Qed.

Lemma unq_body b s : denotes b s -> loop unq_step US b = (US, s).
Proof.
  induction 1 as [|c b s H1 H2 H IH|c v b s He H IH|a1 a2 a3 a4 u e b s Hx Hns Hu H IH
                 |a1 a2 a3 a4 hi b1 b2 b3 b4 lo e b s Hx Hhi Hy Hlo Hu H IH].
  - reflexivity.
  - rewrite loop_cons, (unq_char c H1 H2). cbn [fst snd]. rewrite IH. reflexivity.
  - rewrite loop_cons. change (unq_step US cBackslash) with (mkUnq true [cBackslash], @nil N). cbn [fst snd].
    rewrite loop_cons, (simple_escape_inv c v He). cbn [fst snd]. rewrite IH. reflexivity.
  - destruct (unq_hex4 [] _ _ _ _ _ (or_introl eq_refl) Hx) as (L & Ih & Qh & V).
    change (cBackslash :: 117 :: a1 :: a2 :: a3 :: a4 :: b)
      with ([cBackslash; 117] ++ [a1; a2; a3] ++ a4 :: b).
    assert (L0 : loop unq_step US [cBackslash; 117] = (mkUnq true [cBackslash; 117], [])) by reflexivity.
    assert (L2 : loop unq_step (mkUnq true [cBackslash; 117; a1; a2; a3]) (a4 :: b) = (US, e ++ s)).
    { rewrite loop_cons.
      assert (E : unq_step (mkUnq true [cBackslash; 117; a1; a2; a3]) a4 = (US, e)).
      { cbn -[N.eqb is_hex digit_span utf8]. rewrite Qh, Ih. cbn -[N.eqb is_hex digit_span utf8].
        change (digit_span [cBackslash; 117; a1; a2; a3; a4] 2 6 16)
          with (fold_left (fun v c => v * 16 + digit_value c) [a1; a2; a3; a4] 0). rewrite V.
        replace (is_lead u) with false.
        - rewrite (utf8_u8 u e Hu Hns). reflexivity.
        - symmetry. unfold is_lead. apply andb_false_iff. rewrite !N.leb_gt. lia. }
      rewrite E. cbn [fst snd]. rewrite IH. reflexivity. }
    exact (loop_app_eq _ _ _ _ _ _ _ _ L0 (loop_app_eq _ _ _ _ _ _ _ _ L L2)).
  - destruct (unq_hex4 [] _ _ _ _ _ (or_introl eq_refl) Hx) as (L & Ih & Qh & V).
    destruct (unq_hex4 [cBackslash; 117; a1; a2; a3; a4] _ _ _ _ _
       (or_intror (ex_intro _ a1 (ex_intro _ a2 (ex_intro _ a3 (ex_intro _ a4 eq_refl))))) Hy) as (L' & Ih' & Qh' & V').
    change (cBackslash :: 117 :: a1 :: a2 :: a3 :: a4 :: cBackslash :: 117 :: b1 :: b2 :: b3 :: b4 :: b)
      with ([cBackslash; 117] ++ [a1; a2; a3] ++ [a4; cBackslash; 117] ++ [b1; b2; b3] ++ b4 :: b).
    assert (L0 : loop unq_step US [cBackslash; 117] = (mkUnq true [cBackslash; 117], [])) by reflexivity.
    assert (L1 : loop unq_step (mkUnq true [cBackslash; 117; a1; a2; a3]) [a4; cBackslash; 117] =
       (mkUnq true [cBackslash; 117; a1; a2; a3; a4; cBackslash; 117], [])).
    { cbn -[N.eqb is_hex digit_span utf8 is_lead]. rewrite Qh, Ih. cbn -[N.eqb is_hex digit_span utf8 is_lead].
      change (digit_span [cBackslash; 117; a1; a2; a3; a4] 2 6 16)
          with (fold_left (fun v c => v * 16 + digit_value c) [a1; a2; a3; a4] 0). rewrite V.
      replace (is_lead hi) with true; [reflexivity|].
      symmetry. unfold is_lead. apply andb_true_iff. rewrite !N.leb_le. exact Hhi. }
    assert (L2 : loop unq_step (mkUnq true [cBackslash; 117; a1; a2; a3; a4; cBackslash; 117; b1; b2; b3]) (b4 :: b) = (US, e ++ s)).
    { rewrite loop_cons.
      assert (E : unq_step (mkUnq true [cBackslash; 117; a1; a2; a3; a4; cBackslash; 117; b1; b2; b3]) b4 = (US, e)).
      { cbn -[N.eqb is_hex digit_span utf8 is_lead is_trail]. rewrite Qh', Ih'.
        cbn -[N.eqb is_hex digit_span utf8 is_lead is_trail].
        change (digit_span [cBackslash; 117; a1; a2; a3; a4; cBackslash; 117; b1; b2; b3; b4] 2 6 16)
          with (fold_left (fun v c => v * 16 + digit_value c) [a1; a2; a3; a4] 0).
        change (digit_span [cBackslash; 117; a1; a2; a3; a4; cBackslash; 117; b1; b2; b3; b4] 8 12 16)
          with (fold_left (fun v c => v * 16 + digit_value c) [b1; b2; b3; b4] 0). rewrite V, V'.
        replace (is_trail lo) with true
          by (symmetry; unfold is_trail; apply andb_true_iff; rewrite !N.leb_le; exact Hlo).
        unfold supplementary.
        replace ((hi - 0xD800) * 1024 + (lo - 0xDC00) + 0x10000)
          with (0x10000 + 1024 * (hi - 0xD800) + (lo - 0xDC00)) by lia.
        rewrite (utf8_u8 _ e Hu) by lia. reflexivity. }
      rewrite E. cbn [fst snd]. rewrite IH. reflexivity. }
    exact (loop_app_eq _ _ _ _ _ _ _ _ L0 (loop_app_eq _ _ _ _ _ _ _ _ L
      (loop_app_eq _ _ _ _ _ _ _ _ L1 (loop_app_eq _ _ _ _ _ _ _ _ L' L2)))).
Qed.

Lemma unq_skip w : ~ In cQuote w -> loop unq_step unq_init w = (unq_init, []).
Proof.
  induction w as [|c w IH]; intros H; [reflexivity|].
  rewrite loop_cons. assert (E : unq_step unq_init c = (unq_init, [])).
  { unfold unq_init, unq_step. replace (c =? cQuote) with false; [reflexivity|].
    symmetry. apply N.eqb_neq. intros ->. apply H. now left. }
  rewrite E. cbn [fst snd]. rewrite IH; [reflexivity|]. intros Hin. apply H. now right.
Qed.

(** A literal with anything but quotes around it. *)
Lemma unquote_literal pre b post s : ~ In cQuote pre -> ~ In cQuote post -> denotes b s ->
  text (process unquote_proc (init unquote_proc) (pre ++ quoted b ++ post) true) = s.
Proof.
  intros Hpre Hpost Hd. cbn [process unquote_proc loop_proc init].
  assert (Lq : loop unq_step unq_init (quoted b) = (unq_init, s)).
  { unfold quoted. rewrite loop_cons. change (unq_step unq_init cQuote) with (US, @nil N). cbn [fst snd app].
    assert (Lc : loop unq_step US [cQuote] = (unq_init, [])) by reflexivity.
    rewrite (loop_app_eq _ _ _ _ _ _ _ _ (unq_body b s Hd) Lc). cbn [fst snd]. now rewrite app_nil_r. }
  pose proof (loop_app_eq _ _ _ _ _ _ _ _ (unq_skip pre Hpre) (loop_app_eq _ _ _ _ _ _ _ _ Lq (unq_skip post Hpost))) as L.
  cbn [app] in L. rewrite app_nil_r in L.
  match goal with |- text (let '(_, _) := ?x in _) = _ => replace x with (unq_init, s) by (symmetry; exact L) end.
  apply single_text.
Qed.

(** ** Quoting *)
Lemma quote_text s :
  text (process quote_proc (init quote_proc) s true) = quoted (flat_map quote_char s).
Proof.
  cbn [process quote_proc init]. unfold quote_process.
  assert (L : loop (fun (st : bool) c => (st, quote_char c)) true s = (true, flat_map quote_char s)).
  { apply (loop_const (fun (st : bool) c => (st, quote_char c)) true quote_char (fun _ => true)); [reflexivity|].
    apply forallb_forall. reflexivity. }
  rewrite L, single_text. reflexivity.
Qed.

Lemma hex_char_digit (d : N) : d < 16 -> hex_digit (hex_char d) d.
Proof. unfold hex_digit, hex_char. intros H. destruct (d <? 10) eqn:E; lia. Qed.

Lemma quote_denotes s : denotes (flat_map quote_char s) s.
Proof.
  induction s as [|c s IH]; [constructor|]. cbn [flat_map]. unfold quote_char.
  destruct (c =? cBackslash) eqn:E1; [apply N.eqb_eq in E1; subst c; now apply (den_esc 92 92)|].
  destruct (c =? cQuote) eqn:E2; [apply N.eqb_eq in E2; subst c; now apply (den_esc 34 34)|].
  destruct (c =? 8) eqn:E3; [apply N.eqb_eq in E3; subst c; now apply (den_esc 98 8)|].
  destruct (c =? 12) eqn:E4; [apply N.eqb_eq in E4; subst c; now apply (den_esc 102 12)|].
  destruct (c =? 10) eqn:E5; [apply N.eqb_eq in E5; subst c; now apply (den_esc 110 10)|].
  destruct (c =? 13) eqn:E6; [apply N.eqb_eq in E6; subst c; now apply (den_esc 114 13)|].
  destruct (c =? 9) eqn:E7; [apply N.eqb_eq in E7; subst c; now apply (den_esc 116 9)|].
  destruct (c <? 32) eqn:E8.
  - apply N.ltb_lt in E8. cbn [app].
    pose proof (N.div_mod c 16 ltac:(lia)) as Hdm. pose proof (N.mod_lt c 16 ltac:(lia)) as Hml.
    assert (Hd : c / 16 < 16) by (apply N.div_lt_upper_bound; lia).
    apply (den_u 48 48 (hex_char (c / 16)) (hex_char (c mod 16)) c [c]).
    + exists 0, 0, (c / 16), (c mod 16). split; [left; lia|]. split; [left; lia|].
      split; [now apply hex_char_digit|]. split; [now apply hex_char_digit|]. lia.
    + lia.
    + constructor. lia.
    + exact IH.
  - cbn [app]. apply N.eqb_neq in E1, E2. now constructor.
Qed.

Lemma body_ok_app a : forall b, body_ok a = true -> body_ok b = true -> body_ok (a ++ b) = true.
Proof.
  assert (G : forall n a, (List.length a <= n)%nat -> forall b, body_ok a = true -> body_ok b = true -> body_ok (a ++ b) = true).
  { induction n as [|n IH]; intros [|c a0] Hn b Ha Hb; cbn [List.length] in Hn; try lia; auto.
    cbn [app body_ok] in *. destruct (c =? cBackslash) eqn:Ec.
    - destruct a0 as [|d a1]; [discriminate|]. cbn [app]. apply andb_true_iff in Ha. destruct Ha as [H1 H2].
      rewrite H1. cbn [andb]. cbn [List.length] in Hn. apply (IH a1); auto. lia.
    - apply andb_true_iff in Ha. destruct Ha as [H1 H2]. rewrite H1. cbn [andb]. apply (IH a0); auto. lia. }
  exact (G _ a (le_n _)).
Qed.

Lemma quote_body_ok s : body_ok (flat_map quote_char s) = true.
Proof.
  induction s as [|c s IH]; [reflexivity|]. cbn [flat_map]. apply body_ok_app; [|exact IH].
  unfold quote_char.
  destruct (c =? cBackslash) eqn:E1; [reflexivity|].
  destruct (c =? cQuote) eqn:E2; [reflexivity|].
  destruct (c =? 8); [reflexivity|]. destruct (c =? 12); [reflexivity|]. destruct (c =? 10); [reflexivity|].
  destruct (c =? 13); [reflexivity|]. destruct (c =? 9); [reflexivity|].
  destruct (c <? 32) eqn:E8.
  - apply N.ltb_lt in E8.
    pose proof (N.mod_lt c 16 ltac:(lia)) as Hml.
    assert (Hd : c / 16 < 16) by (apply N.div_lt_upper_bound; lia).
    set (h := c / 16) in *. set (l := c mod 16) in *. clearbody h l.
    cbn -[hex_char N.leb N.eqb]. change (32 <=? 117) with true. cbn [andb].
    change (48 =? cBackslash) with false. change (48 =? cQuote) with false. change (32 <=? 48) with true. cbn [andb negb].
    assert (G : forall d, d < 16 -> (hex_char d =? cBackslash) = false /\ (hex_char d =? cQuote) = false /\ (32 <=? hex_char d) = true).
    { intros d Hdd. unfold hex_char, cBackslash, cQuote. destruct (d <? 10) eqn:Ed; repeat split; lia. }
    destruct (G h Hd) as (-> & -> & ->). destruct (G l Hml) as (-> & -> & ->). reflexivity.
  - apply N.ltb_ge in E8. cbn [body_ok]. rewrite E1, E2. replace (32 <=? c) with true by lia. reflexivity.
Qed.

(** No byte below 0x20 is left. *)
Lemma body_ok_no_control b : body_ok b = true -> Forall (fun c => 32 <= c) b.
Proof.
  assert (G : forall n b, (List.length b <= n)%nat -> body_ok b = true -> Forall (fun c => 32 <= c) b).
  { induction n as [|n IH]; intros [|c b0] Hn Hb; cbn [List.length] in Hn; try lia; try constructor.
    - cbn [body_ok] in Hb. destruct (c =? cBackslash) eqn:Ec.
      + apply N.eqb_eq in Ec. subst c. unfold cBackslash. lia.
      + apply andb_true_iff in Hb. destruct Hb as [Hb _]. apply andb_true_iff in Hb. destruct Hb as [Hb _]. lia.
    - cbn [body_ok] in Hb. destruct (c =? cBackslash) eqn:Ec.
      + destruct b0 as [|d b1]; [discriminate|]. apply andb_true_iff in Hb. destruct Hb as [H1 H2].
        constructor; [lia|]. cbn [List.length] in Hn. apply IH; [lia|exact H2].
      + apply andb_true_iff in Hb. destruct Hb as [_ Hb]. apply IH; [lia|exact Hb]. }
  exact (G _ b (le_n _)).
Qed.

(** Reading the literal: the string ends at the last quote and not before. *)
Lemma scan_body b q : body_ok b = true -> q = (true, false) -> scan q b = (true, false).
Proof.
  assert (G : forall n b, (List.length b <= n)%nat -> body_ok b = true -> scan (true, false) b = (true, false)).
  { induction n as [|n IH]; intros [|c b0] Hn Hb; cbn [List.length] in Hn; try lia; try reflexivity.
    cbn [body_ok] in Hb. unfold scan in *. cbn [fold_left scan1]. destruct (c =? cBackslash) eqn:Ec.
    - apply N.eqb_eq in Ec. subst c. destruct b0 as [|d b1]; [discriminate|].
      apply andb_true_iff in Hb. destruct Hb as [_ Hb]. cbn [fold_left scan1].
      change (cBackslash =? cQuote) with false. cbn [List.length] in Hn. apply (IH b1); [lia|exact Hb].
    - apply andb_true_iff in Hb. destruct Hb as [H1 Hb]. apply andb_true_iff in H1. destruct H1 as [_ Hq].
      apply negb_true_iff in Hq. rewrite Hq. apply (IH b0); [lia|exact Hb]. }
  intros Hb ->. exact (G _ b (le_n _) Hb).
Qed.

(** ** Runs *)
Lemma run_quote items : exists b, concat (run (op_proc OpQuote) items) = quoted b /\
  body_ok b = true /\ Forall (fun c => 32 <= c) b /\ denotes b (given items).
Proof.
  exists (flat_map quote_char (given items)). rewrite op_run_once. split; [exact (quote_text (given items))|].
  split; [apply quote_body_ok|]. split; [apply body_ok_no_control, quote_body_ok|apply quote_denotes].
Qed.

Lemma run_unquote items pre b post s : given items = pre ++ quoted b ++ post ->
  ~ In cQuote pre -> ~ In cQuote post -> denotes b s ->
  concat (run (op_proc OpUnquote) items) = s.
Proof. intros E H1 H2 Hd. rewrite op_run_once, E. now apply unquote_literal. Qed.

Lemma run_unquote_quote items :
  concat (run (op_proc OpUnquote) (map Some (run (op_proc OpQuote) items))) = given items.
Proof.
  destruct (run_quote items) as (b & E & _ & _ & Hd).
  apply (run_unquote _ [] b []); auto.
  unfold given at 1. rewrite map_map, map_id, E. now rewrite app_nil_r.
Qed.

Lemma in_quote_scan b : body_ok b = true -> scan (false, false) (cQuote :: b) = (true, false).
Proof. intros H. unfold scan. cbn [fold_left scan1]. change (cQuote =? cQuote) with true. now apply scan_body. Qed.

(** the quotes that are not behind a backslash are the first and the last character *)
Lemma quote_closes b : body_ok b = true -> forall p q, quoted b = p ++ q -> p <> [] -> q <> [] ->
  fst (scan (false, false) p) = true.
Proof.
  intros Hb p q E Hp Hq. destruct p as [|c p]; [congruence|]. unfold quoted in E. cbn [app] in E.
  injection E as <- E.
  assert (Hpre : exists r, b = p ++ r).
  { clear -E Hq. revert p E. induction b as [|x b IH]; intros p E.
    - destruct p as [|y p]; [exists []; reflexivity|]. cbn [app] in E. injection E as _ E.
      destruct p; destruct q; try congruence; try discriminate.
    - destruct p as [|y p]; [exists (x :: b); reflexivity|]. cbn [app] in E. injection E as <- E.
      destruct (IH p E) as (r & ->). exists r. reflexivity. }
  destruct Hpre as (r & ->). clear E Hq Hp.
  unfold scan. cbn [fold_left scan1]. change (cQuote =? cQuote) with true.
  assert (G : forall n p, (List.length p <= n)%nat -> body_ok (p ++ r) = true -> fst (fold_left scan1 p (true, false)) = true).
  { induction n as [|n IH]; intros [|c p0] Hn H; cbn [List.length] in Hn; try lia; try reflexivity.
    cbn [app body_ok fold_left scan1] in *. destruct (c =? cBackslash) eqn:Ec.
    - apply N.eqb_eq in Ec. subst c. change (cBackslash =? cQuote) with false. cbv iota.
      destruct p0 as [|d p1]; [reflexivity|]. cbn [app fold_left scan1 List.length] in *.
      apply andb_true_iff in H. destruct H as [_ H]. apply IH; [lia|exact H].
    - apply andb_true_iff in H. destruct H as [H1 H]. apply andb_true_iff in H1. destruct H1 as [_ Hq].
      apply negb_true_iff in Hq. rewrite Hq. apply IH; [lia|exact H]. }
  exact (G _ p (le_n _) Hb).
Qed.
