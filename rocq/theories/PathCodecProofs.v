(** The codec of attribute names in paths has the properties that the theorems
    about paths ask for. *)
From Coq Require Import ZArith NArith List Bool PeanoNat Lia ZifyBool ZifyN.
From Verif Require Import PathModel PathSpec PathCodecModel.
Import ListNotations.
Local Open Scope N_scope.
Ltac Zify.zify_post_hook ::= Z.div_mod_to_equations.

(** * UTF-8 *)

Lemma utf8_char_decode c b l :
  utf8_char c = Some b ->
  utf8_decode (b ++ l) = option_map (cons c) (utf8_decode l)
  /\ (forall x, In x b -> x < 256).
Proof.
  unfold utf8_char. intros E.
  destruct (c <? 0x80) eqn:C1.
  { injection E as <-. cbn [app utf8_decode]. rewrite C1. split; [reflexivity|].
    intros x [<-|[]]. lia. }
  destruct (c <? 0x800) eqn:C2.
  { assert (b = [0xC0 + c / 64; 0x80 + c mod 64]) as -> by congruence. clear E.
    split; [|intros x [<-|[<-|[]]]; lia].
    cbn [app utf8_decode].
    replace (0xC0 + c / 64 <? 0x80) with false by lia.
    replace (0xC0 + c / 64 <? 0xC2) with false by lia.
    replace (0xC0 + c / 64 <? 0xE0) with true by lia.
    replace (is_cont (0x80 + c mod 64)) with true by (unfold is_cont; lia).
    replace ((0xC0 + c / 64 - 0xC0) * 64 + (0x80 + c mod 64 - 0x80)) with c by lia.
    reflexivity. }
  destruct ((0xD800 <=? c) && (c <=? 0xDFFF)) eqn:C3; [discriminate|].
  destruct (c <? 0x10000) eqn:C4.
  { assert (b = [0xE0 + c / 4096; 0x80 + c / 64 mod 64; 0x80 + c mod 64]) as -> by congruence.
    clear E. split; [|intros x [<-|[<-|[<-|[]]]]; lia].
    cbn [app utf8_decode].
    replace (0xE0 + c / 4096 <? 0x80) with false by lia.
    replace (0xE0 + c / 4096 <? 0xC2) with false by lia.
    replace (0xE0 + c / 4096 <? 0xE0) with false by lia.
    replace (0xE0 + c / 4096 <? 0xF0) with true by lia.
    replace ((0xE0 + c / 4096 - 0xE0) * 4096 + (0x80 + c / 64 mod 64 - 0x80) * 64
             + (0x80 + c mod 64 - 0x80)) with c by lia.
    replace (is_cont (0x80 + c mod 64)) with true by (unfold is_cont; lia).
    replace (is_cont (0x80 + c / 64 mod 64)) with true by (unfold is_cont; lia).
    cbv zeta. rewrite C3. replace (0x800 <=? c) with true by lia. reflexivity. }
  destruct (c <? 0x110000) eqn:C5; [|discriminate].
  assert (b = [0xF0 + c / 262144; 0x80 + c / 4096 mod 64; 0x80 + c / 64 mod 64;
          0x80 + c mod 64]) as -> by congruence.
  clear E. split; [|intros x [<-|[<-|[<-|[<-|[]]]]]; lia].
  cbn [app utf8_decode].
  replace (0xF0 + c / 262144 <? 0x80) with false by lia.
  replace (0xF0 + c / 262144 <? 0xC2) with false by lia.
  replace (0xF0 + c / 262144 <? 0xE0) with false by lia.
  replace (0xF0 + c / 262144 <? 0xF0) with false by lia.
  replace ((0xF0 + c / 262144 - 0xF0) * 262144 + (0x80 + c / 4096 mod 64 - 0x80) * 4096
           + (0x80 + c / 64 mod 64 - 0x80) * 64 + (0x80 + c mod 64 - 0x80)) with c by lia.
  replace (is_cont (0x80 + c mod 64)) with true by (unfold is_cont; lia).
  replace (is_cont (0x80 + c / 64 mod 64)) with true by (unfold is_cont; lia).
  replace (is_cont (0x80 + c / 4096 mod 64)) with true by (unfold is_cont; lia).
  cbv zeta. rewrite C5. replace (0x10000 <=? c) with true by lia. reflexivity.
Qed.

Lemma utf8_round_trip s l :
  utf8_encode s = Some l -> utf8_decode l = Some s /\ (forall x, In x l -> x < 256).
Proof.
  revert l; induction s as [|c s IH]; cbn [utf8_encode]; intros l E.
  - injection E as <-. split; [reflexivity|easy].
  - destruct (utf8_char c) as [b|] eqn:Ec; [|discriminate].
    destruct (utf8_encode s) as [r|] eqn:Es; [|discriminate].
    injection E as <-. destruct (IH r eq_refl) as [D R].
    destruct (utf8_char_decode c b r Ec) as [D' R']. rewrite D', D. split; [reflexivity|].
    intros x I. apply in_app_or in I as [I|I]; auto.
Qed.

(** * Base64 *)

Lemma sextet_round_trip n : n < 64 -> char_sextet (sextet_char n) = Some n.
Proof.
  intros L. unfold sextet_char, char_sextet.
  destruct (n <? 26) eqn:E1; [|destruct (n <? 52) eqn:E2; [|destruct (n <? 62) eqn:E3; [|destruct (N.eqb_spec n 62)]]].
  - replace ((65 <=? 65 + n) && (65 + n <=? 90)) with true by lia. f_equal. lia.
  - replace ((65 <=? 71 + n) && (71 + n <=? 90)) with false by lia.
    replace ((97 <=? 71 + n) && (71 + n <=? 122)) with true by lia. f_equal. lia.
  - replace ((65 <=? n - 4) && (n - 4 <=? 90)) with false by lia.
    replace ((97 <=? n - 4) && (n - 4 <=? 122)) with false by lia.
    replace ((48 <=? n - 4) && (n - 4 <=? 57)) with true by lia. f_equal. lia.
  - subst n. reflexivity.
  - replace n with 63 by lia. reflexivity.
Qed.

Lemma sextet_not_space n : n < 64 -> is_space (sextet_char n) = false.
Proof.
  intros L. unfold sextet_char, is_space.
  repeat match goal with |- context [if ?c then _ else _] => destruct c eqn:? end; lia.
Qed.

Fixpoint sextets (l : bytes) : list N :=
  match l with
  | a :: b :: c :: l =>
      [a / 4; a mod 4 * 16 + b / 16; b mod 16 * 4 + c / 64; c mod 64] ++ sextets l
  | [a; b] => [a / 4; a mod 4 * 16 + b / 16; b mod 16 * 4]
  | [a] => [a / 4; a mod 4 * 16]
  | [] => []
  end.
Fixpoint padding (l : bytes) : text :=
  match l with
  | _ :: _ :: _ :: l => padding l
  | [_; _] => [61]
  | [_] => [61; 61]
  | [] => []
  end.

(** Induction in steps of three *)
Lemma by_threes (P : list N -> Prop) :
  P [] -> (forall a, P [a]) -> (forall a b, P [a; b]) ->
  (forall a b c l, P l -> P (a :: b :: c :: l)) -> forall l, P l.
Proof.
  intros H0 H1 H2 H3.
  fix F 1. intros [|a [|b [|c l]]]; [apply H0|apply H1|apply H2|]. apply H3, F.
Qed.

Lemma escape_sextets l : base64_escape l = map sextet_char (sextets l) ++ padding l.
Proof.
  induction l as [|a|a b|a b c l IH] using by_threes; try reflexivity.
  cbn [base64_escape sextets padding]. rewrite IH, map_app, <- app_assoc. reflexivity.
Qed.

Lemma sextets_small l :
  (forall x, In x l -> x < 256) -> forall n, In n (sextets l) -> n < 64.
Proof.
  induction l as [|a|a b|a b c l IH] using by_threes; intros H n I.
  - easy.
  - assert (a < 256) by (apply H; now left). cbn [sextets In] in I. intuition lia.
  - assert (a < 256) by (apply H; now left). assert (b < 256) by (apply H; cbn; tauto).
    cbn [sextets In] in I. intuition lia.
  - assert (a < 256) by (apply H; now left). assert (b < 256) by (apply H; cbn; tauto).
    assert (c < 256) by (apply H; cbn; tauto).
    cbn [sextets] in I. apply in_app_or in I as [I|I].
    + cbn [In] in I. intuition lia.
    + apply IH; [|assumption]. intros x Ix. apply H. cbn; tauto.
Qed.

Lemma join_round_trip l :
  (forall x, In x l -> x < 256) -> join_sextets (sextets l) = Some (l, length (padding l)).
Proof.
  induction l as [|a|a b|a b c l IH] using by_threes; intros H.
  - reflexivity.
  - assert (a < 256) by (apply H; now left). cbn [sextets join_sextets padding length].
    repeat f_equal. lia.
  - assert (a < 256) by (apply H; now left). assert (b < 256) by (apply H; cbn; tauto).
    cbn [sextets join_sextets padding length]. repeat f_equal; lia.
  - assert (a < 256) by (apply H; now left). assert (b < 256) by (apply H; cbn; tauto).
    assert (c < 256) by (apply H; cbn; tauto).
    cbn [sextets app join_sextets padding].
    rewrite IH by (intros x Ix; apply H; cbn; tauto).
    repeat f_equal; lia.
Qed.

Lemma read_sextets_map xs r :
  (forall n, In n xs -> n < 64) -> (forall c r', r = c :: r' -> char_sextet c = None) ->
  read_sextets (map sextet_char xs ++ r) = (xs, r).
Proof.
  intros H Hr. induction xs as [|n xs IH]; cbn [map app].
  - destruct r as [|c r']; [reflexivity|]. cbn [read_sextets]. now rewrite (Hr c r' eq_refl).
  - cbn [read_sextets]. rewrite sextet_round_trip by (apply H; now left).
    rewrite IH by (intros m I; apply H; now right). reflexivity.
Qed.

Lemma base64_round_trip l :
  (forall x, In x l -> x < 256) -> base64_unescape (base64_escape l) = Some l.
Proof.
  intros H. unfold base64_unescape. rewrite escape_sextets.
  pose proof (sextets_small l H) as Hs.
  assert (F : filter (fun c => negb (is_space c)) (map sextet_char (sextets l) ++ padding l)
              = map sextet_char (sextets l) ++ padding l).
  { rewrite filter_app. f_equal.
    - clear H. induction (sextets l) as [|n xs IH]; [reflexivity|]. cbn [map filter].
      rewrite sextet_not_space by (apply Hs; now left). cbn [negb]. f_equal.
      apply IH. intros m I. apply Hs. now right.
    - clear. induction l as [|a|a b|a b c l IH] using by_threes; try reflexivity. exact IH. }
  rewrite F.
  assert (P : padding l = [] \/ padding l = [61] \/ padding l = [61; 61]).
  { clear. induction l as [|a|a b|a b c l IH] using by_threes; cbn; tauto. }
  rewrite read_sextets_map.
  - cbn [fst snd]. rewrite join_round_trip by assumption.
    destruct P as [->|[->| ->]]; reflexivity.
  - assumption.
  - intros c r' E. destruct P as [P|[P|P]]; rewrite P in E; try discriminate;
      injection E as <- _; reflexivity.
Qed.

(** Which texts are decoded *)
Lemma read_sextets_split s :
  exists t, s = t ++ snd (read_sextets s) /\ Forall (fun c => char_sextet c <> None) t
    /\ length (fst (read_sextets s)) = length t
    /\ (forall c r, snd (read_sextets s) = c :: r -> char_sextet c = None).
Proof.
  induction s as [|c s IH]; cbn [read_sextets].
  - exists []. repeat split; auto. intros c r H. discriminate.
  - destruct (char_sextet c) as [n|] eqn:E.
    + destruct IH as (t & E1 & F & L & N). exists (c :: t). cbn [fst snd length app].
      repeat split; [now rewrite <- E1|constructor; [congruence|exact F]|now rewrite L|exact N].
    + exists []. cbn. repeat split; auto. intros d r H. congruence.
Qed.

Lemma read_sextets_of t r :
  Forall (fun c => char_sextet c <> None) t ->
  (forall c r', r = c :: r' -> char_sextet c = None) ->
  length (fst (read_sextets (t ++ r))) = length t /\ snd (read_sextets (t ++ r)) = r.
Proof.
  intros F Hr. induction F as [|c t Hc F IH]; cbn [app].
  - destruct r as [|c r']; [split; reflexivity|]. cbn [read_sextets].
    rewrite (Hr c r' eq_refl). split; reflexivity.
  - cbn [read_sextets]. destruct (char_sextet c); [|congruence]. cbn [fst snd length].
    destruct IH as [-> ->]. split; reflexivity.
Qed.

Lemma by_fours (P : list N -> Prop) :
  P [] -> (forall a, P [a]) -> (forall a b, P [a; b]) -> (forall a b c, P [a; b; c]) ->
  (forall a b c d l, P l -> P (a :: b :: c :: d :: l)) -> forall l, P l.
Proof.
  intros H0 H1 H2 H3 H4.
  fix F 1. intros [|a [|b [|c [|d l]]]]; [apply H0|apply H1|apply H2|apply H3|]. apply H4, F.
Qed.

Lemma join_sextets_padding l :
  match join_sextets l with
  | Some (_, k) => (k <= 2)%nat /\ ((length l + k) mod 4 = 0)%nat
  | None => (length l mod 4 = 1)%nat
  end.
Proof.
  induction l as [|a|a b|a b c|a b c d l IH] using by_fours; try (cbn; lia).
  cbn [join_sextets]. destruct (join_sextets l) as [[r k]|].
  - destruct IH as [K IH]. split; [exact K|].
    replace (length (a :: b :: c :: d :: l) + k)%nat with (length l + k + 1 * 4)%nat by (cbn; lia).
    now rewrite Nat.mod_add.
  - replace (length (a :: b :: c :: d :: l))%nat with (length l + 1 * 4)%nat by (cbn; lia).
    now rewrite Nat.mod_add.
Qed.

Lemma base64_texts s :
  base64_unescape s <> None <->
  exists t pads,
    filter (fun c => negb (is_space c)) s = t ++ pads
    /\ Forall (fun c => char_sextet c <> None) t /\ Forall (fun c => is_pad c = true) pads
    /\ (length t mod 4 <> 1)%nat
    /\ (pads = [] \/ (length pads <= 2 /\ (length t + length pads) mod 4 = 0)%nat).
Proof.
  unfold base64_unescape. set (u := filter _ s). clearbody u. split.
  - intros H. destruct (read_sextets_split u) as (t & E & F & L & _).
    pose proof (join_sextets_padding (fst (read_sextets u))) as J. rewrite L in J.
    destruct (join_sextets _) as [[r k]|]; [|congruence].
    destruct (forallb is_pad _ && _) eqn:B; [|congruence].
    apply andb_true_iff in B as [B1 B2].
    exists t, (snd (read_sextets u)). split; [exact E|]. split; [exact F|].
    split; [now apply Forall_forall, forallb_forall|].
    destruct J as [K J].
    assert (M : (length t mod 4 <> 1)%nat).
    { intros M. destruct k as [|[|[|k]]]; try lia;
        rewrite Nat.add_mod, M in J by lia; cbn in J; lia. }
    split; [exact M|]. apply orb_true_iff in B2 as [B2|B2]; apply Nat.eqb_eq in B2.
    + left. now destruct (snd (read_sextets u)).
    + right. rewrite B2. split; assumption.
  - intros (t & pads & -> & F & P & M & D).
    assert (R : forall c r', pads = c :: r' -> char_sextet c = None).
    { intros c r' ->. inversion P as [|? ? P1 _]; subst. unfold is_pad in P1.
      apply orb_true_iff in P1 as [P1|P1]; apply N.eqb_eq in P1; subst; reflexivity. }
    destruct (read_sextets_of t pads F R) as [L ->].
    pose proof (join_sextets_padding (fst (read_sextets (t ++ pads)))) as J. rewrite L in J.
    destruct (join_sextets _) as [[r k]|]; [|contradiction].
    assert (B1 : forallb is_pad pads = true) by (apply forallb_forall, Forall_forall; exact P).
    rewrite B1. destruct D as [->|[D1 D2]]; [cbn; discriminate|].
    destruct J as [K J]. replace (length pads =? k)%nat with true.
    + rewrite orb_true_r. discriminate.
    + symmetry. apply Nat.eqb_eq. clear - J D2 D1 K. revert J D2 D1 K.
      generalize (length t) (length pads). intros n p J E D K.
      pose proof (Nat.div_mod (n + k) 4). pose proof (Nat.div_mod (n + p) 4). lia.
Qed.

(** * Quotation marks *)

Lemma read_sextets_chars s c :
  In c s -> char_sextet c <> None \/ In c (snd (read_sextets s)).
Proof.
  induction s as [|d s IH]; [easy|]. cbn [read_sextets]. intros I.
  destruct (char_sextet d) eqn:E.
  - cbn [snd]. destruct I as [->|I]; [left; congruence|now apply IH].
  - now right.
Qed.

Lemma unescape_chars s l c :
  base64_unescape s = Some l -> In c s ->
  is_space c = true \/ char_sextet c <> None \/ is_pad c = true.
Proof.
  unfold base64_unescape.
  destruct (join_sextets _) as [[r k]|]; [|discriminate].
  destruct (forallb is_pad _) eqn:F; [|discriminate]. intros _ I.
  destruct (is_space c) eqn:Sp; [now left|right].
  destruct (read_sextets_chars (filter (fun c => negb (is_space c)) s) c) as [H|H].
  - apply filter_In. now rewrite Sp.
  - now left.
  - right. rewrite forallb_forall in F. now apply F.
Qed.

Lemma koda_codec_ok start continue : codec_ok (koda_lexicon start continue).
Proof.
  split; cbn [encode decode koda_lexicon].
  - intros s b E. unfold encode_name in E. unfold decode_name.
    destruct (utf8_encode s) as [l|] eqn:El; [|discriminate]. cbn in E. injection E as <-.
    destruct (utf8_round_trip s l El) as [D R].
    now rewrite base64_round_trip.
  - intros b s E. unfold decode_name in E.
    destruct (base64_unescape b) as [l|] eqn:El; [|discriminate].
    assert (Q : forall q, In q b -> q <> 34 /\ q <> 39).
    { intros q I. destruct (unescape_chars b l q El I) as [H|[H|H]].
      - unfold is_space in H. lia.
      - split; intros ->; now apply H.
      - unfold is_pad in H. lia. }
    split; intros I; now destruct (Q _ I).
Qed.

(** Every text of Unicode characters can be encoded. *)
Lemma encode_defined s :
  encode_name s <> None <->
  Forall (fun c => c < 0x110000 /\ ~ (0xD800 <= c <= 0xDFFF)) s.
Proof.
  unfold encode_name.
  assert (E : utf8_encode s <> None <->
              Forall (fun c => c < 0x110000 /\ ~ (0xD800 <= c <= 0xDFFF)) s).
  { induction s as [|c s IH]; cbn [utf8_encode]; [split; [constructor|discriminate]|].
    assert (C : utf8_char c <> None <-> c < 0x110000 /\ ~ (0xD800 <= c <= 0xDFFF)).
    { unfold utf8_char.
      destruct (c <? 0x80) eqn:?; [split; [lia|discriminate]|].
      destruct (c <? 0x800) eqn:?; [split; [lia|discriminate]|].
      destruct ((0xD800 <=? c) && (c <=? 0xDFFF)) eqn:?; [split; [congruence|lia]|].
      destruct (c <? 0x10000) eqn:?; [split; [lia|discriminate]|].
      destruct (c <? 0x110000) eqn:?; [split; [lia|discriminate]|].
      split; [congruence|lia]. }
    rewrite Forall_cons_iff, <- C, <- IH.
    destruct (utf8_char c), (utf8_encode s); intuition congruence. }
  rewrite <- E. destruct (utf8_encode s); cbn; intuition congruence.
Qed.
