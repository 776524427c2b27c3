(** Proofs about the text of data slice paths. *)
From Coq Require Import String.
From Coq Require Import NArith ZArith List Bool PeanoNat Lia ZifyBool ZifyN.
From Verif Require Import PathModel PathSpec.
Import ListNotations.
Local Open Scope list_scope.
Local Open Scope nat_scope.

Lemma text_eqb_eq a b : text_eqb a b = true <-> a = b.
Proof.
  revert b; induction a as [|x a IH]; intros [|y b]; cbn; try easy.
  rewrite andb_true_iff, N.eqb_eq, IH. split; [now intros [-> ->]|].
  intros E; split; congruence.
Qed.

Lemma text_eqb_refl a : text_eqb a a = true.
Proof. now apply text_eqb_eq. Qed.

Lemma strip_prefix_some p s r : strip_prefix p s = Some r <-> s = p ++ r.
Proof.
  revert s; induction p as [|x p IH]; intros [|y s]; cbn; try easy.
  - split; congruence.
  - split; congruence.
  - destruct (N.eqb_spec x y) as [->|n].
    + rewrite IH. split; congruence.
    + split; congruence.
Qed.

Lemma strip_prefix_app p r : strip_prefix p (p ++ r) = Some r.
Proof. now apply strip_prefix_some. Qed.

Lemma get_prefix_prefix before s : exists r, s = get_prefix before s ++ r.
Proof.
  induction s as [|c s [r E]]; cbn [get_prefix].
  - exists []. now destruct (strip_prefix before []).
  - destruct (strip_prefix before (c :: s)).
    + now exists (c :: s).
    + exists r. cbn. now rewrite <- E.
Qed.

Lemma get_prefix_skip before s :
  s = get_prefix before s ++ skipn (length (get_prefix before s)) s.
Proof.
  destruct (get_prefix_prefix before s) as [r E].
  remember (get_prefix before s) as g eqn:H. clear H. subst s.
  now rewrite skipn_app, skipn_all, Nat.sub_diag.
Qed.

(** Skipping characters that do not start the separator *)
Lemma get_prefix_app c before s t :
  ~ In c s -> get_prefix (c :: before) (s ++ t)
              = s ++ get_prefix (c :: before) t.
Proof.
  induction s as [|x s IH]; intros H; [reflexivity|].
  cbn [app get_prefix]. cbn [strip_prefix].
  destruct (N.eqb_spec c x) as [->|n]; [exfalso; apply H; now left|].
  rewrite IH; [reflexivity|]. intros I; apply H; now right.
Qed.

Lemma get_prefix_here before t : get_prefix before (before ++ t) = [].
Proof.
  destruct before as [|c before]; cbn [app get_prefix]; [now destruct t|].
  pose proof (strip_prefix_app (c :: before) t) as E. cbn [app] in E. now rewrite E.
Qed.

(** * Identifiers *)

Lemma identifier_chars lx s :
  isidentifier lx s = true -> forall c, In c s -> (c < 128)%N ->
  is_letter c = true \/ is_digit c = true.
Proof.
  destruct s as [|c0 s]; [easy|]. cbn [isidentifier].
  rewrite andb_true_iff, forallb_forall. intros [H0 H] c [ <- |I] L.
  - unfold starts_identifier in H0. replace (c0 <? 128)%N with true in H0 by lia. now left.
  - specialize (H c I). unfold continues_identifier in H.
    replace (c <? 128)%N with true in H by lia.
    now apply orb_true_iff in H.
Qed.

Lemma identifier_not lx s c :
  isidentifier lx s = true -> (c = 46 \/ c = 91 \/ c = 40)%N -> ~ In c s.
Proof.
  intros H Hc I. assert (L : (c < 128)%N) by (intuition lia).
  destruct (identifier_chars lx s H c I L) as [E|E];
    unfold is_letter, is_digit in E; intuition lia.
Qed.

(** * Texts after an action *)

Definition tail_ok (s : text) : Prop :=
  s = [] \/ (exists r, s = str "." ++ r) \/ (exists r, s = str "[:]" ++ r).

Lemma spelling_tail lx t a r : spells lx t a -> tail_ok (t ++ r).
Proof.
  intros H; right; destruct H.
  - left; now eexists.
  - left; now eexists.
  - right; now eexists.
  - left. rewrite <- app_assoc. now eexists.
  - left. cbn. now eexists.
Qed.

Lemma spellings_tail lx ts p :
  Forall2 (spells lx) ts p -> tail_ok (List.concat ts).
Proof.
  intros H; destruct H; [now left|]. cbn. now apply (spelling_tail lx x y).
Qed.

(** A keyword without dots and brackets at the front of an identifier and a
    tail is inside the identifier. *)
Lemma keyword_in_name k name rest r :
  (forall c, In c k -> c <> 46 /\ c <> 91)%N ->
  tail_ok rest -> name ++ rest = k ++ r -> exists r', name = k ++ r'.
Proof.
  revert k; induction name as [|x name IH]; intros k Hk Ht E.
  - destruct k as [|c k]; [now exists []|exfalso].
    cbn in E. destruct (Hk c (or_introl eq_refl)) as [n1 n2].
    destruct Ht as [ -> |[[r0 -> ]|[r0 -> ]]]; cbn in E; congruence.
  - destruct k as [|c k]; [now exists (x :: name)|].
    cbn in E. injection E as -> E.
    destruct (IH k) as [r' -> ]; auto.
    + intros c' I; apply Hk; now right.
    + now exists r'.
Qed.

Lemma keyword_not_name lx k name rest :
  isidentifier lx name = true -> tail_ok rest ->
  (forall c, In c k -> c <> 46 /\ c <> 91)%N -> In 40%N k ->
  strip_prefix (str "." ++ k) (str "." ++ name ++ rest) = None.
Proof.
  intros Hi Ht Hk Ho.
  destruct (strip_prefix _ _) as [r|] eqn:E; [exfalso|reflexivity].
  apply strip_prefix_some in E. cbn in E. injection E as E.
  destruct (keyword_in_name k name rest r Hk Ht E) as [r' -> ].
  apply (identifier_not lx (k ++ r') 40 Hi); [tauto|].
  apply in_or_app; now left.
Qed.

(** * Parsing one action *)

Lemma parse_dot_complete lx name rest :
  isidentifier lx name = true -> tail_ok rest ->
  parse_dot lx (str "." ++ name ++ rest) = Prefix (GetAttr name) rest.
Proof.
  intros Hi Ht. unfold parse_dot. rewrite strip_prefix_app.
  assert (D : ~ In 46%N name) by (apply (identifier_not lx); tauto).
  assert (B : ~ In 91%N name) by (apply (identifier_not lx); tauto).
  assert (N0 : name <> []) by (intros ->; discriminate Hi).
  change (str ".") with [46%N]. change (str "[:]") with [91%N; 58%N; 93%N].
  rewrite !get_prefix_app by assumption.
  assert (E : (if length (name ++ get_prefix [91%N; 58%N; 93%N] rest)
                  <? length (name ++ get_prefix [46%N] rest)
               then name ++ get_prefix [91%N; 58%N; 93%N] rest
               else name ++ get_prefix [46%N] rest) = name).
  { destruct Ht as [ -> |[[r -> ]|[r -> ]]].
    - cbn [get_prefix strip_prefix]. rewrite app_nil_r, Nat.ltb_irrefl. reflexivity.
    - change (str ".") with [46%N]. rewrite (get_prefix_here [46%N] r).
      rewrite app_nil_r, !app_length.
      destruct (Nat.ltb_spec (length name + length (get_prefix [91%N; 58%N; 93%N] ([46%N] ++ r))) (length name)); [lia|reflexivity].
    - change (str "[:]") with [91%N; 58%N; 93%N].
      rewrite (get_prefix_here [91%N; 58%N; 93%N] r), app_nil_r.
      change (get_prefix [46%N] ([91%N; 58%N; 93%N] ++ r))
        with (91%N :: get_prefix [46%N] ([58%N; 93%N] ++ r)).
      rewrite app_length. cbn [length].
      destruct (Nat.ltb_spec (length name) (length name + S (length (get_prefix [46%N] ([58%N; 93%N] ++ r))))); [reflexivity|lia]. }
  cbv zeta. set (nm := if _ <? _ then _ else _). assert (Enm : nm = name) by exact E.
  rewrite Enm. clear nm E Enm. destruct name as [|c name]; [now destruct N0|].
  rewrite Hi. cbn [negb]. f_equal.
  rewrite skipn_app, skipn_all, Nat.sub_diag. reflexivity.
Qed.

Lemma parse_get_attr_complete lx q b name rest :
  codec_ok lx -> (q = 34 \/ q = 39)%N -> decode lx b = Some name ->
  parse_get_attr lx ([q] ++ b ++ [q] ++ str ")" ++ rest)
  = Prefix (GetAttr name) rest.
Proof.
  intros [_ Hq] Q D. unfold parse_get_attr. cbn [app].
  replace (negb (N.eqb q 34 || N.eqb q 39)) with false by (intuition lia).
  destruct (Hq b name D) as [H34 H39].
  assert (G : get_prefix [q] (b ++ q :: str ")" ++ rest) = b).
  { rewrite get_prefix_app by (destruct Q as [ -> | -> ]; assumption).
    change (q :: str ")" ++ rest) with ([q] ++ (str ")" ++ rest)).
    rewrite (get_prefix_here [q]). apply app_nil_r. }
  cbv zeta. rewrite G, D, skipn_app, skipn_all, Nat.sub_diag.
  cbn [app skipn str]. cbn [strip_prefix]. rewrite N.eqb_refl. reflexivity.
Qed.

Lemma parse_prefix_complete lx t a rest :
  codec_ok lx -> spells lx t a -> tail_ok rest ->
  parse_prefix lx (t ++ rest) = Prefix a rest.
Proof.
  intros C H Ht. unfold parse_prefix, first_applicable.
  destruct H as [ | | |name Hi|q b name Q D].
  - unfold parse_keys. now rewrite strip_prefix_app.
  - reflexivity.
  - reflexivity.
  - rewrite <- app_assoc. unfold parse_keys, parse_values, parse_explode, parse_attr.
    change (str ".get_keys()") with (str "." ++ str "get_keys()").
    change (str ".get_values()") with (str "." ++ str "get_values()").
    change (str ".get_attr(") with (str "." ++ str "get_attr(").
    assert (K : forall k, (forall c, In c k -> c <> 46 /\ c <> 91)%N -> In 40%N k ->
                strip_prefix (str "." ++ k) (str "." ++ name ++ rest) = None)
      by (intros; now apply (keyword_not_name lx)).
    rewrite (K (str "get_keys()")), (K (str "get_values()")), (K (str "get_attr("));
      try (cbn; tauto); try (intros c I; cbn in I; intuition lia).
    replace (strip_prefix (str "[:]") (str "." ++ name ++ rest)) with (@None text) by reflexivity.
    rewrite parse_dot_complete by assumption. reflexivity.
  - replace ((str ".get_attr(" ++ [q] ++ b ++ [q] ++ str ")") ++ rest)
      with (str ".get_attr(" ++ ([q] ++ b ++ [q] ++ str ")" ++ rest))
      by (now rewrite <- !app_assoc).
    replace (parse_keys _) with NotApplicable by reflexivity.
    replace (parse_values _) with NotApplicable by reflexivity.
    replace (parse_explode _) with NotApplicable by reflexivity.
    unfold parse_attr. rewrite strip_prefix_app.
    now rewrite (parse_get_attr_complete lx q b name rest).
Qed.

Lemma parse_prefix_sound lx s a rest :
  parse_prefix lx s = Prefix a rest ->
  exists t, s = t ++ rest /\ spells lx t a.
Proof.
  unfold parse_prefix, first_applicable, parse_keys, parse_values, parse_explode.
  destruct (strip_prefix (str ".get_keys()") s) as [r|] eqn:E1.
  { intros E; injection E as <- <-. apply strip_prefix_some in E1.
    eexists; split; [exact E1|constructor]. }
  destruct (strip_prefix (str ".get_values()") s) as [r|] eqn:E2.
  { intros E; injection E as <- <-. apply strip_prefix_some in E2.
    eexists; split; [exact E2|constructor]. }
  destruct (strip_prefix (str "[:]") s) as [r|] eqn:E3.
  { intros E; injection E as <- <-. apply strip_prefix_some in E3.
    eexists; split; [exact E3|constructor]. }
  clear E1 E2 E3. unfold parse_attr.
  destruct (strip_prefix (str ".get_attr(") s) as [r|] eqn:E4.
  - apply strip_prefix_some in E4. subst s. unfold parse_get_attr.
    destruct r as [|q r]; [discriminate|].
    destruct (N.eqb q 34 || N.eqb q 39) eqn:Q; cbn [negb]; [|discriminate].
    set (b := get_prefix [q] r).
    destruct (decode lx b) as [name|] eqn:D; [|discriminate].
    destruct (strip_prefix [q; 41%N] (skipn (length b) r)) as [r'|] eqn:E5; [|discriminate].
    intros E. assert (Ea : a = GetAttr name /\ rest = r') by (split; congruence).
    destruct Ea as [-> ->].
    apply strip_prefix_some in E5.
    pose proof (get_prefix_skip [q] r) as G. fold b in G. rewrite E5 in G.
    exists (str ".get_attr(" ++ [q] ++ b ++ [q] ++ str ")"). split.
    + rewrite G. rewrite <- !app_assoc. reflexivity.
    + apply spell_quoted; [|exact D]. lia.
  - unfold parse_dot.
    destruct (strip_prefix (str ".") s) as [w|] eqn:E5; [|discriminate].
    apply strip_prefix_some in E5. subst s. cbv zeta.
    set (name := if _ <? _ then _ else _).
    assert (P : w = name ++ skipn (length name) w).
    { unfold name. destruct (_ <? _); apply get_prefix_skip. }
    clearbody name. destruct name as [|c name]; [discriminate|].
    destruct (isidentifier lx (c :: name)) eqn:Hi; cbn [negb]; [|discriminate].
    intros E. assert (Ea : a = GetAttr (c :: name) /\ rest = skipn (length (c :: name)) w)
      by (split; congruence). destruct Ea as [-> Er].
    exists (str "." ++ c :: name). split; [|now constructor].
    rewrite Er, <- app_assoc. f_equal. exact P.
Qed.

(** * Parsing texts *)

Lemma spelling_nonempty lx t a : spells lx t a -> 1 <= length t.
Proof. intros H; destruct H; cbn; lia. Qed.

Lemma parse_loop_complete lx (C : codec_ok lx) ts p :
  Forall2 (spells lx) ts p -> forall fuel acc,
  length (List.concat ts) <= fuel ->
  parse_loop lx fuel (List.concat ts) acc = Parsed (acc ++ p).
Proof.
  induction 1 as [|t a ts p H F IH]; intros fuel acc L.
  - cbn [List.concat]. rewrite app_nil_r. now destruct fuel.
  - cbn [List.concat] in *. rewrite app_length in L.
    pose proof (spelling_nonempty lx t a H) as L1.
    destruct fuel as [|fuel]; [lia|]. cbn [parse_loop].
    rewrite parse_prefix_complete with (a := a) by (auto; eapply spellings_tail; eassumption).
    destruct (t ++ List.concat ts) as [|c l] eqn:E.
    { destruct t; [cbn in L1; lia|discriminate]. }
    rewrite IH by lia. now rewrite <- app_assoc.
Qed.

Lemma parse_complete lx s p :
  codec_ok lx -> denotes lx s p -> parse_from_string lx s = Parsed p.
Proof.
  intros C [ts [F ->]]. unfold parse_from_string.
  now rewrite (parse_loop_complete lx C ts p F) by lia.
Qed.

Lemma parse_loop_sound lx fuel s acc p :
  parse_loop lx fuel s acc = Parsed p ->
  exists ts q, p = acc ++ q /\ Forall2 (spells lx) ts q /\ s = List.concat ts.
Proof.
  revert s acc; induction fuel as [|fuel IH]; intros s acc E; destruct s as [|c s].
  - cbn in E. injection E as <-. exists [], []. rewrite app_nil_r. repeat split. constructor.
  - discriminate E.
  - cbn in E. injection E as <-. exists [], []. rewrite app_nil_r. repeat split. constructor.
  - cbn [parse_loop] in E.
    destruct (parse_prefix lx (c :: s)) as [|e|a rest] eqn:P; try discriminate E.
    destruct (parse_prefix_sound lx _ _ _ P) as [t [Et Ht]].
    destruct (IH _ _ E) as [ts [q [-> [F ->]]]].
    exists (t :: ts), (a :: q). split; [now rewrite <- app_assoc|].
    split; [now constructor|]. exact Et.
Qed.

Lemma parse_sound lx s p : parse_from_string lx s = Parsed p -> denotes lx s p.
Proof.
  intros E. destruct (parse_loop_sound lx _ _ _ _ E) as [ts [q [-> [F Es]]]].
  now exists ts.
Qed.

Lemma parse_iff lx s p :
  codec_ok lx -> (parse_from_string lx s = Parsed p <-> denotes lx s p).
Proof. intros C; split; [apply parse_sound|now apply parse_complete]. Qed.

Lemma parse_loop_finishes lx fuel s acc :
  length s <= fuel -> parse_loop lx fuel s acc <> Unfinished.
Proof.
  revert s acc; induction fuel as [|fuel IH]; intros [|c s] acc L; cbn [parse_loop];
    try discriminate; [cbn in L; lia|].
  destruct (parse_prefix lx (c :: s)) as [|e|a rest] eqn:P; try discriminate.
  destruct (parse_prefix_sound lx _ _ _ P) as [t [Et Ht]].
  apply IH. pose proof (spelling_nonempty lx t a Ht).
  apply (f_equal (@length N)) in Et. rewrite app_length in Et. cbn [length] in *. lia.
Qed.

Lemma parse_finishes lx s : parse_from_string lx s <> Unfinished.
Proof. apply parse_loop_finishes. lia. Qed.

(** A text that is not accepted is refused with an error. *)
Lemma parse_error_iff lx s :
  codec_ok lx ->
  ((exists e, parse_from_string lx s = ParseError e) <-> (forall p, ~ denotes lx s p)).
Proof.
  intros C. split.
  - intros [e E] p H. apply parse_complete in H; [congruence|assumption].
  - intros H. destruct (parse_from_string lx s) as [p|e|] eqn:E.
    + exfalso. apply (H p). now apply parse_sound.
    + now exists e.
    + now destruct (parse_finishes lx s).
Qed.

(** * Printing *)

Lemma action_text_spells lx a t :
  codec_ok lx -> action_text lx a = Some t -> spells lx t a.
Proof.
  intros [C _]. destruct a as [| | |s]; cbn [action_text];
    try (intros E; injection E as <-; constructor).
  destruct (isidentifier lx s) eqn:Hi.
  - intros E. assert (t = str "." ++ s) as -> by congruence. now constructor.
  - destruct (encode lx s) as [b|] eqn:Eb; [|discriminate].
    intros E.
    assert (t = str ".get_attr(" ++ [34%N] ++ b ++ [34%N] ++ str ")") as ->
      by (injection E as <-; reflexivity).
    apply spell_quoted; [now left|]. now apply C.
Qed.

Lemma to_string_denotes lx p s :
  codec_ok lx -> to_string lx p = Some s -> denotes lx s p.
Proof.
  intros C. revert s; induction p as [|a p IH]; cbn [to_string]; intros s.
  - intros E; injection E as <-. exists []. split; [constructor|reflexivity].
  - destruct (action_text lx a) as [t|] eqn:Ea; [|discriminate].
    destruct (to_string lx p) as [r|] eqn:Ep; [|discriminate].
    intros E; injection E as <-. destruct (IH r eq_refl) as [ts [F ->]].
    exists (t :: ts). split; [|reflexivity]. constructor; [|assumption].
    now apply action_text_spells.
Qed.

Lemma round_trip lx p s :
  codec_ok lx -> to_string lx p = Some s -> parse_from_string lx s = Parsed p.
Proof. intros C E. apply parse_complete; [assumption|]. now apply to_string_denotes. Qed.

Lemma to_string_defined lx p :
  to_string lx p <> None <-> Forall (printable lx) p.
Proof.
  induction p as [|a p IH]; cbn [to_string].
  - split; [constructor|discriminate].
  - assert (A : action_text lx a <> None <-> printable lx a).
    { destruct a as [| | |s]; cbn; try (split; [trivial|discriminate]).
      destruct (isidentifier lx s) eqn:Hi.
      - split; [now left|discriminate].
      - destruct (encode lx s); split; try discriminate; try (intros _; right; discriminate).
        + intros H; now destruct H.
        + intros [H|H]; congruence. }
    split.
    + intros H. constructor.
      * apply A. destruct (action_text lx a); [discriminate|now destruct H].
      * apply IH. destruct (action_text lx a), (to_string lx p); try discriminate; now destruct H.
    + intros H. apply Forall_cons_iff in H as [H1 H2].
      apply A in H1. apply IH in H2.
      destruct (action_text lx a), (to_string lx p); try discriminate; congruence.
Qed.

Lemma to_string_injective lx p q s :
  codec_ok lx -> to_string lx p = Some s -> to_string lx q = Some s -> p = q.
Proof.
  intros C Ep Eq. apply (round_trip lx p s C) in Ep. apply (round_trip lx q s C) in Eq.
  congruence.
Qed.

Lemma denotes_unique lx s p q :
  codec_ok lx -> denotes lx s p -> denotes lx s q -> p = q.
Proof.
  intros C Hp Hq. apply (parse_complete lx s p C) in Hp. apply (parse_complete lx s q C) in Hq.
  congruence.
Qed.

Lemma to_string_app lx p q s t :
  to_string lx p = Some s -> to_string lx q = Some t ->
  to_string lx (concat_paths p q) = Some (s ++ t).
Proof.
  revert s; induction p as [|a p IH]; cbn [to_string concat_paths app]; intros s Ep Eq.
  - injection Ep as <-. exact Eq.
  - destruct (action_text lx a) as [u|]; [|discriminate].
    destruct (to_string lx p) as [r|] eqn:E; [|discriminate].
    injection Ep as <-. unfold concat_paths in IH. rewrite (IH r eq_refl Eq).
    now rewrite app_assoc.
Qed.

Lemma parse_app lx s t p q :
  codec_ok lx -> parse_from_string lx s = Parsed p -> parse_from_string lx t = Parsed q ->
  parse_from_string lx (s ++ t) = Parsed (concat_paths p q).
Proof.
  intros C Hp Hq. apply parse_sound in Hp as [ts [Fp ->]]. apply parse_sound in Hq as [us [Fq ->]].
  apply parse_complete; [assumption|]. exists (ts ++ us). split.
  - now apply Forall2_app.
  - now rewrite concat_app.
Qed.

Lemma evaluate_concat {Slice} (ev : action -> Slice -> option Slice) p q x :
  evaluate ev (concat_paths p q) x
  = match evaluate ev p x with Some y => evaluate ev q y | None => None end.
Proof.
  revert x; induction p as [|a p IH]; intros x; [reflexivity|].
  cbn. destruct (ev a x); [apply IH|reflexivity].
Qed.

Lemma evaluate_steps {Slice} (ev : action -> Slice -> option Slice) x :
  evaluate ev [] x = Some x
  /\ (forall a, evaluate ev [a] x = ev a x)
  /\ (forall p q, evaluate ev (concat_paths p q) x
                  = match evaluate ev p x with Some y => evaluate ev q y | None => None end).
Proof.
  split; [reflexivity|]. split; [intros a; cbn; now destruct (ev a x)|].
  intros p q. apply evaluate_concat.
Qed.

(** * ASCII identifiers *)

Definition members (l : text) (c : N) : bool := existsb (N.eqb c) l.

Lemma members_in l c : members l c = true <-> In c l.
Proof.
  unfold members. rewrite existsb_exists. split.
  - intros [x [I E]]. apply N.eqb_eq in E. now subst.
  - intros I. exists c. split; [assumption|apply N.eqb_refl].
Qed.

Lemma below_128 (P Q : N -> bool) :
  forallb (fun n => Bool.eqb (P (N.of_nat n)) (Q (N.of_nat n))) (seq 0 128) = true ->
  forall c, (c < 128)%N -> P c = Q c.
Proof.
  intros F c L. rewrite forallb_forall in F.
  specialize (F (N.to_nat c)). rewrite N2Nat.id in F. apply Bool.eqb_prop, F.
  apply in_seq. lia.
Qed.

Definition ascii_letters : text := str "ABCDEFGHIJKLMNOPQRSTUVWXYZabcdefghijklmnopqrstuvwxyz_".

Lemma ascii_start c : (c < 128)%N -> is_letter c = members ascii_letters c.
Proof. apply below_128. vm_compute. reflexivity. Qed.

Lemma ascii_continue c :
  (c < 128)%N -> is_letter c || is_digit c = members (ascii_letters ++ str "0123456789") c.
Proof. revert c. apply (below_128 (fun c => is_letter c || is_digit c)). vm_compute. reflexivity. Qed.

Lemma ascii_names lx c s :
  Forall (fun d => (d < 128)%N) (c :: s) ->
  let letters := str "ABCDEFGHIJKLMNOPQRSTUVWXYZabcdefghijklmnopqrstuvwxyz_" in
  let plain := In c letters /\ Forall (fun d => In d (letters ++ str "0123456789")) s in
  (plain -> action_text lx (GetAttr (c :: s)) = Some (str "." ++ c :: s))
  /\ (~ plain -> action_text lx (GetAttr (c :: s))
                = match encode lx (c :: s) with
                  | Some b => Some (str ".get_attr(" ++ [34%N] ++ b ++ [34%N; 41%N])
                  | None => None
                  end).
Proof.
  intros F letters plain. inversion F as [|? ? Lc Fs]; subst.
  assert (E : isidentifier lx (c :: s) = true <-> plain).
  { unfold plain, letters. fold ascii_letters. cbn [isidentifier]. unfold starts_identifier.
    replace (c <? 128)%N with true by lia.
    rewrite andb_true_iff, ascii_start, members_in by assumption.
    assert (forallb (continues_identifier lx) s = true <->
            Forall (fun d => In d (ascii_letters ++ str "0123456789")) s) as ->; [|reflexivity].
    clear -Fs. induction Fs as [|d s Ld Fs IH]; [now split|].
    cbn [forallb]. rewrite andb_true_iff, IH, Forall_cons_iff.
    unfold continues_identifier. replace (d <? 128)%N with true by lia.
    now rewrite ascii_continue, members_in by assumption. }
  cbn [action_text]. destruct (isidentifier lx (c :: s)); split; intros P.
  - reflexivity.
  - exfalso. now apply P, E.
  - apply E in P. discriminate.
  - reflexivity.
Qed.
