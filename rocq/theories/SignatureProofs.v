(** Proofs about signatures and the binding of arguments. *)
From Coq Require Import String List Bool Arith Lia Sorted RelationClasses Permutation.
From Verif Require Import SignatureModel SignatureSpec.
Import ListNotations.
Local Open Scope nat_scope.
Local Open Scope list_scope.

Lemma kind_eqb_eq a b : kind_eqb a b = true <-> a = b.
Proof. unfold kind_eqb. rewrite Nat.eqb_eq. destruct a, b; cbn; split; intro H; try reflexivity; discriminate. Qed.
Lemma before_iff a b :
  before a b <-> kind_rank a <= kind_rank b /\ (a = b -> variadic a = false).
Proof.
  split.
  - unfold before. intros H. repeat destruct H as [H|H]; try contradiction; injection H as <- <-; split; cbn; auto; try lia; discriminate.
  - intros [H1 H2]. unfold before. destruct a, b; cbn in H1; try lia; cbn; auto 20;
    specialize (H2 eq_refl); discriminate.
Qed.
Lemma before_trans a b c : before a b -> before b c -> before a c.
Proof.
  rewrite !before_iff. intros [A B] [C D]. split; [lia|]. intros ->.
  assert (E : kind_rank c = kind_rank b) by lia.
  assert (c = b) by (destruct b, c; cbn in E; congruence). subst. auto.
Qed.

Section Proofs.
Variable V : Type.
Local Notation param := (param V).

Lemma positional_iff (p : param) : positional (p_kind p) = true <-> by_position p.
Proof. unfold positional, by_position. rewrite orb_true_iff, !kind_eqb_eq. reflexivity. Qed.
Lemma keyword_iff (p : param) : keyword (p_kind p) = true <-> by_keyword p.
Proof. unfold keyword, by_keyword. rewrite orb_true_iff, !kind_eqb_eq. tauto. Qed.
Lemma variadic_iff (p : param) : variadic (p_kind p) = true <-> takes_rest p.
Proof. unfold variadic, takes_rest. rewrite orb_true_iff, !kind_eqb_eq. reflexivity. Qed.

(** ** Signature::Create *)

Definition single_ok (p : param) : Prop :=
  forall rank d, p_default p = Some (rank, d) -> ~ takes_rest p /\ rank = 0.

Lemma check_single_iff (l : list param) names :
  check_single names l = None <->
  NoDup (map p_name l) /\ (forall p, In p l -> ~ In (p_name p) names) /\ (forall p, In p l -> single_ok p).
Proof.
  revert names. induction l as [|p l IH]; intros names; cbn [check_single map].
  - split; [intros _|reflexivity]. split; [constructor|]. split; intros q [].
  - assert (EX : existsb (String.eqb (p_name p)) names = true <-> In (p_name p) names).
    { rewrite existsb_exists. split.
      - intros (x & I & E). apply String.eqb_eq in E. subst. exact I.
      - intros I. exists (p_name p). split; [exact I|apply String.eqb_refl]. }
    destruct (existsb _ names) eqn:E.
    { split; [discriminate|]. intros (_ & H & _). exfalso. apply (H p (or_introl eq_refl)). apply EX. reflexivity. }
    assert (NI : ~ In (p_name p) names) by (rewrite <- EX; discriminate).
    assert (R : single_ok p -> (check_single (p_name p :: names) l = None <->
       NoDup (p_name p :: map p_name l) /\ (forall q, In q (p :: l) -> ~ In (p_name q) names)
       /\ (forall q, In q (p :: l) -> single_ok q))).
    { intros SO. rewrite IH. split.
      - intros (A & B & C). split; [|split].
        + constructor; [|exact A]. intros I. apply in_map_iff in I. destruct I as (q & Q & I).
          apply (B q I). left. auto.
        + intros q [<-|I]; [exact NI|]. intros I'. apply (B q I). right. exact I'.
        + intros q [<-|I]; auto.
      - intros (A & B & C). inversion A as [|? ? A1 A2]; subst. split; [exact A2|]. split.
        + intros q I [Q|Q]; [|apply (B q (or_intror I) Q)]. apply A1. rewrite Q. apply List.in_map. exact I.
        + intros q I. apply C. right. exact I. }
    destruct (p_default p) as [[rank d]|] eqn:D.
    + destruct (variadic (p_kind p)) eqn:VA.
      { split; [discriminate|]. intros (_ & _ & H). exfalso.
        destruct (H p (or_introl eq_refl) _ _ D) as [H1 _]. apply H1. apply variadic_iff. exact VA. }
      destruct (Nat.eqb_spec rank 0) as [Z|Z]; cbn [negb].
      * apply R. intros r d' D'. rewrite D in D'. injection D' as <- <-. split; [|exact Z].
        rewrite <- variadic_iff. rewrite VA. discriminate.
      * split; [discriminate|]. intros (_ & _ & H). exfalso.
        destruct (H p (or_introl eq_refl) _ _ D) as [_ H1]. contradiction.
    + apply R. intros r d' D'. rewrite D in D'. discriminate.
Qed.

Definition follows (p q : param) : Prop :=
  before (p_kind p) (p_kind q) /\ (by_position q -> p_default p <> None -> p_default q <> None).

Lemma has_default_iff (p : param) : has_default p = true <-> p_default p <> None.
Proof. unfold has_default. destruct (p_default p); split; congruence. Qed.
Lemma has_default_false (p : param) : has_default p = false <-> p_default p = None.
Proof. unfold has_default. destruct (p_default p); split; congruence. Qed.

Lemma check_pair_iff (p q : param) : check_pair p q = None <-> follows p q.
Proof.
  unfold check_pair, follows. rewrite before_iff.
  destruct (Nat.ltb_spec (kind_rank (p_kind q)) (kind_rank (p_kind p))) as [L|L].
  { split; [discriminate|]. intros [[H _] _]. lia. }
  destruct (kind_eqb (p_kind p) (p_kind q) && variadic (p_kind p)) eqn:E.
  { split; [discriminate|]. intros [[_ H] _]. apply andb_true_iff in E. destruct E as [E1 E2].
    apply kind_eqb_eq in E1. rewrite (H E1) in E2. discriminate. }
  assert (B : kind_rank (p_kind p) <= kind_rank (p_kind q) /\ (p_kind p = p_kind q -> variadic (p_kind p) = false)).
  { split; [exact L|]. intros Q. apply andb_false_iff in E. destruct E as [E|E]; [|exact E].
    apply kind_eqb_eq in Q. congruence. }
  destruct (positional (p_kind q) && negb (has_default q) && has_default p) eqn:F.
  - split; [discriminate|]. intros [_ H]. rewrite !andb_true_iff, negb_true_iff in F.
    destruct F as [[F1 F2] F3]. apply positional_iff in F1. apply has_default_iff in F3.
    apply has_default_false in F2. exfalso. exact (H F1 F3 F2).
  - split; [|reflexivity]. intros _. split; [exact B|]. intros P D N.
    apply positional_iff in P. apply has_default_iff in D. apply has_default_false in N.
    rewrite P, D, N in F. discriminate.
Qed.

Lemma check_pairs_iff (l : list param) : check_pairs l = None <-> Sorted follows l.
Proof.
  induction l as [|p l IH]; [split; [constructor|reflexivity]|].
  destruct l as [|q l].
  - split; [intros _; constructor; constructor|reflexivity].
  - change (check_pairs (p :: q :: l)) with (match check_pair p q with Some e => Some e | None => check_pairs (q :: l) end).
    destruct (check_pair p q) as [e|] eqn:E.
    + split; [discriminate|]. intros S. inversion S as [|? ? S1 S2]; subst. inversion S2; subst.
      assert (check_pair p q = None) by (apply check_pair_iff; assumption). congruence.
    + rewrite IH. apply check_pair_iff in E. split.
      * intros S. constructor; [exact S|]. constructor. exact E.
      * intros S. inversion S; assumption.
Qed.

Lemma follows_trans : Transitive follows.
Proof.
  intros p q r [A B] [C D]. split; [eapply before_trans; eassumption|]. intros R P.
  apply D; [exact R|]. apply B; [|exact P].
  apply before_iff in C. destruct C as [C _]. destruct R as [R|R]; rewrite R in C; cbn in C;
    unfold by_position; destruct (p_kind q); cbn in C; auto; lia.
Qed.

Lemma sorted_at (l : list param) :
  StronglySorted follows l <-> (forall i j p q, i < j -> at_ l i p -> at_ l j q -> follows p q).
Proof.
  unfold at_. induction l as [|x l IH].
  - split; [|constructor]. intros _ i j p q _ A. destruct i; discriminate.
  - split.
    + intros S. inversion S as [|? ? S1 S2]; subst. intros i j p q L A B. destruct j as [|j]; [lia|].
      destruct i as [|i].
      * cbn in A, B. injection A as <-. rewrite Forall_forall in S2. apply S2. eapply nth_error_In; eassumption.
      * cbn in A, B. apply (proj1 IH S1 i j); auto. lia.
    + intros H. constructor.
      * apply IH. intros i j p q L A B. apply (H (S i) (S j)); auto. lia.
      * rewrite Forall_forall. intros y I. apply In_nth_error in I. destruct I as [n I].
        apply (H 0 (S n)); auto. lia.
Qed.

Theorem create_signature_iff (ps : list param) s :
  create_signature ps = Good s <-> valid_parameters ps /\ s = mkSig ps (keyword_index 0 ps).
Proof.
  unfold create_signature, valid_parameters.
  pose proof (check_single_iff ps []) as S1. pose proof (check_pairs_iff ps) as S2.
  pose proof (sorted_at ps) as S3.
  assert (S4 : Sorted follows ps <-> StronglySorted follows ps).
  { split; [apply Sorted_StronglySorted; exact follows_trans|apply StronglySorted_Sorted]. }
  assert (EQ : (check_single [] ps = None /\ check_pairs ps = None) <->
     (NoDup (map p_name ps)
  /\ (forall i j p q, i < j -> at_ ps i p -> at_ ps j q -> before (p_kind p) (p_kind q))
  /\ (forall i j p q, i < j -> at_ ps i p -> at_ ps j q -> by_position q ->
      p_default p <> None -> p_default q <> None)
  /\ (forall p rank d, In p ps -> p_default p = Some (rank, d) -> ~ takes_rest p /\ rank = 0))).
  { rewrite S1, S2, S4, S3. split.
    - intros ((A & _ & B) & C). split; [exact A|]. split; [intros i j p q L P Q; apply (C i j p q L P Q)|].
      split; [intros i j p q L P Q; apply (C i j p q L P Q)|]. intros p r d I. apply (B p I).
    - intros (A & B & C & D). split; [split; [exact A|]; split; [intros p _ []|]|].
      + intros p I r d. apply (D p r d I).
      + intros i j p q L P Q. split; [eapply B; eassumption|eapply C; eassumption]. }
  destruct (check_single [] ps) as [e|] eqn:E1.
  { split; [discriminate|]. intros [H _]. apply EQ in H. destruct H. discriminate. }
  destruct (check_pairs ps) as [e|] eqn:E2.
  { split; [discriminate|]. intros [H _]. apply EQ in H. destruct H. discriminate. }
  split.
  - intros H. injection H as <-. split; [apply EQ; auto|reflexivity].
  - intros [_ ->]. reflexivity.
Qed.

Lemma valid_sorted (ps : list param) : valid_parameters ps -> StronglySorted follows ps.
Proof.
  intros (A & B & C & D). apply sorted_at. intros i j p q L P Q.
  split; [eapply B; eassumption|eapply C; eassumption].
Qed.

(** ** Binding: the loops *)

Lemma set_nth_length {A} n (x : A) l : length (set_nth n x l) = length l.
Proof. revert n. induction l as [|y l IH]; intros [|n]; cbn; auto. Qed.
Lemma nth_set_nth {A} n m (x d : A) l : n < length l -> nth m (set_nth n x l) d = if m =? n then x else nth m l d.
Proof.
  revert n m. induction l as [|y l IH]; intros [|n] m L; cbn in L; try lia.
  - destruct m; reflexivity.
  - destruct m as [|m]; [reflexivity|]. cbn [set_nth nth Nat.eqb]. apply IH. lia.
Qed.

Lemma positions_at (ps : list param) i p : StronglySorted follows ps -> nth_error ps i = Some p ->
  (by_position p <-> i < positions ps).
Proof.
  revert i. induction ps as [|x ps IH]; intros i S A; [destruct i; discriminate|].
  inversion S as [|? ? S1 S2]; subst.
  assert (NP : ~ by_position x -> positions ps = 0).
  { intros N. unfold positions. rewrite Forall_forall in S2.
    enough (F : forall l, incl l ps -> filter (fun p0 : param => match p_kind p0 with PositionalOnly | PositionalOrKeyword => true | _ => false end) l = []).
    { rewrite F; [reflexivity|intros y I; exact I]. }
    induction l as [|y l IHl]; intros I; [reflexivity|]. cbn [filter].
    destruct (S2 y (I y (or_introl eq_refl))) as [B _]. apply before_iff in B. destruct B as [B _].
    assert (NY : ~ by_position y).
    { intros Y. apply N. unfold by_position in *. destruct Y as [Y|Y]; rewrite Y in B; destruct (p_kind x); cbn in B; auto; lia. }
    unfold by_position in NY.
    assert (R : filter (fun p0 : param => match p_kind p0 with PositionalOnly | PositionalOrKeyword => true | _ => false end) l = []).
    { apply IHl. intros z Iz. apply I. right. exact Iz. }
    destruct (p_kind y); try exact R; exfalso; auto. }
  assert (P : positions (x :: ps) = (if positional (p_kind x) then Datatypes.S (positions ps) else positions ps)).
  { unfold positions. cbn [filter]. destruct (p_kind x); reflexivity. }
  rewrite P. destruct i as [|i]; cbn in A.
  - injection A as <-. destruct (positional (p_kind x)) eqn:E.
    + apply positional_iff in E. split; [lia|auto].
    + assert (N : ~ by_position x) by (rewrite <- positional_iff, E; discriminate).
      rewrite (NP N). split; [intros; contradiction|lia].
  - rewrite (IH i S1 A). destruct (positional (p_kind x)) eqn:E; [lia|].
    assert (N : ~ by_position x) by (rewrite <- positional_iff, E; discriminate).
    rewrite (NP N). lia.
Qed.
Lemma positions_le (ps : list param) : positions ps <= length ps.
Proof. unfold positions. induction ps as [|x ps IH]; cbn; [lia|]. destruct (p_kind x); cbn; lia. Qed.

Lemma positional_at (ps : list param) i : StronglySorted follows ps ->
  (match nth_error ps i with Some p => positional (p_kind p) | None => false end) = (i <? positions ps).
Proof.
  intros S. destruct (nth_error ps i) as [p|] eqn:E.
  - destruct (Nat.ltb_spec i (positions ps)) as [L|L].
    + apply positional_iff. apply (positions_at ps i p S E). exact L.
    + destruct (positional (p_kind p)) eqn:Q; [|reflexivity]. apply positional_iff in Q.
      apply (positions_at ps i p S E) in Q. lia.
  - apply nth_error_None in E. symmetry. apply Nat.ltb_ge. pose proof (positions_le ps). lia.
Qed.

Lemma bind_positional_spec (ps : list param) : StronglySorted follows ps ->
  forall args i b u, length b = length ps ->
  let r := bind_positional ps i args b u in
  length (fst r) = length ps
  /\ (forall j, nth j (fst r) None =
       if (i <=? j) && (j <? i + length args) && (j <? positions ps)
       then match nth_error args (j - i) with Some v => Some (Plain v) | None => None end
       else nth j b None)
  /\ snd r = u ++ skipn (positions ps - i) args.
Proof.
  intros S. induction args as [|a args IH]; intros i b u L r; cbn [bind_positional] in r; subst r.
  - cbn [fst snd length]. split; [exact L|]. split.
    + intros j. destruct (Nat.leb_spec i j), (Nat.ltb_spec j (i + 0)); cbn [andb]; try reflexivity; lia.
    + rewrite skipn_nil, app_nil_r. reflexivity.
  - rewrite (positional_at ps i S). destruct (Nat.ltb_spec i (positions ps)) as [P|P].
    + pose proof (positions_le ps) as PL.
      destruct (IH (Datatypes.S i) (set_nth i (Some (Plain a)) b) u ltac:(rewrite set_nth_length; exact L)) as (A & B & C).
      split; [exact A|]. split.
      * intros j. rewrite B. rewrite nth_set_nth by lia. cbn [length].
        destruct (Nat.eqb_spec j i) as [->|N].
        -- replace (Datatypes.S i <=? i) with false by (symmetry; apply Nat.leb_gt; lia). cbn [andb].
           rewrite Nat.leb_refl. replace (i <? i + Datatypes.S (length args)) with true by (symmetry; apply Nat.ltb_lt; lia).
           replace (i <? positions ps) with true by (symmetry; apply Nat.ltb_lt; lia). cbn [andb].
           rewrite Nat.sub_diag. reflexivity.
        -- destruct (Nat.leb_spec (Datatypes.S i) j), (Nat.leb_spec i j), (Nat.ltb_spec j (Datatypes.S i + length args)),
             (Nat.ltb_spec j (i + Datatypes.S (length args))); cbn [andb]; try lia; try reflexivity.
           replace (j - i) with (Datatypes.S (j - Datatypes.S i)) by lia. reflexivity.
      * rewrite C. replace (positions ps - i) with (Datatypes.S (positions ps - Datatypes.S i)) by lia. reflexivity.
    + destruct (IH (Datatypes.S i) b (u ++ [a]) L) as (A & B & C).
      split; [exact A|]. split.
      * intros j. rewrite B. destruct (Nat.ltb_spec j (positions ps)).
        -- destruct (Nat.leb_spec (Datatypes.S i) j), (Nat.leb_spec i j); cbn [andb]; try lia; reflexivity.
        -- rewrite !andb_false_r. reflexivity.
      * rewrite C. rewrite <- app_assoc. replace (positions ps - i) with 0 by lia.
        replace (positions ps - Datatypes.S i) with 0 by lia. reflexivity.
Qed.

Lemma keyword_index_spec (ps : list param) : NoDup (map p_name ps) ->
  forall k n i, find_index n (keyword_index k ps) = Some i <->
    exists p, k <= i /\ nth_error ps (i - k) = Some p /\ by_keyword p /\ p_name p = n.
Proof.
  induction ps as [|x ps IH]; intros ND k n i; cbn [keyword_index].
  - cbn. split; [discriminate|]. intros (p & _ & A & _). destruct (i - k); discriminate.
  - inversion ND as [|? ? N1 N2]; subst.
    assert (T : (exists p, Datatypes.S k <= i /\ nth_error ps (i - Datatypes.S k) = Some p /\ by_keyword p /\ p_name p = n) ->
                exists p, k <= i /\ nth_error (x :: ps) (i - k) = Some p /\ by_keyword p /\ p_name p = n).
    { intros (p & A & B & C). exists p. split; [lia|]. replace (i - k) with (Datatypes.S (i - Datatypes.S k)) by lia.
      split; [exact B|exact C]. }
    destruct (keyword (p_kind x)) eqn:K; cbn [find_index].
    + destruct (String.eqb_spec n (p_name x)) as [E|E].
      * split.
        -- intros H. injection H as <-. exists x. split; [lia|]. rewrite Nat.sub_diag. split; [reflexivity|].
           split; [apply keyword_iff; exact K|auto].
        -- intros (p & A & B & C & D). destruct (i - k) as [|m] eqn:M; [f_equal; lia|].
           exfalso. apply N1. cbn in B. rewrite <- E, <- D. apply List.in_map. eapply nth_error_In; eassumption.
      * rewrite (IH N2). split; [exact T|].
        intros (p & A & B & C & D). destruct (i - k) as [|m] eqn:M.
        -- cbn in B. injection B as <-. congruence.
        -- exists p. split; [lia|]. replace (i - Datatypes.S k) with m by lia. auto.
    + rewrite (IH N2). split; [exact T|].
      intros (p & A & B & C & D). destruct (i - k) as [|m] eqn:M.
      * cbn in B. injection B as <-. apply keyword_iff in C. congruence.
      * exists p. split; [lia|]. replace (i - Datatypes.S k) with m by lia. auto.
Qed.

Definition is_known (idx : list (string * nat)) (x : string * V) : bool :=
  match find_index (fst x) idx with Some _ => true | None => false end.

Lemma bind_keywords_good idx kw : forall b u b' u',
  (forall n i, find_index n idx = Some i -> i < length b) ->
  bind_keywords idx kw b u = Good (b', u') ->
  length b' = length b
  /\ u' = u ++ filter (fun x => negb (is_known idx x)) kw
  /\ NoDup (map fst (filter (is_known idx) kw))
  /\ (forall n v i, In (n, v) kw -> find_index n idx = Some i -> nth i b None = None /\ nth i b' None = Some (Plain v))
  /\ (forall i, (forall n, In n (map fst kw) -> find_index n idx <> Some i) -> nth i b' None = nth i b None).
Proof.
  induction kw as [|[n v] kw IH]; intros b u b' u' B H; cbn [bind_keywords] in H.
  - injection H as <- <-. split; [reflexivity|]. split; [symmetry; apply app_nil_r|]. split; [constructor|].
    split; [intros ? ? ? []|reflexivity].
  - cbn [filter].
    assert (KN : is_known idx (n, v) = match find_index n idx with Some _ => true | None => false end) by reflexivity.
    rewrite KN. cbn [map fst]. clear KN.
    destruct (find_index n idx) as [i|] eqn:F.
    + destruct (nth i b None) as [x|] eqn:N; [discriminate|].
      assert (BI : i < length b) by (apply (B n); exact F).
      destruct (IH _ _ _ _ ltac:(rewrite set_nth_length; exact B) H) as (L & U & ND & W & K).
      assert (NK : ~ In n (map fst kw)).
      { intros I. apply in_map_iff in I. destruct I as ([m w] & M & I). cbn in M. subst m.
        destruct (W _ _ _ I F) as [W1 _]. rewrite nth_set_nth in W1 by exact BI. rewrite Nat.eqb_refl in W1. discriminate. }
      rewrite set_nth_length in L. cbn [negb]. split; [exact L|]. split; [exact U|]. split; [|split].
      * cbn [map fst]. constructor; [|exact ND]. intros I. apply NK.
        apply in_map_iff in I. destruct I as (y & Y & I). apply filter_In in I. rewrite <- Y. apply List.in_map. apply I.
      * intros m w j [E|I] F'.
        -- injection E as <- <-. rewrite F in F'. injection F' as <-. split; [exact N|].
           assert (J : forall m, In m (map fst kw) -> find_index m idx <> Some i).
           { intros m I E. apply in_map_iff in I. destruct I as ([m' w'] & M & I). cbn in M. subst m'.
             destruct (W _ _ _ I E) as [W1 _]. rewrite nth_set_nth in W1 by exact BI. rewrite Nat.eqb_refl in W1. discriminate. }
           rewrite (K i J). rewrite nth_set_nth by exact BI. rewrite Nat.eqb_refl. reflexivity.
        -- destruct (W _ _ _ I F') as [W1 W2]. split; [|exact W2]. rewrite nth_set_nth in W1 by exact BI.
           destruct (j =? i); [discriminate|exact W1].
      * intros j J. rewrite K.
        -- rewrite nth_set_nth by exact BI. destruct (Nat.eqb_spec j i) as [->|_]; [|reflexivity].
           exfalso. apply (J n); [left; reflexivity|exact F].
        -- intros m I. apply J. right. exact I.
    + destruct (IH _ _ _ _ B H) as (L & U & ND & W & K). cbn [negb]. split; [exact L|].
      split; [rewrite U, <- app_assoc; reflexivity|]. split; [exact ND|]. split.
      * intros m w j [E|I] F'; [injection E as <- <-; congruence|]. apply (W _ _ _ I F').
      * intros j J. apply K. intros m I. apply J. right. exact I.
Qed.

Lemma bind_keywords_exists idx kw : forall b u,
  (forall n i, find_index n idx = Some i -> i < length b) ->
  (forall n m i, find_index n idx = Some i -> find_index m idx = Some i -> n = m) ->
  NoDup (map fst (filter (is_known idx) kw)) ->
  (forall n i, In n (map fst kw) -> find_index n idx = Some i -> nth i b None = None) ->
  exists b' u', bind_keywords idx kw b u = Good (b', u').
Proof.
  induction kw as [|[n v] kw IH]; intros b u B INJ ND H; cbn [bind_keywords].
  - eauto.
  - cbn [filter] in ND. unfold is_known at 1 in ND. cbn [fst] in ND.
    destruct (find_index n idx) as [i|] eqn:F.
    + rewrite (H n i (or_introl eq_refl) F). cbn [map fst] in ND. inversion ND as [|? ? N1 N2]; subst.
      assert (BI : i < length b) by (apply (B n); exact F).
      apply IH; auto; [rewrite set_nth_length; exact B|].
      intros m j I F'. rewrite nth_set_nth by exact BI.
      destruct (Nat.eqb_spec j i) as [->|_]; [|apply (H m j); [right; exact I|exact F']].
      exfalso. apply N1. rewrite (INJ _ _ _ F F'). apply in_map_iff in I. destruct I as (y & Y & I).
      rewrite <- Y. apply List.in_map. apply filter_In. split; [exact I|].
      unfold is_known. rewrite Y, F'. reflexivity.
    + apply IH; auto. intros m j I. apply H. right. exact I.
Qed.

Lemma duplicate_field_none (l : list (string * V)) : duplicate_field l = None <-> NoDup (map fst l).
Proof.
  induction l as [|[n v] l IH]; cbn [duplicate_field map fst].
  - split; [constructor|reflexivity].
  - destruct (existsb (fun m => String.eqb n (fst m)) l) eqn:E.
    + split; [discriminate|]. intros ND. inversion ND as [|? ? N1 N2]; subst. exfalso. apply N1.
      apply existsb_exists in E. destruct E as (x & I & E). apply String.eqb_eq in E. rewrite E. apply List.in_map. exact I.
    + rewrite IH. split; [|intros ND; inversion ND; assumption]. intros ND. constructor; [|exact ND].
      intros I. apply in_map_iff in I. destruct I as (x & X & I).
      assert (existsb (fun m => String.eqb n (fst m)) l = true); [|congruence].
      apply existsb_exists. exists x. split; [exact I|]. rewrite X. apply String.eqb_refl.
Qed.

Definition is_kind (k : kind) (p : param) : bool := kind_eqb (p_kind p) k.

Lemma no_second (k : kind) (p : param) (l : list param) : variadic k = true -> p_kind p = k ->
  Forall (follows p) l -> existsb (is_kind k) l = false.
Proof.
  intros VK E F. destruct (existsb _ l) eqn:X; [|reflexivity]. apply existsb_exists in X.
  destruct X as (q & I & Q). apply kind_eqb_eq in Q. rewrite Forall_forall in F. destruct (F q I) as [B _].
  apply before_iff in B. destruct B as [_ B]. rewrite E, Q in B. rewrite (B eq_refl) in VK. discriminate.
Qed.

Lemma bind_variadic_spec (ps : list param) : StronglySorted follows ps ->
  forall i b args kw, i + length ps <= length b ->
  match bind_variadic ps i b args kw with
  | Good (b', args', kw') =>
      (existsb (is_kind VarKeyword) ps = true -> NoDup (map fst kw))
      /\ length b' = length b
      /\ args' = (if existsb (is_kind VarPositional) ps then [] else args)
      /\ kw' = (if existsb (is_kind VarKeyword) ps then [] else kw)
      /\ (forall j, j < i -> nth j b' None = nth j b None)
      /\ (forall j p, nth_error ps j = Some p ->
            nth (i + j) b' None = match p_kind p with
                                  | VarPositional => Some (Tuple args)
                                  | VarKeyword => Some (NamedTuple kw)
                                  | _ => nth (i + j) b None
                                  end)
  | Bad e => existsb (is_kind VarKeyword) ps = true /\ ~ NoDup (map fst kw)
  end.
Proof.
  induction ps as [|p ps IH]; intros S i b args kw L.
  - cbn [bind_variadic existsb]. split; [discriminate|]. repeat split; auto. intros j q A. destruct j; discriminate.
  - inversion S as [|? ? S1 S2]; subst. cbn [length] in L. cbn [bind_variadic existsb].
    assert (IDX : forall j, i + Datatypes.S j = Datatypes.S i + j) by (intros; lia).
    assert (KP : forall k, is_kind k p = kind_eqb (p_kind p) k) by reflexivity.
    rewrite !KP. clear KP. destruct (p_kind p) eqn:K.
    1,2,4: specialize (IH S1 (Datatypes.S i) b args kw ltac:(lia));
      replace (kind_eqb _ VarPositional) with false by reflexivity;
      replace (kind_eqb _ VarKeyword) with false by reflexivity; cbn [orb];
      destruct (bind_variadic ps (Datatypes.S i) b args kw) as [[[b' a'] k']|e]; [|exact IH];
      destruct IH as (A & B & C & D & E & F); split; [exact A|]; split; [exact B|]; split; [exact C|]; split; [exact D|];
      split; [intros j Lj; apply E; lia|];
      intros [|j] q Q; cbn in Q;
      [injection Q as <-; rewrite K, Nat.add_0_r; apply E; lia | rewrite IDX; apply (F j q Q)].
    + (* VarPositional *)
      replace (kind_eqb VarPositional VarPositional) with true by reflexivity.
      replace (kind_eqb VarPositional VarKeyword) with false by reflexivity. cbn [orb].
      specialize (IH S1 (Datatypes.S i) (set_nth i (Some (Tuple args)) b) [] kw ltac:(rewrite set_nth_length; lia)).
      destruct (bind_variadic ps (Datatypes.S i) _ [] kw) as [[[b' a'] k']|e].
      * destruct IH as (A & B & C & D & E & F). rewrite set_nth_length in B. split; [exact A|]. split; [exact B|].
        split; [destruct (existsb (is_kind VarPositional) ps); exact C|]. split; [exact D|]. split.
        -- intros j Lj. rewrite E by lia. rewrite nth_set_nth by lia. destruct (Nat.eqb_spec j i); [lia|reflexivity].
        -- intros [|j] q Q; cbn in Q.
           ++ injection Q as <-. rewrite K, Nat.add_0_r. rewrite E by lia. rewrite nth_set_nth by lia. rewrite Nat.eqb_refl. reflexivity.
           ++ rewrite IDX. rewrite (F j q Q). destruct (p_kind q) eqn:KQ; try reflexivity;
              try (rewrite nth_set_nth by lia; destruct (Nat.eqb_spec (Datatypes.S i + j) i); [lia|reflexivity]).
              exfalso. pose proof (no_second VarPositional p ps eq_refl K S2) as X.
              assert (existsb (is_kind VarPositional) ps = true); [|congruence].
              apply existsb_exists. exists q. split; [eapply nth_error_In; eassumption|]. unfold is_kind. rewrite KQ. reflexivity.
      * exact IH.
    + (* VarKeyword *)
      replace (kind_eqb VarKeyword VarPositional) with false by reflexivity.
      replace (kind_eqb VarKeyword VarKeyword) with true by reflexivity. cbn [orb].
      pose proof (no_second VarKeyword p ps eq_refl K S2) as X.
      destruct (duplicate_field kw) as [n|] eqn:DF.
      { split; [reflexivity|]. intros ND. apply duplicate_field_none in ND. congruence. }
      apply duplicate_field_none in DF.
      specialize (IH S1 (Datatypes.S i) (set_nth i (Some (NamedTuple kw)) b) args [] ltac:(rewrite set_nth_length; lia)).
      destruct (bind_variadic ps (Datatypes.S i) _ args []) as [[[b' a'] k']|e].
      * destruct IH as (A & B & C & D & E & F). rewrite set_nth_length in B. split; [intros _; exact DF|]. split; [exact B|].
        split; [exact C|]. split; [destruct (existsb (is_kind VarKeyword) ps); exact D|]. split.
        -- intros j Lj. rewrite E by lia. rewrite nth_set_nth by lia. destruct (Nat.eqb_spec j i); [lia|reflexivity].
        -- intros [|j] q Q; cbn in Q.
           ++ injection Q as <-. rewrite K, Nat.add_0_r. rewrite E by lia. rewrite nth_set_nth by lia. rewrite Nat.eqb_refl. reflexivity.
           ++ rewrite IDX. rewrite (F j q Q). destruct (p_kind q) eqn:KQ; try reflexivity;
              try (rewrite nth_set_nth by lia; destruct (Nat.eqb_spec (Datatypes.S i + j) i); [lia|reflexivity]).
              exfalso. assert (existsb (is_kind VarKeyword) ps = true); [|congruence].
              apply existsb_exists. exists q. split; [eapply nth_error_In; eassumption|]. unfold is_kind. rewrite KQ. reflexivity.
      * destruct IH as [IH1 _]. congruence.
Qed.

Variable bag : Type.
Variable with_bag : bag -> V -> V.
Definition use (db : option bag) (d : V) : V := match db with Some db => with_bag db d | None => d end.

Lemma bind_defaults_good db (ps : list param) : forall b r, length b = length ps ->
  (bind_defaults with_bag db ps b = Good r <->
   length r = length ps /\
   forall i p, nth_error ps i = Some p ->
     match nth i b None with
     | Some v => nth_error r i = Some v
     | None => exists rank d, p_default p = Some (rank, d) /\ nth_error r i = Some (Plain (use db d))
     end).
Proof.
  induction ps as [|p ps IH]; intros [|x b] r L; try discriminate.
  - cbn. split.
    + intros H. injection H as <-. split; [reflexivity|]. intros i q A. destruct i; discriminate.
    + intros [H _]. destruct r; [reflexivity|discriminate].
  - cbn [length] in L. injection L as L. cbn [bind_defaults].
    assert (STEP : forall v, (forall r, (match bind_defaults with_bag db ps b with Good l => Good (v :: l) | Bad e => Bad e end = Good r) <->
        exists r', r = v :: r' /\ bind_defaults with_bag db ps b = Good r')).
    { intros v r0. destruct (bind_defaults with_bag db ps b) as [l|e].
      - split; [intros H; injection H as <-; eauto|]. intros (r' & -> & E). injection E as <-. reflexivity.
      - split; [discriminate|]. intros (r' & _ & E). discriminate. }
    destruct x as [v|].
    + rewrite STEP. split.
      * intros (r' & -> & E). apply (IH b r' L) in E. destruct E as [E1 E2]. split; [cbn; lia|].
        intros [|i] q A; cbn in A; [injection A as <-; reflexivity|]. exact (E2 i q A).
      * intros [H1 H2]. destruct r as [|y r']; [discriminate|].
        pose proof (H2 0 p eq_refl) as H0. cbn in H0. injection H0 as ->. exists r'. split; [reflexivity|].
        apply (IH b r' L). cbn in H1. split; [lia|]. intros i q A. exact (H2 (Datatypes.S i) q A).
    + destruct (p_default p) as [[rank d]|] eqn:D.
      * fold (use db d). rewrite STEP. split.
        -- intros (r' & -> & E). apply (IH b r' L) in E. destruct E as [E1 E2]. split; [cbn; lia|].
           intros [|i] q A; cbn in A; [injection A as <-; cbn; eauto|]. exact (E2 i q A).
        -- intros [H1 H2]. destruct r as [|y r']; [discriminate|].
           pose proof (H2 0 p eq_refl) as H0. cbn in H0. destruct H0 as (rk & d' & D' & H0).
           rewrite D in D'. injection D' as <- <-. injection H0 as ->. exists r'. split; [reflexivity|].
           apply (IH b r' L). cbn in H1. split; [lia|]. intros i q A. exact (H2 (Datatypes.S i) q A).
      * split; [discriminate|]. intros [_ H2]. destruct (H2 0 p eq_refl) as (rk & d' & D' & _). congruence.
Qed.

(** ** Binding: the whole *)

Lemma nodup_split (f : string -> bool) (kw : list (string * V)) :
  NoDup (map fst (filter (fun x => f (fst x)) kw)) -> NoDup (map fst (filter (fun x => negb (f (fst x))) kw)) ->
  NoDup (map fst kw).
Proof.
  induction kw as [|[n v] kw IH]; intros A B; [constructor|]. cbn [map fst filter] in *.
  assert (IN : forall g : string -> bool, g n = true -> In n (map fst kw) -> In n (map fst (filter (fun x => g (fst x)) kw))).
  { intros g G I. apply in_map_iff in I. destruct I as (y & Y & I). rewrite <- Y. apply List.in_map.
    apply filter_In. split; [exact I|]. rewrite Y. exact G. }
  destruct (f n) eqn:F; cbn [negb map fst] in *.
  - inversion A as [|? ? A1 A2]; subst. constructor; [|apply IH; assumption]. intros I. apply A1. apply (IN f F I).
  - inversion B as [|? ? B1 B2]; subst. constructor; [|apply IH; assumption]. intros I. apply B1.
    apply (IN (fun x => negb (f x))); [rewrite F; reflexivity|exact I].
Qed.
Lemma nodup_filter (f : string * V -> bool) (kw : list (string * V)) :
  NoDup (map fst kw) -> NoDup (map fst (filter f kw)).
Proof.
  induction kw as [|[n v] kw IH]; intros A; [constructor|]. cbn [map fst filter] in *.
  inversion A as [|? ? A1 A2]; subst. destruct (f (n, v)); [|apply IH; exact A2]. cbn [map fst].
  constructor; [|apply IH; exact A2]. intros I. apply A1. apply in_map_iff in I. destruct I as (y & Y & I).
  rewrite <- Y. apply List.in_map. apply filter_In in I. apply I.
Qed.
Lemma nodup_value (kw : list (string * V)) n v w : NoDup (map fst kw) -> In (n, v) kw -> In (n, w) kw -> v = w.
Proof.
  induction kw as [|[m x] kw IH]; intros A I J; [destruct I|]. cbn [map fst] in A. inversion A as [|? ? A1 A2]; subst.
  destruct I as [I|I], J as [J|J].
  - congruence.
  - injection I as -> ->. exfalso. apply A1. apply (List.in_map fst) in J. exact J.
  - injection J as -> ->. exfalso. apply A1. apply (List.in_map fst) in I. exact I.
  - apply IH; assumption.
Qed.

Lemma combine_split_map (kw : list (string * V)) : combine (map fst kw) (map snd kw) = kw.
Proof. induction kw as [|[n v] kw IH]; cbn; [reflexivity|]. rewrite IH. reflexivity. Qed.

Section Bind.
Variables (ps : list param) (pos : list V) (kw : list (string * V)) (db : option bag).
Hypothesis VALID : valid_parameters ps.
Let idx := keyword_index 0 ps.

Lemma idx_spec n i : find_index n idx = Some i <-> exists p, nth_error ps i = Some p /\ by_keyword p /\ p_name p = n.
Proof.
  unfold idx. rewrite (keyword_index_spec ps (proj1 VALID) 0 n i). rewrite Nat.sub_0_r.
  split; intros (p & H); exists p; [apply H|split; [lia|exact H]].
Qed.
Lemma idx_bound n i : find_index n idx = Some i -> i < length ps.
Proof. intros H. apply idx_spec in H. destruct H as (p & A & _). apply nth_error_Some. congruence. Qed.
Lemma idx_inj n m i : find_index n idx = Some i -> find_index m idx = Some i -> n = m.
Proof.
  intros A B. apply idx_spec in A, B. destruct A as (p & A & _ & <-), B as (q & B & _ & <-). congruence.
Qed.
Lemma idx_known n : known ps n <-> find_index n idx <> None.
Proof.
  split.
  - intros (p & I & K & N). apply In_nth_error in I. destruct I as [i I].
    assert (find_index n idx = Some i) by (apply idx_spec; eauto). congruence.
  - intros H. destruct (find_index n idx) as [i|] eqn:E; [|congruence]. apply idx_spec in E.
    destruct E as (p & A & B & C). exists p. split; [eapply nth_error_In; eassumption|auto].
Qed.
Lemma is_known_iff x : is_known idx x = true <-> known ps (fst x).
Proof. rewrite idx_known. unfold is_known. destruct (find_index (fst x) idx); split; congruence. Qed.
Lemma is_known_false x : negb (is_known idx x) = true <-> ~ known ps (fst x).
Proof. rewrite negb_true_iff, idx_known. unfold is_known. destruct (find_index (fst x) idx) as [j|]; split; intros H; try congruence; exfalso; apply H; discriminate. Qed.

Let r1 := bind_positional ps 0 pos (repeat None (length ps)) [].

Lemma r1_spec :
  length (fst r1) = length ps
  /\ (forall j, nth j (fst r1) None =
       if (j <? length pos) && (j <? positions ps)
       then match nth_error pos j with Some v => Some (Plain v) | None => None end
       else None)
  /\ snd r1 = skipn (positions ps) pos.
Proof.
  destruct (bind_positional_spec ps (valid_sorted ps VALID) pos 0 (repeat None (length ps)) []
    ltac:(apply repeat_length)) as (A & B & C).
  fold r1 in A, B, C. rewrite Nat.sub_0_r in C. split; [exact A|]. split; [|exact C].
  intros j. rewrite B. cbn [Nat.leb andb Nat.add]. rewrite Nat.sub_0_r. rewrite nth_repeat. reflexivity.
Qed.

Lemma r1_some i p v : nth_error ps i = Some p -> nth i (fst r1) None = Some v ->
  by_position p /\ exists w, nth_error pos i = Some w /\ v = Plain w.
Proof.
  intros A B. destruct r1_spec as (_ & R & _). rewrite R in B.
  destruct (Nat.ltb_spec i (length pos)); [|discriminate]. destruct (Nat.ltb_spec i (positions ps)); [|discriminate].
  cbn [andb] in B. destruct (nth_error pos i) as [w|]; [|discriminate]. injection B as <-.
  split; [apply (positions_at ps i p (valid_sorted ps VALID) A); assumption|eauto].
Qed.
Lemma r1_none i p : nth_error ps i = Some p ->
  (nth i (fst r1) None = None <-> (by_position p -> nth_error pos i = None)).
Proof.
  intros A. destruct r1_spec as (_ & R & _). rewrite R.
  pose proof (positions_at ps i p (valid_sorted ps VALID) A) as P.
  destruct (nth_error pos i) as [w|] eqn:E.
  - assert (i < length pos) by (apply nth_error_Some; congruence).
    destruct (Nat.ltb_spec i (length pos)); [|lia]. destruct (Nat.ltb_spec i (positions ps)); cbn [andb].
    + split; [discriminate|]. intros H2. rewrite P in H2. specialize (H2 ltac:(assumption)). discriminate.
    + split; [|reflexivity]. intros _ B. apply P in B. lia.
  - split; [auto|]. intros _. destruct (_ && _); reflexivity.
Qed.

Lemma bind_shape :
  bind_arguments with_bag (mkSig ps idx) (pos ++ map snd kw) (map fst kw) db =
  match bind_keywords idx kw (fst r1) [] with
  | Bad e => Bad e
  | Good (b2, unknown_kwargs) =>
      match bind_variadic ps 0 b2 (snd r1) unknown_kwargs with
      | Bad e => Bad e
      | Good (b3, rest_args, rest_kwargs) =>
          match rest_args, rest_kwargs with
          | _ :: _, _ => Bad (ETooMany (length rest_args))
          | [], _ :: _ => Bad (EUnknown (map fst rest_kwargs))
          | [], [] => bind_defaults with_bag db ps b3
          end
      end
  end.
Proof.
  unfold bind_arguments. cbn [s_params s_index]. rewrite app_length, !map_length.
  destruct (Nat.ltb_spec (length pos + length kw) (length kw)); [lia|].
  replace (length pos + length kw - length kw) with (length pos) by lia.
  rewrite firstn_app, Nat.sub_diag, firstn_all, firstn_O, app_nil_r.
  rewrite skipn_app, Nat.sub_diag, skipn_all, skipn_O. cbn [app]. rewrite combine_split_map.
  fold r1. destruct r1 as [b1 u1]. reflexivity.
Qed.

(** What the parameters hold before the default values are filled in *)
Definition filled_with (b : list (option (bound V))) : Prop :=
  length b = length ps
  /\ forall i p, nth_error ps i = Some p ->
     match p_kind p with
     | VarPositional => nth i b None = Some (Tuple (skipn (positions ps) pos))
     | VarKeyword => nth i b None = Some (NamedTuple (filter (fun x => negb (is_known idx x)) kw))
     | _ => match nth i b None with
            | Some v => exists w, v = Plain w /\
                ((by_position p /\ nth_error pos i = Some w)
                 \/ (by_keyword p /\ (by_position p -> nth_error pos i = None) /\ In (p_name p, w) kw))
            | None => (by_position p -> nth_error pos i = None) /\ (by_keyword p -> ~ In (p_name p) (map fst kw))
            end
     end.

Lemma keywords_filled b2 u2 : bind_keywords idx kw (fst r1) [] = Good (b2, u2) ->
  length b2 = length ps /\ forall i p, nth_error ps i = Some p ->
     match nth i b2 None with
     | Some v => exists w, v = Plain w /\
         ((by_position p /\ nth_error pos i = Some w)
          \/ (by_keyword p /\ (by_position p -> nth_error pos i = None) /\ In (p_name p, w) kw))
     | None => (by_position p -> nth_error pos i = None) /\ (by_keyword p -> ~ In (p_name p) (map fst kw))
     end.
Proof.
  intros H. destruct r1_spec as (L & R & U).
  destruct (bind_keywords_good idx kw _ _ _ _ ltac:(intros n i F; rewrite L; apply (idx_bound n i F)) H)
    as (L2 & U2 & ND & W & K).
  split; [congruence|]. intros i p A.
  destruct (in_dec string_dec (p_name p) (map fst kw)) as [I|I].
  - destruct (keyword (p_kind p)) eqn:KW.
    + apply keyword_iff in KW.
      assert (F : find_index (p_name p) idx = Some i) by (apply idx_spec; eauto).
      apply in_map_iff in I. destruct I as ([m w] & M & I). cbn in M. subst m.
      destruct (W _ _ _ I F) as [W1 W2]. rewrite W2. exists w. split; [reflexivity|]. right.
      split; [exact KW|]. split; [|exact I]. apply (r1_none i p A). exact W1.
    + assert (NK : ~ by_keyword p) by (rewrite <- keyword_iff, KW; discriminate).
      rewrite K.
      2:{ intros n In1 F. apply idx_spec in F. destruct F as (q & Q & B & _). congruence. }
      destruct (nth i (fst r1) None) as [v|] eqn:E.
      * destruct (r1_some i p v A E) as (P & w & N & ->). exists w. auto.
      * split; [apply (r1_none i p A); exact E|]. intros; contradiction.
  - rewrite K.
    2:{ intros n In1 F. apply idx_spec in F. destruct F as (q & Q & B & N). apply I. congruence. }
    destruct (nth i (fst r1) None) as [v|] eqn:E.
    + destruct (r1_some i p v A E) as (P & w & N & ->). exists w. auto.
    + split; [apply (r1_none i p A); exact E|]. auto.
Qed.

Lemma kind_in k : existsb (is_kind k) ps = true <-> exists p, In p ps /\ p_kind p = k.
Proof.
  rewrite existsb_exists. unfold is_kind. split; intros (p & I & E); exists p; split; auto; apply kind_eqb_eq; exact E.
Qed.
Lemma kind_not_in k : existsb (is_kind k) ps = false <-> forall p, In p ps -> p_kind p <> k.
Proof.
  split.
  - intros H p I E. assert (existsb (is_kind k) ps = true) by (apply kind_in; eauto). congruence.
  - intros H. destruct (existsb (is_kind k) ps) eqn:E; [|reflexivity]. apply kind_in in E. destruct E as (p & I & E).
    exfalso. exact (H p I E).
Qed.

Lemma filled_value b i p v : filled_with b -> at_ ps i p -> nth i b None = Some v -> value_of (use db) ps pos kw i p v.
Proof.
  intros [_ F] A N. specialize (F i p A). rewrite N in F.
  assert (OTH : (exists w, v = Plain w /\
     ((by_position p /\ nth_error pos i = Some w) \/ (by_keyword p /\ (by_position p -> nth_error pos i = None) /\ In (p_name p, w) kw))) ->
     value_of (use db) ps pos kw i p v).
  { intros (w & -> & [[P Q]|(P & Q & R)]); [apply ByPosition; assumption|apply ByKeyword; assumption]. }
  destruct (p_kind p) eqn:K; try (apply OTH; exact F).
  - injection F as ->. apply RestOfPositions. exact K.
  - injection F as ->. apply RestOfKeywords; [exact K| |eexists; reflexivity].
    intros n w. rewrite filter_In, is_known_false. reflexivity.
Qed.
Lemma filled_default b i p rank d : filled_with b -> at_ ps i p -> nth i b None = None -> p_default p = Some (rank, d) ->
  value_of (use db) ps pos kw i p (Plain (use db d)).
Proof.
  intros [_ F] A N D. specialize (F i p A). rewrite N in F.
  apply ByDefault with (rank := rank); [|destruct (p_kind p); try discriminate; apply F|destruct (p_kind p); try discriminate; apply F|exact D].
  destruct VALID as (_ & _ & _ & VD). apply (VD p rank d); [eapply nth_error_In; exact A|exact D].
Qed.

Lemma value_filled b i p v : NoDup (map fst kw) -> filled_with b -> at_ ps i p -> value_of (use db) ps pos kw i p v ->
  match nth i b None with
  | Some w => w = v
  | None => exists rank d, p_default p = Some (rank, d) /\ v = Plain (use db d)
  end.
Proof.
  intros ND [_ F] A VO. specialize (F i p A). inversion VO as [i0 p0 w P Q|i0 p0 w P Q R|i0 p0 rank d P Q R D|i0 p0 K|i0 p0 rest K R1 R2]; subst i0 p0 v.
  - destruct P as [P|P]; rewrite P in F.
    all: destruct (nth i b None) as [x|]; [|destruct F as [F _]; rewrite F in Q by (unfold by_position; auto); discriminate];
      destruct F as (w' & -> & [[_ F]|(_ & F & _)]); [congruence|rewrite F in Q by (unfold by_position; auto); discriminate].
  - assert (I : In (p_name p) (map fst kw)) by (apply (List.in_map fst) in R; exact R).
    assert (F' : match nth i b None with
            | Some v => exists w, v = Plain w /\
                ((by_position p /\ nth_error pos i = Some w)
                 \/ (by_keyword p /\ (by_position p -> nth_error pos i = None) /\ In (p_name p, w) kw))
            | None => (by_position p -> nth_error pos i = None) /\ (by_keyword p -> ~ In (p_name p) (map fst kw))
            end) by (destruct P as [P|P]; rewrite P in F; exact F).
    destruct (nth i b None) as [x|]; [|destruct F' as [_ F']; exfalso; exact (F' P I)].
    destruct F' as (w' & -> & [[F1 F2]|(_ & _ & F2)]); [rewrite (Q F1) in F2; discriminate|].
    f_equal. eapply nodup_value; eassumption.
  - assert (F' : match nth i b None with
            | Some v => exists w, v = Plain w /\
                ((by_position p /\ nth_error pos i = Some w)
                 \/ (by_keyword p /\ (by_position p -> nth_error pos i = None) /\ In (p_name p, w) kw))
            | None => (by_position p -> nth_error pos i = None) /\ (by_keyword p -> ~ In (p_name p) (map fst kw))
            end) by (unfold takes_rest in P; destruct (p_kind p); try exact F; exfalso; apply P; auto).
    destruct (nth i b None) as [x|]; [|eauto].
    destruct F' as (w' & -> & [[F1 F2]|(F1 & _ & F2)]); [rewrite (Q F1) in F2; discriminate|].
    exfalso. apply (R F1). apply (List.in_map fst) in F2. exact F2.
  - rewrite K in F. rewrite F. reflexivity.
  - rewrite K in F. rewrite F. f_equal. destruct R2 as [keep ->]. apply filter_ext_in.
    intros [n w] I. specialize (R1 n w). rewrite filter_In in R1.
    destruct (keep (n, w)) eqn:E1; destruct (negb (is_known idx (n, w))) eqn:E2; try reflexivity.
    + destruct R1 as [R1 _]. destruct (R1 (conj I eq_refl)) as [_ R3]. apply (proj2 (is_known_false (n, w))) in R3. congruence.
    + apply (proj1 (is_known_false (n, w))) in E2. destruct R1 as [_ R1]. destruct (R1 (conj I E2)) as [_ R3]. congruence.
Qed.

Theorem bind_iff r :
  bind_arguments with_bag (mkSig ps idx) (pos ++ map snd kw) (map fst kw) db = Good r <-> binds (use db) ps pos kw r.
Proof.
  rewrite bind_shape. pose proof (valid_sorted ps VALID) as SS. destruct r1_spec as (L1 & _ & U1).
  assert (BND : forall n i, find_index n idx = Some i -> i < length (fst r1)) by (intros n i F; rewrite L1; apply (idx_bound n i F)).
  split.
  - intros H. destruct (bind_keywords idx kw (fst r1) []) as [[b2 u2]|e] eqn:E2; [|discriminate].
    destruct (keywords_filled b2 u2 E2) as [L2 F2].
    destruct (bind_keywords_good idx kw _ _ _ _ BND E2) as (_ & U2 & ND2 & W2 & _). cbn [app] in U2.
    pose proof (bind_variadic_spec ps SS 0 b2 (snd r1) u2 ltac:(cbn; lia)) as BV.
    destruct (bind_variadic ps 0 b2 (snd r1) u2) as [[[b3 ra] rk]|e]; [|discriminate].
    destruct BV as (V1 & V2 & V3 & V4 & _ & V5).
    destruct ra as [|? ?]; [|discriminate]. destruct rk as [|? ?]; [|discriminate].
    assert (ND : NoDup (map fst kw)).
    { apply (nodup_split (fun n => match find_index n idx with Some _ => true | None => false end)); [exact ND2|].
      change (NoDup (map fst (filter (fun x => negb (is_known idx x)) kw))). rewrite <- U2.
      destruct (existsb (is_kind VarKeyword) ps); [apply V1; reflexivity|]. rewrite <- V4. constructor. }
    assert (FW : filled_with b3).
    { split; [congruence|]. intros i p A. specialize (V5 i p A). cbn [Nat.add] in V5. specialize (F2 i p A).
      destruct (p_kind p); rewrite V5; try exact F2; [f_equal; f_equal; exact U1|f_equal; f_equal; exact U2]. }
    apply (bind_defaults_good db ps b3 r) in H; [|apply FW]. destruct H as [LR H].
    split; [exact ND|]. split; [|split; [|split; [|split; [exact LR|]]]].
    + intros i p A P K LP I. assert (F : find_index (p_name p) idx = Some i) by (apply idx_spec; eauto).
      apply in_map_iff in I. destruct I as ([m w] & M & I). cbn in M. subst m.
      destruct (W2 _ _ _ I F) as [W3 _]. apply (r1_none i p A) in W3; [|exact P]. apply nth_error_None in W3. lia.
    + intros N. apply kind_not_in in N. rewrite N in V3. rewrite U1 in V3.
      destruct (le_lt_dec (length pos) (positions ps)); [assumption|].
      apply (f_equal (@length V)) in V3. rewrite skipn_length in V3. cbn in V3. lia.
    + intros N n I. apply kind_not_in in N. rewrite N in V4. rewrite U2 in V4.
      destruct (find_index n idx) as [j|] eqn:F; [apply idx_known; congruence|].
      apply in_map_iff in I. destruct I as ([m w] & M & I). cbn in M. subst m.
      assert (I2 : In (n, w) (filter (fun x => negb (is_known idx x)) kw)).
      { apply filter_In. split; [exact I|]. unfold is_known. cbn [fst]. rewrite F. reflexivity. }
      rewrite <- V4 in I2. destruct I2.
    + intros i p A. specialize (H i p A). destruct (nth i b3 None) as [v|] eqn:E.
      * exists v. split; [exact H|]. apply (filled_value b3); assumption.
      * destruct H as (rank & d & D & H). exists (Plain (use db d)). split; [exact H|].
        apply (filled_default b3) with (rank := rank); assumption.
  - intros (ND & TW & MP & MK & LR & VA).
    destruct (bind_keywords_exists idx kw (fst r1) [] BND idx_inj (nodup_filter _ _ ND)) as (b2 & u2 & E2).
    { intros n i I F. apply idx_spec in F. destruct F as (p & A & K & N). apply (r1_none i p A). intros P.
      apply nth_error_None. destruct (le_lt_dec (length pos) i); [assumption|].
      exfalso. apply (TW i p A P K ltac:(assumption)). rewrite N. exact I. }
    rewrite E2. destruct (keywords_filled b2 u2 E2) as [L2 F2].
    destruct (bind_keywords_good idx kw _ _ _ _ BND E2) as (_ & U2 & ND2 & W2 & _). cbn [app] in U2.
    pose proof (bind_variadic_spec ps SS 0 b2 (snd r1) u2 ltac:(cbn; lia)) as BV.
    destruct (bind_variadic ps 0 b2 (snd r1) u2) as [[[b3 ra] rk]|e].
    2:{ exfalso. destruct BV as [_ BV]. apply BV. rewrite U2. apply nodup_filter. exact ND. }
    destruct BV as (V1 & V2 & V3 & V4 & _ & V5).
    assert (RA : ra = []).
    { rewrite V3. destruct (existsb (is_kind VarPositional) ps) eqn:E; [reflexivity|].
      pose proof (proj1 (kind_not_in VarPositional) E) as E'. rewrite U1. apply skipn_all2. apply MP. exact E'. }
    assert (RK : rk = []).
    { rewrite V4. destruct (existsb (is_kind VarKeyword) ps) eqn:E; [reflexivity|].
      pose proof (proj1 (kind_not_in VarKeyword) E) as E'. rewrite U2.
      destruct (filter (fun x => negb (is_known idx x)) kw) as [|y l] eqn:FL; [reflexivity|].
      assert (I : In y (filter (fun x => negb (is_known idx x)) kw)) by (rewrite FL; left; reflexivity).
      apply filter_In in I. destruct I as [I N]. apply is_known_false in N. exfalso. apply N.
      apply (MK E'). apply (List.in_map fst). exact I. }
    rewrite RA, RK.
    assert (FW : filled_with b3).
    { split; [congruence|]. intros i p A. specialize (V5 i p A). cbn [Nat.add] in V5. specialize (F2 i p A).
      destruct (p_kind p); rewrite V5; try exact F2; [f_equal; f_equal; exact U1|f_equal; f_equal; exact U2]. }
    apply (bind_defaults_good db ps b3 r); [apply FW|]. split; [exact LR|].
    intros i p A. destruct (VA i p A) as (v & N & VO). pose proof (value_filled b3 i p v ND FW A VO) as X.
    destruct (nth i b3 None) as [w|]; [subst; exact N|]. destruct X as (rank & d & D & ->). eauto.
Qed.

(** ** Complaints *)

Lemma count_positive (k : list (string * V)) n v : In (n, v) k -> 1 <= count_occ string_dec (map fst k) n.
Proof. intros I. apply (List.in_map fst) in I. apply (count_occ_In string_dec) in I. exact I. Qed.

Lemma bind_keywords_bad (k : list (string * V)) : forall b u e, (forall n i, find_index n idx = Some i -> i < length b) ->
  bind_keywords idx k b u = Bad e ->
  exists n i, e = ETwice n /\ find_index n idx = Some i /\
    ((nth i b None <> None /\ In n (map fst k)) \/ 2 <= count_occ string_dec (map fst k) n).
Proof.
  induction k as [|[n v] k IH]; intros b u e B H; cbn [bind_keywords] in H; [discriminate|].
  cbn [map fst count_occ].
  assert (MONO : forall m, count_occ string_dec (map fst k) m <= if string_dec n m then Datatypes.S (count_occ string_dec (map fst k) m) else count_occ string_dec (map fst k) m).
  { intros m. destruct (string_dec n m); lia. }
  destruct (find_index n idx) as [i|] eqn:F.
  - destruct (nth i b None) as [x|] eqn:N.
    + injection H as <-. exists n, i. split; [reflexivity|]. split; [exact F|]. left. split; [congruence|left; reflexivity].
    + assert (BI : i < length b) by (apply (B n); exact F).
      destruct (IH _ _ _ ltac:(rewrite set_nth_length; exact B) H) as (m & j & -> & F' & [[W I]|W]).
      * exists m, j. split; [reflexivity|]. split; [exact F'|]. rewrite nth_set_nth in W by exact BI.
        destruct (Nat.eqb_spec j i) as [->|NE]; [|left; split; [exact W|right; exact I]].
        right. rewrite (idx_inj _ _ _ F F') in *. destruct (string_dec m m); [|congruence].
        apply (count_occ_In string_dec) in I. lia.
      * exists m, j. split; [reflexivity|]. split; [exact F'|]. right. specialize (MONO m). lia.
  - destruct (IH _ _ _ B H) as (m & j & -> & F' & [[W I]|W]).
    + exists m, j. split; [reflexivity|]. split; [exact F'|]. left. split; [exact W|right; exact I].
    + exists m, j. split; [reflexivity|]. split; [exact F'|]. right. specialize (MONO m). lia.
Qed.

Lemma count_filter (f : string * V -> bool) k n :
  count_occ string_dec (map fst (filter f k)) n <= count_occ string_dec (map fst k) n.
Proof.
  induction k as [|[m v] k IH]; [cbn; lia|]. cbn [filter map fst count_occ]. destruct (f (m, v)); cbn [map fst count_occ]; destruct (string_dec m n); lia.
Qed.
Lemma duplicate_field_some (k : list (string * V)) n : duplicate_field k = Some n ->
  In n (map fst k) /\ 2 <= count_occ string_dec (map fst k) n.
Proof.
  induction k as [|[m v] k IH]; cbn [duplicate_field map fst count_occ]; intros H; [discriminate|].
  destruct (existsb (fun x => String.eqb m (fst x)) k) eqn:E.
  - injection H as <-. split; [left; reflexivity|]. destruct (string_dec m m); [|congruence].
    apply existsb_exists in E. destruct E as ([x w] & I & E). apply String.eqb_eq in E. cbn in E. subst x.
    pose proof (count_positive k m w I). lia.
  - destruct (IH H) as [A B]. split; [right; exact A|]. destruct (string_dec m n); lia.
Qed.

Lemma bind_variadic_bad (l : list param) : StronglySorted follows l -> forall i b args k e,
  bind_variadic l i b args k = Bad e -> exists n, e = EField n /\ duplicate_field k = Some n /\ exists p, In p l /\ p_kind p = VarKeyword.
Proof.
  induction l as [|p l IH]; intros S i b args k e H; cbn [bind_variadic] in H; [discriminate|].
  inversion S as [|? ? S1 S2]; subst.
  assert (EXT : (exists n, e = EField n /\ duplicate_field k = Some n /\ exists q, In q l /\ p_kind q = VarKeyword) ->
    exists n, e = EField n /\ duplicate_field k = Some n /\ exists q, In q (p :: l) /\ p_kind q = VarKeyword).
  { intros (n & A & B & q & Q & K). exists n. split; [exact A|]. split; [exact B|]. exists q. split; [right; exact Q|exact K]. }
  destruct (p_kind p) eqn:K; try (apply EXT; apply (IH S1 _ _ _ _ _ H)).
  destruct (duplicate_field k) as [n|] eqn:D.
  - injection H as <-. exists n. split; [reflexivity|]. split; [reflexivity|]. exists p. split; [left; reflexivity|exact K].
  - destruct (IH S1 _ _ _ _ _ H) as (n & _ & B & _). discriminate.
Qed.

Lemma bind_defaults_bad (l : list param) : forall b e, length b = length l -> bind_defaults with_bag db l b = Bad e ->
  exists i p, nth_error l i = Some p /\ e = ENoValue (p_name p) /\ p_default p = None /\ nth i b None = None.
Proof.
  induction l as [|p l IH]; intros [|x b] e L H; cbn [bind_defaults] in H; try discriminate.
  cbn [length] in L. injection L as L.
  assert (STEP : forall v, (match bind_defaults with_bag db l b with Good l0 => Good (v :: l0) | Bad e0 => Bad e0 end) = Bad e ->
    exists i q, nth_error (p :: l) i = Some q /\ e = ENoValue (p_name q) /\ p_default q = None /\ nth i (x :: b) None = None).
  { intros v E. destruct (bind_defaults with_bag db l b) as [l0|e0] eqn:B; [discriminate|]. injection E as ->.
    destruct (IH b e L B) as (i & q & Q). exists (Datatypes.S i), q. exact Q. }
  destruct x as [v|]; [eapply STEP; exact H|].
  destruct (p_default p) as [[rank d]|] eqn:D; [eapply STEP; exact H|].
  injection H as <-. exists 0, p. auto.
Qed.

Theorem bind_complaint e :
  bind_arguments with_bag (mkSig ps idx) (pos ++ map snd kw) (map fst kw) db = Bad e -> complaint_holds ps pos kw e.
Proof.
  rewrite bind_shape. intros H. pose proof (valid_sorted ps VALID) as SS. destruct r1_spec as (L1 & R1 & U1).
  assert (BND : forall n i, find_index n idx = Some i -> i < length (fst r1)) by (intros n i F; rewrite L1; apply (idx_bound n i F)).
  destruct (bind_keywords idx kw (fst r1) []) as [[b2 u2]|e2] eqn:E2.
  2:{ injection H as ->. destruct (bind_keywords_bad _ _ _ _ BND E2) as (n & i & -> & F & W). cbn [complaint_holds].
      split; [apply idx_known; congruence|]. destruct W as [[W I]|W]; [|right; exact W]. left.
      apply idx_spec in F. destruct F as (p & A & K & N). exists i, p. split; [exact A|]. split; [exact N|].
      destruct (nth i (fst r1) None) as [v|] eqn:Q; [|congruence]. destruct (r1_some i p v A Q) as (P & w & B & _).
      split; [exact P|]. split; [apply nth_error_Some; congruence|exact I]. }
  destruct (keywords_filled b2 u2 E2) as [L2 F2].
  destruct (bind_keywords_good idx kw _ _ _ _ BND E2) as (_ & U2 & ND2 & W2 & _). cbn [app] in U2.
  pose proof (bind_variadic_spec ps SS 0 b2 (snd r1) u2 ltac:(cbn; lia)) as BV.
  destruct (bind_variadic ps 0 b2 (snd r1) u2) as [[[b3 ra] rk]|e3] eqn:E3.
  2:{ injection H as ->. destruct (bind_variadic_bad ps SS _ _ _ _ _ E3) as (n & -> & D & X). cbn [complaint_holds].
      apply duplicate_field_some in D. destruct D as [D1 D2]. rewrite U2 in D1, D2. split; [|split; [exact X|]].
      - apply in_map_iff in D1. destruct D1 as ([m w] & M & I). cbn in M. subst m. apply filter_In in I. destruct I as [_ I].
        apply (proj1 (is_known_false (n, w))) in I. exact I.
      - pose proof (count_filter (fun x => negb (is_known idx x)) kw n). lia. }
  destruct BV as (V1 & V2 & V3 & V4 & _ & V5).
  destruct ra as [|x ra].
  2:{ injection H as <-. cbn [complaint_holds]. destruct (existsb (is_kind VarPositional) ps) eqn:E; [discriminate|].
      split; [apply kind_not_in; exact E|].
      apply (f_equal (@length V)) in V3. rewrite U1, skipn_length in V3. cbn in V3. lia. }
  destruct rk as [|x rk].
  2:{ injection H as <-. cbn [complaint_holds]. destruct (existsb (is_kind VarKeyword) ps) eqn:E; [discriminate|].
      split; [apply kind_not_in; exact E|]. split; [discriminate|]. intros n.
      change (fst x :: map fst rk) with (map fst (x :: rk)). rewrite V4, U2. rewrite !in_map_iff. split.
      - intros (y & Y & I). apply filter_In in I. destruct I as [I N]. apply is_known_false in N. rewrite Y in N. eauto.
      - intros ((y & Y & I) & N). exists y. split; [exact Y|]. apply filter_In. split; [exact I|]. apply is_known_false.
        rewrite Y. exact N. }
  destruct (bind_defaults_bad ps b3 e ltac:(congruence) H) as (i & p & A & -> & D & N). cbn [complaint_holds].
  exists i, p. split; [exact A|]. split; [reflexivity|]. split; [exact D|].
  specialize (V5 i p A). cbn [Nat.add] in V5. rewrite N in V5. specialize (F2 i p A).
  assert (NB : nth i b2 None = None) by (destruct (p_kind p); congruence).
  rewrite NB in F2. destruct F2 as [F2 F3]. split; [unfold takes_rest; destruct (p_kind p); intros [?|?]; discriminate|].
  split; [|exact F3]. intros P. apply nth_error_None. apply F2. exact P.
Qed.

End Bind.

(** ** The order of the keyword arguments *)

Lemma filter_permutation {A} (f : A -> bool) l l' : Permutation l l' -> Permutation (filter f l) (filter f l').
Proof.
  induction 1 as [|x l l' H IH|x y l|l l' l'' H IH H' IH']; cbn [filter].
  - constructor.
  - destruct (f x); [constructor|]; exact IH.
  - destruct (f x), (f y); try reflexivity. constructor.
  - etransitivity; eassumption.
Qed.

Lemma value_of_permuted (def : V -> V) (ps : list param) pos kw kw' i p v : valid_parameters ps -> Permutation kw kw' ->
  value_of def ps pos kw i p v -> exists v', value_of def ps pos kw' i p v' /\ same_bound v v'.
Proof.
  intros VALID P VO.
  assert (PF : forall n, In n (map fst kw) <-> In n (map fst kw')).
  { intros n. split; intros I; (eapply Permutation_in; [|exact I]); apply Permutation_map; [exact P|apply Permutation_sym; exact P]. }
  assert (PI : forall x, In x kw <-> In x kw').
  { intros x. split; intros I; (eapply Permutation_in; [|exact I]); [exact P|apply Permutation_sym; exact P]. }
  inversion VO as [i0 p0 w A B|i0 p0 w A B C|i0 p0 rank d A B C D|i0 p0 K|i0 p0 rest K R1 R2]; subst i0 p0 v.
  - exists (Plain w). split; [apply ByPosition; assumption|constructor].
  - exists (Plain w). split; [apply ByKeyword; auto; apply PI; exact C|constructor].
  - exists (Plain (def d)). split; [|constructor]. apply ByDefault with (rank := rank); auto. intros X Y. apply (C X). apply PF. exact Y.
  - exists (Tuple (skipn (positions ps) pos)). split; [apply RestOfPositions; exact K|constructor].
  - destruct R2 as [keep ->]. exists (NamedTuple (filter keep kw')). split; [|constructor; apply filter_permutation; exact P].
    apply RestOfKeywords; [exact K| |eauto]. intros n w. rewrite filter_In, <- PI, <- filter_In. apply R1.
Qed.

Theorem binds_permuted (def : V -> V) (ps : list param) pos kw kw' r : valid_parameters ps -> Permutation kw kw' -> binds def ps pos kw r ->
  exists r', binds def ps pos kw' r' /\ Forall2 same_bound r r'.
Proof.
  intros VALID P (ND & TW & MP & MK & LR & VA).
  assert (PM : Permutation (map fst kw) (map fst kw')) by (apply Permutation_map; exact P).
  assert (PF : forall n, In n (map fst kw') -> In n (map fst kw)).
  { intros n I. eapply Permutation_in; [apply Permutation_sym; exact PM|exact I]. }
  enough (C : forall n, n <= length ps -> exists r', length r' = n /\ Forall2 same_bound (firstn n r) r' /\
     forall i p, i < n -> at_ ps i p -> exists v, nth_error r' i = Some v /\ value_of def ps pos kw' i p v).
  { destruct (C (length ps) (le_n _)) as (r' & L & F & W). rewrite <- LR, firstn_all in F. exists r'. split; [|exact F].
    split; [eapply Permutation_NoDup; eassumption|]. split; [intros i p A B K I J; apply (TW i p A B K I (PF _ J))|].
    split; [exact MP|]. split; [intros N n I; apply (MK N n (PF _ I))|]. split; [exact L|].
    intros i p A. apply (W i p); [apply nth_error_Some; unfold at_ in A; congruence|exact A]. }
  induction n as [|n IH]; intros L.
  - exists []. split; [reflexivity|]. split; [constructor|]. intros; lia.
  - destruct (IH ltac:(lia)) as (r' & L' & F & W).
    destruct (nth_error ps n) as [p|] eqn:A; [|apply nth_error_None in A; lia].
    destruct (VA n p A) as (v & N & VO). destruct (value_of_permuted _ _ _ _ _ _ _ _ VALID P VO) as (v' & VO' & SB).
    exists (r' ++ [v']). split; [rewrite app_length; cbn; lia|]. split.
    + assert (E : firstn (Datatypes.S n) r = firstn n r ++ [v]).
      { clear - N. revert r N. induction n as [|n IHn]; intros [|x r] N; try discriminate.
        - cbn in N. injection N as ->. reflexivity.
        - cbn in N. change (x :: firstn (Datatypes.S n) r = x :: (firstn n r ++ [v])). f_equal. apply IHn. exact N. }
      rewrite E. apply Forall2_app; [exact F|]. constructor; [exact SB|constructor].
    + intros i q Li Q. destruct (Nat.eq_dec i n) as [->|NE].
      * exists v'. rewrite nth_error_app2 by lia. rewrite L', Nat.sub_diag. split; [reflexivity|].
        unfold at_ in Q. assert (q = p) by congruence. subst. exact VO'.
      * destruct (W i q ltac:(lia) Q) as (w & W1 & W2). exists w. rewrite nth_error_app1 by lia. auto.
Qed.

End Proofs.
