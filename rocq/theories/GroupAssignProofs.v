(** Group ids: what processing a key does to a row of ids. *)
From Coq Require Import List Bool Arith Lia Permutation Sorted.
From Verif Require Import SliceOpsModel GroupModel GroupSpec.
Import ListNotations.
Local Open Scope nat_scope.
Local Open Scope list_scope.

Lemma nth_error_snoc {A} (l : list A) x i y : nth_error (l ++ [x]) i = Some y ->
  nth_error l i = Some y \/ (i = length l /\ y = x).
Proof.
  intros E. destruct (lt_dec i (length l)) as [L | L].
  - rewrite nth_error_app1 in E by exact L. left. exact E.
  - rewrite nth_error_app2 in E by lia. right.
    destruct (i - length l) as [| k] eqn:D; cbn in E.
    + split; [lia | congruence].
    + destruct k; discriminate.
Qed.
Lemma nth_error_last {A} (l : list A) x : nth_error (l ++ [x]) (length l) = Some x.
Proof. rewrite nth_error_app2 by lia. rewrite Nat.sub_diag. reflexivity. Qed.
Lemma nth_error_grow {A} (l : list A) x i y : nth_error l i = Some y -> nth_error (l ++ [x]) i = Some y.
Proof. intros E. rewrite nth_error_app1; [exact E |]. apply nth_error_Some. congruence. Qed.
Lemma nth_error_lt {A} (l : list A) i y : nth_error l i = Some y -> i < length l.
Proof. intros E. apply nth_error_Some. congruence. Qed.

Section Assign.
Variable T : Type.
Variables eqb ltb : T -> T -> bool.
Hypothesis PE : partial_equivalence T eqb.
Notation key := (GroupModel.key T).
Notation key_eqb := (GroupModel.key_eqb T eqb).
Notation key_ltb := (GroupModel.key_ltb T ltb).
Notation process_row := (GroupModel.process_row T eqb).
Notation find_key := (GroupModel.find_key T eqb).

Lemma key_sym (a b : key) : key_eqb a b = true -> key_eqb b a = true.
Proof.
  unfold GroupModel.key_eqb. rewrite !andb_true_iff, !Nat.eqb_eq. intros [E F]. split; [congruence |].
  apply (proj1 PE). exact F.
Qed.
Lemma key_trans (a b c : key) : key_eqb a b = true -> key_eqb b c = true -> key_eqb a c = true.
Proof.
  unfold GroupModel.key_eqb. rewrite !andb_true_iff, !Nat.eqb_eq. intros [E F] [G H]. split; [congruence |].
  exact (proj2 PE _ _ _ F H).
Qed.

Definition key_of (x : option nat * option T) : option key :=
  match x with (Some g, Some v) => Some (g, v) | _ => None end.

(** the hash map after the keys [ks] got the ids from [new] on *)
Definition map_of (new : nat) (ks : list key) : list (key * nat) := rev (combine ks (seq new (length ks))).

Lemma combine_seq_snoc : forall (ks : list key) k n,
  combine (ks ++ [k]) (seq n (length (ks ++ [k]))) = combine ks (seq n (length ks)) ++ [(k, n + length ks)].
Proof.
  induction ks as [| k0 ks IH]; intros k n; cbn.
  - rewrite Nat.add_0_r. reflexivity.
  - rewrite IH. f_equal. f_equal. f_equal. f_equal. lia.
Qed.
Lemma map_of_snoc new ks k : map_of new (ks ++ [k]) = (k, new + length ks) :: map_of new ks.
Proof. unfold map_of. rewrite combine_seq_snoc, rev_app_distr. reflexivity. Qed.
Lemma combine_seq_nth : forall (ks : list key) n k id,
  In (k, id) (combine ks (seq n (length ks))) <-> exists p, id = n + p /\ nth_error ks p = Some k.
Proof.
  induction ks as [| k0 ks IH]; intros n k id; cbn.
  - split; [tauto | intros [p [_ E]]; destruct p; discriminate].
  - rewrite IH. split.
    + intros [E | [p [E F]]].
      * exists 0. split; [assert (n = id) by congruence; lia | cbn; congruence].
      * exists (S p). split; [lia | exact F].
    + intros [p [E F]]. destruct p as [| p]; cbn in F.
      * left. assert (k0 = k) by congruence. subst k0. rewrite Nat.add_0_r in E. congruence.
      * right. exists p. split; [lia | exact F].
Qed.
Lemma map_of_in new ks k id : In (k, id) (map_of new ks) <-> exists p, id = new + p /\ nth_error ks p = Some k.
Proof. unfold map_of. rewrite <- in_rev. apply combine_seq_nth. Qed.

Lemma find_some : forall m k id, find_key k m = Some id -> exists k', In (k', id) m /\ key_eqb k' k = true.
Proof.
  induction m as [| [k' i] m IH]; intros k id E; cbn in E; [discriminate |].
  destruct (key_eqb k' k) eqn:Q.
  - exists k'. split; [left; congruence | exact Q].
  - destruct (IH _ _ E) as [k2 [I J]]. exists k2. split; [right; exact I | exact J].
Qed.
Lemma find_none : forall m k, find_key k m = None -> forall k' id, In (k', id) m -> key_eqb k' k = false.
Proof.
  induction m as [| [k' i] m IH]; intros k E k2 id I; cbn in E; [destruct I |].
  destruct (key_eqb k' k) eqn:Q; [discriminate |].
  destruct I as [I | I]; [| exact (IH _ E _ _ I)]. assert (k' = k2) by congruence. subst. exact Q.
Qed.

(** what is known of the ids of a row and the keys in the order of their ids *)
Record assigned (row : list (option nat * option T)) (ids : list (option nat)) (ks : list key) (new : nat) : Prop := {
  as_len : length ids = length row;
  as_missing : forall i x, nth_error row i = Some x -> key_of x = None -> nth_error ids i = Some None;
  as_id : forall i x k, nth_error row i = Some x -> key_of x = Some k -> exists p f k0,
    nth_error ids i = Some (Some (new + p)) /\ nth_error ks p = Some k0 /\
    nth_error ids f = Some (Some (new + p)) /\
    (forall j q, nth_error ids j = Some (Some (new + q)) -> p <= q -> f <= j) /\
    ((f = i /\ k0 = k) \/ key_eqb k0 k = true);
  as_first : forall p k0, nth_error ks p = Some k0 -> exists f,
    nth_error ids f = Some (Some (new + p)) /\
    (forall j q, nth_error ids j = Some (Some (new + q)) -> p <= q -> f <= j);
  as_range : forall i g, nth_error ids i = Some (Some g) -> new <= g < new + length ks;
  as_distinct : forall p q a b, p < q -> nth_error ks p = Some a -> nth_error ks q = Some b -> key_eqb a b = false;
  as_few : length ks <= length row }.

Lemma assigned_nil new : assigned [] [] [] new.
Proof.
  split; try reflexivity; try (intros; destruct i; discriminate); try (intros; destruct p; discriminate).
Qed.

Lemma assigned_skip row ids ks new x : assigned row ids ks new -> key_of x = None ->
  assigned (row ++ [x]) (ids ++ [None]) ks new.
Proof.
  intros [A B C D E F G] K. split.
  - rewrite !app_length. cbn. lia.
  - intros i y H Ky. apply nth_error_snoc in H. destruct H as [H | [H1 H2]].
    + apply nth_error_grow. exact (B _ _ H Ky).
    + subst i. rewrite <- A. apply nth_error_last.
  - intros i y k H Ky. apply nth_error_snoc in H. destruct H as [H | [H1 H2]]; [| congruence].
    destruct (C _ _ _ H Ky) as [p [f [k0 [P1 [P2 [P3 [P4 P5]]]]]]].
    exists p, f, k0. repeat apply conj; try (apply nth_error_grow); auto.
    intros j q Hj L. apply nth_error_snoc in Hj. destruct Hj as [Hj | [_ Hj]]; [exact (P4 _ _ Hj L) | discriminate].
  - intros p k0 H. destruct (D _ _ H) as [f [P3 P4]]. exists f. split; [apply nth_error_grow; exact P3 |].
    intros j q Hj L. apply nth_error_snoc in Hj. destruct Hj as [Hj | [_ Hj]]; [exact (P4 _ _ Hj L) | discriminate].
  - intros i g H. apply nth_error_snoc in H. destruct H as [H | [_ H]]; [exact (E _ _ H) | discriminate].
  - exact F.
  - rewrite app_length. lia.
Qed.

Lemma assigned_known row ids ks new x k p k0 : assigned row ids ks new -> key_of x = Some k ->
  nth_error ks p = Some k0 -> key_eqb k0 k = true -> assigned (row ++ [x]) (ids ++ [Some (new + p)]) ks new.
Proof.
  intros [A B C D E F G] K P Q.
  assert (First : forall p' f, nth_error ids f = Some (Some (new + p')) ->
            (forall j q, nth_error ids j = Some (Some (new + q)) -> p' <= q -> f <= j) ->
            forall j q, nth_error (ids ++ [Some (new + p)]) j = Some (Some (new + q)) -> p' <= q -> f <= j).
  { intros p' f Hf P4 j q Hj L. apply nth_error_snoc in Hj. destruct Hj as [Hj | [Hj _]]; [exact (P4 _ _ Hj L) |].
    apply nth_error_lt in Hf. lia. }
  split.
  - rewrite !app_length. cbn. lia.
  - intros i y H Ky. apply nth_error_snoc in H. destruct H as [H | [H1 H2]]; [| congruence].
    apply nth_error_grow. exact (B _ _ H Ky).
  - intros i y k1 H Ky. apply nth_error_snoc in H. destruct H as [H | [H1 H2]].
    + destruct (C _ _ _ H Ky) as [p1 [f [k2 [P1 [P2 [P3 [P4 P5]]]]]]].
      exists p1, f, k2. repeat apply conj; try (apply nth_error_grow); auto. exact (First _ _ P3 P4).
    + subst y. assert (k1 = k) by congruence. subst k1. destruct (D _ _ P) as [f [P3 P4]].
      exists p, f, k0. repeat apply conj; auto.
      * subst i. rewrite <- A. apply nth_error_last.
      * apply nth_error_grow. exact P3.
      * exact (First _ _ P3 P4).
  - intros p1 k1 H. destruct (D _ _ H) as [f [P3 P4]]. exists f.
    split; [apply nth_error_grow; exact P3 | exact (First _ _ P3 P4)].
  - intros i g H. apply nth_error_snoc in H. destruct H as [H | [_ H]]; [exact (E _ _ H) |].
    assert (g = new + p) by congruence. apply nth_error_lt in P. lia.
  - exact F.
  - rewrite app_length. lia.
Qed.

Lemma assigned_new row ids ks new x k : assigned row ids ks new -> key_of x = Some k ->
  (forall k', In k' ks -> key_eqb k' k = false) ->
  assigned (row ++ [x]) (ids ++ [Some (new + length ks)]) (ks ++ [k]) new.
Proof.
  intros [A B C D E F G] K N.
  assert (First : forall p' f, p' < length ks -> nth_error ids f = Some (Some (new + p')) ->
            (forall j q, nth_error ids j = Some (Some (new + q)) -> p' <= q -> f <= j) ->
            forall j q, nth_error (ids ++ [Some (new + length ks)]) j = Some (Some (new + q)) -> p' <= q -> f <= j).
  { intros p' f _ Hf P4 j q Hj L. apply nth_error_snoc in Hj. destruct Hj as [Hj | [Hj _]]; [exact (P4 _ _ Hj L) |].
    apply nth_error_lt in Hf. lia. }
  assert (Last : forall j q, nth_error (ids ++ [Some (new + length ks)]) j = Some (Some (new + q)) ->
            length ks <= q -> length ids <= j).
  { intros j q Hj L. apply nth_error_snoc in Hj. destruct Hj as [Hj | [Hj _]]; [| lia].
    apply E in Hj. lia. }
  split.
  - rewrite !app_length. cbn. lia.
  - intros i y H Ky. apply nth_error_snoc in H. destruct H as [H | [H1 H2]]; [| congruence].
    apply nth_error_grow. exact (B _ _ H Ky).
  - intros i y k1 H Ky. apply nth_error_snoc in H. destruct H as [H | [H1 H2]].
    + destruct (C _ _ _ H Ky) as [p1 [f [k2 [P1 [P2 [P3 [P4 P5]]]]]]].
      exists p1, f, k2. repeat apply conj; try (apply nth_error_grow); auto.
      apply First; auto. apply nth_error_lt in P2. exact P2.
    + subst y. assert (k1 = k) by congruence. subst k1.
      exists (length ks), i, k. subst i. rewrite <- A. repeat apply conj; auto using nth_error_last.
  - intros p1 k1 H. apply nth_error_snoc in H. destruct H as [H | [H1 H2]].
    + destruct (D _ _ H) as [f [P3 P4]]. exists f.
      split; [apply nth_error_grow; exact P3 | apply First; auto]. apply nth_error_lt in H. exact H.
    + subst p1. exists (length ids). split; [apply nth_error_last | exact Last].
  - intros i g H. rewrite app_length. cbn. apply nth_error_snoc in H. destruct H as [H | [_ H]].
    + apply E in H. lia.
    + assert (g = new + length ks) by congruence. lia.
  - intros p q a b L Ha Hb. apply nth_error_snoc in Ha. apply nth_error_snoc in Hb.
    destruct Ha as [Ha | [Ha _]]; destruct Hb as [Hb | [Hb Eb]].
    + exact (F _ _ _ _ L Ha Hb).
    + subst b. apply N. apply nth_error_In in Ha. exact Ha.
    + apply nth_error_lt in Hb. lia.
    + lia.
  - rewrite !app_length. cbn. lia.
Qed.

(** a row is processed from the left *)
Lemma process_row_assigned : forall row row0 ids0 ks0 new, assigned row0 ids0 ks0 new ->
  exists ids ks, process_row row (map_of new ks0) (new + length ks0) = (ids, ks, new + length (ks0 ++ ks)) /\
                 assigned (row0 ++ row) (ids0 ++ ids) (ks0 ++ ks) new.
Proof.
  induction row as [| x row IH]; intros row0 ids0 ks0 new A.
  - exists [], []. cbn. rewrite !app_nil_r. auto.
  - assert (Skip : key_of x = None ->
      process_row (x :: row) (map_of new ks0) (new + length ks0)
      = (let '(ids, ks, new') := process_row row (map_of new ks0) (new + length ks0) in (None :: ids, ks, new'))).
    { destruct x as [[g |] [v |]]; cbn; intros K; try discriminate; reflexivity. }
    destruct (key_of x) as [k |] eqn:K.
    + assert (X : exists g v, x = (Some g, Some v) /\ k = (g, v)).
      { destruct x as [[g |] [v |]]; cbn in K; try discriminate. exists g, v. split; congruence. }
      destruct X as [g [v [-> ->]]].
      cbn [GroupModel.process_row]. destruct (find_key (g, v) (map_of new ks0)) as [id |] eqn:Q.
      * apply find_some in Q. destruct Q as [k' [I Q]]. apply map_of_in in I. destruct I as [p [-> I]].
        pose proof (assigned_known _ _ _ _ _ _ _ _ A K I Q) as A'.
        destruct (IH _ _ _ _ A') as [ids [ks [R Z]]]. rewrite R.
        exists (Some (new + p) :: ids), ks. split; [reflexivity |].
        rewrite <- !app_assoc in Z. exact Z.
      * assert (N : forall k', In k' ks0 -> key_eqb k' (g, v) = false).
        { intros k' I. apply In_nth_error in I. destruct I as [p I].
          apply (find_none _ _ Q k' (new + p)). apply map_of_in. exists p. auto. }
        pose proof (assigned_new _ _ _ _ _ _ A K N) as A'.
        destruct (IH _ _ _ _ A') as [ids [ks [R Z]]].
        rewrite map_of_snoc in R. rewrite app_length in R at 1. cbn [length] in R.
        replace (new + (length ks0 + 1)) with (S (new + length ks0)) in R by lia.
        match goal with |- context [GroupModel.process_row T eqb row ?m ?n] =>
          replace (GroupModel.process_row T eqb row m n) with (ids, ks, new + length ((ks0 ++ [(g, v)]) ++ ks))
            by (symmetry; exact R) end.
        exists (Some (new + length ks0) :: ids), ((g, v) :: ks).
        rewrite <- !app_assoc in Z. cbn [app] in Z.
        rewrite <- !app_assoc. cbn [app]. split; [reflexivity | exact Z].
    + rewrite (Skip eq_refl). pose proof (assigned_skip _ _ _ _ _ A K) as A'.
      destruct (IH _ _ _ _ A') as [ids [ks [R Z]]]. rewrite R.
      exists (None :: ids), ks. split; [reflexivity |]. rewrite <- !app_assoc in Z. exact Z.
Qed.
Lemma process_row_ok row new : exists ids ks, process_row row [] new = (ids, ks, new + length ks) /\ assigned row ids ks new.
Proof.
  destruct (process_row_assigned row [] [] [] new (assigned_nil new)) as [ids [ks [R Z]]].
  exists ids, ks. cbn in R. rewrite Nat.add_0_r in R. auto.
Qed.

(** items with the same id are those with the same key *)
Lemma assigned_same row ids ks new i j x y a b g h : assigned row ids ks new ->
  nth_error row i = Some x -> nth_error row j = Some y -> key_of x = Some a -> key_of y = Some b ->
  nth_error ids i = Some (Some g) -> nth_error ids j = Some (Some h) -> i <> j -> (g = h <-> key_eqb a b = true).
Proof.
  intros A X Y Ka Kb Hg Hh N.
  destruct (as_id _ _ _ _ A _ _ _ X Ka) as [p [f [k [P1 [P2 [P3 [P4 P5]]]]]]].
  destruct (as_id _ _ _ _ A _ _ _ Y Kb) as [q [f' [k' [Q1 [Q2 [Q3 [Q4 Q5]]]]]]].
  assert (g = new + p) by congruence. assert (h = new + q) by congruence. subst g h. split.
  - intros E. assert (p = q) by lia. subst q. assert (k' = k) by congruence. subst k'.
    assert (f = f'). { pose proof (P4 _ _ Q3 (le_n _)). pose proof (Q4 _ _ P3 (le_n _)). lia. } subst f'.
    destruct P5 as [[-> ->] | P5]; destruct Q5 as [[-> ->] | Q5].
    + congruence.
    + exact Q5.
    + apply key_sym. exact P5.
    + exact (key_trans _ _ _ (key_sym _ _ P5) Q5).
  - intros E. destruct (Nat.eq_dec p q) as [-> | D]; [reflexivity | exfalso].
    assert (K : key_eqb k k' = true).
    { destruct P5 as [[-> ->] | P5]; destruct Q5 as [[-> ->] | Q5].
      - exact E.
      - exact (key_trans _ _ _ E (key_sym _ _ Q5)).
      - exact (key_trans _ _ _ P5 E).
      - exact (key_trans _ _ _ (key_trans _ _ _ P5 E) (key_sym _ _ Q5)). }
    destruct (Nat.lt_total p q) as [L | [L | L]]; [| lia |].
    + pose proof (as_distinct _ _ _ _ A _ _ _ _ L P2 Q2). congruence.
    + pose proof (as_distinct _ _ _ _ A _ _ _ _ L Q2 P2). apply key_sym in K. congruence.
Qed.

(** smaller ids occur first *)
Lemma assigned_order row ids ks new i j g h : assigned row ids ks new ->
  nth_error ids i = Some (Some g) -> nth_error ids j = Some (Some h) -> g < h ->
  exists f, f < j /\ nth_error ids f = Some (Some g).
Proof.
  intros A Hg Hh L. pose proof (as_range _ _ _ _ A _ _ Hg) as R. pose proof (as_range _ _ _ _ A _ _ Hh) as R'.
  destruct (nth_error ks (g - new)) as [k |] eqn:K; [| apply nth_error_None in K; lia].
  destruct (as_first _ _ _ _ A _ _ K) as [f [F1 F2]].
  replace (new + (g - new)) with g in F1 by lia.
  exists f. split; [| exact F1].
  assert (f <= j). { apply (F2 j (h - new)); [| lia]. replace (new + (h - new)) with h by lia. exact Hh. }
  assert (f <> j). { intros ->. assert (g = h) by congruence. lia. } lia.
Qed.
Lemma assigned_key row ids ks new i x k : assigned row ids ks new ->
  nth_error row i = Some x -> key_of x = Some k -> exists p k0,
  nth_error ids i = Some (Some (new + p)) /\ nth_error ks p = Some k0 /\ (k0 = k \/ key_eqb k0 k = true).
Proof.
  intros A X K. destruct (as_id _ _ _ _ A _ _ _ X K) as [p [f [k0 [P1 [P2 [P3 [P4 P5]]]]]]].
  exists p, k0. repeat apply conj; auto. tauto.
Qed.
End Assign.
