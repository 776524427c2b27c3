(** Proofs about DataList: what each operation does to the sequence of items. *)
From Coq Require Import NArith ZArith List Bool Arith Lia.
From Verif Require Import ObjectIdModel ItemModel DataListModel DataListSpec ListRunSpec.
Import ListNotations.
Local Open Scope nat_scope.

Ltac dif := repeat match goal with |- context [if ?b then _ else _] => destruct b end; reflexivity.

(** ** Vectors *)
Section Vec.
Context {A : Type}.
Implicit Type v : list A.

Lemma length_upd v i x : length (upd v i x) = length v.
Proof. revert i. induction v; intros [|i]; cbn; auto. Qed.

Lemma nth_upd v i x j d : nth j (upd v i x) d = if (j =? i) && (i <? length v) then x else nth j v d.
Proof.
  revert i j. induction v as [|a v IH]; intros i j; cbn.
  - rewrite andb_false_r. reflexivity.
  - destruct i, j; cbn; auto. rewrite IH. reflexivity.
Qed.

Lemma upd_app v i x : i < length v -> upd v i x = firstn i v ++ x :: skipn (S i) v.
Proof.
  revert i. induction v as [|a v IH]; intros i H; cbn in H; [lia|].
  destruct i; cbn; [reflexivity|]. f_equal. apply IH. lia.
Qed.

Lemma upd_same_repeat (d : A) n i : upd (repeat d n) i d = repeat d n.
Proof. revert i. induction n; intros [|i]; cbn; auto. now rewrite IHn. Qed.

Lemma nth_firstn n v j d : nth j (firstn n v) d = if j <? n then nth j v d else d.
Proof.
  revert v j. induction n; intros v j; cbn [firstn].
  - now destruct j.
  - destruct v as [|a v].
    + destruct j; cbn; dif.
    + destruct j; cbn; auto. rewrite IHn. reflexivity.
Qed.

Lemma nth_skipn n v j d : nth j (skipn n v) d = nth (n + j) v d.
Proof.
  revert v. induction n; intros v; cbn; auto. destruct v; cbn; auto. now destruct j.
Qed.

Lemma nth_repeat_lt (d x : A) n j : nth j (repeat x n) d = if j <? n then x else d.
Proof. revert j. induction n; intros [|j]; cbn; auto. apply IHn. Qed.

Lemma length_resize (d : A) v n : length (vec_resize d v n) = n.
Proof. unfold vec_resize. rewrite app_length, firstn_length, repeat_length. lia. Qed.

Lemma nth_resize (d : A) v n j : nth j (vec_resize d v n) d = if j <? n then nth j v d else d.
Proof.
  unfold vec_resize. destruct (Nat.ltb_spec j (min n (length v))).
  - rewrite app_nth1 by (rewrite firstn_length; lia). rewrite nth_firstn. reflexivity.
  - rewrite app_nth2 by (rewrite firstn_length; lia). rewrite nth_repeat_lt.
    destruct (Nat.ltb_spec j n); [rewrite (nth_overflow v) by lia|]; dif.
Qed.

Lemma nth_ext_eq v w d : length v = length w -> (forall j, j < length v -> nth j v d = nth j w d) -> v = w.
Proof. intros. now apply (nth_ext v w d d). Qed.

(** A loop that assigns positions a, a+1, ... *)
Lemma length_fold_upd (g : nat -> A) (h : nat -> nat) l v :
  length (fold_left (fun v i => upd v (h i) (g i)) l v) = length v.
Proof. revert v. induction l; intros; cbn; auto. rewrite IHl. apply length_upd. Qed.

Lemma nth_fold_upd (g : nat -> A) s a n v j d : 
  nth j (fold_left (fun v i => upd v (s + i) (g i)) (seq a n) v) d =
  if (s + a <=? j) && (j <? s + a + n) && (j <? length v) then g (j - s) else nth j v d.
Proof.
  revert a v. induction n; intros a v; cbn [seq fold_left].
  - replace ((s + a <=? j) && (j <? s + a + 0)) with false; [reflexivity|].
    destruct (Nat.leb_spec (s + a) j), (Nat.ltb_spec j (s + a + 0)); cbn; auto; lia.
  - rewrite IHn, length_upd, nth_upd.
    destruct (Nat.leb_spec (s + a) j), (Nat.ltb_spec j (s + a + S n)), (Nat.ltb_spec j (length v)),
      (Nat.leb_spec (s + S a) j), (Nat.ltb_spec j (s + S a + n)), (Nat.eqb_spec j (s + a)),
      (Nat.ltb_spec (s + a) (length v)); cbn; auto; try lia.
    subst. f_equal. lia.
Qed.

Lemma nth_fold_upd0 (g : nat -> A) a n v j d :
  nth j (fold_left (fun v i => upd v i (g i)) (seq a n) v) d =
  if (a <=? j) && (j <? a + n) && (j <? length v) then g j else nth j v d.
Proof. generalize (nth_fold_upd g 0 a n v j d). cbn [Nat.add]. now rewrite Nat.sub_0_r. Qed.

(** The loop of InsertMissing that moves the tail up *)
Lemma length_fold_move (d : A) c l v :
  length (fold_left (fun v i => upd v (i + c) (nth i v d)) l v) = length v.
Proof. revert v. induction l; intros; cbn; auto. rewrite IHl. apply length_upd. Qed.

Lemma nth_fold_move (d : A) c m : forall from v j, from + m + c <= length v -> 0 < c ->
  nth j (fold_left (fun v i => upd v (i + c) (nth i v d)) (rev (seq from m)) v) d =
  if (from + c <=? j) && (j <? from + m + c) then nth (j - c) v d else nth j v d.
Proof.
  induction m; intros from v j H Hc.
  - cbn [seq rev fold_left]. destruct (Nat.leb_spec (from + c) j), (Nat.ltb_spec j (from + 0 + c)); cbn [andb]; auto; try lia.
  - cbn [seq rev]. rewrite fold_left_app. cbn [fold_left].
    rewrite nth_upd, length_fold_move, !IHm by lia.
    destruct (Nat.eqb_spec j (from + c)).
    + subst j. destruct (Nat.ltb_spec (from + c) (length v)); [|lia]. cbn [andb].
      replace (from + c - c) with from by lia.
      destruct (Nat.leb_spec (S from + c) from); [lia|]. cbn [andb].
      destruct (Nat.leb_spec (from + c) (from + c)), (Nat.ltb_spec (from + c) (from + S m + c)); cbn; auto; lia.
    + cbn [andb].
      destruct (Nat.leb_spec (S from + c) j), (Nat.ltb_spec j (S from + m + c)),
        (Nat.leb_spec (from + c) j), (Nat.ltb_spec j (from + S m + c)); cbn; auto; lia.
Qed.
End Vec.

Lemma map_upd {A B} (f : A -> B) v i x : map f (upd v i x) = upd (map f v) i (f x).
Proof. revert i. induction v; intros [|i]; cbn; auto. now rewrite IHv. Qed.
Lemma map_firstn {A B} (f : A -> B) n v : map f (firstn n v) = firstn n (map f v).
Proof. symmetry. apply firstn_map. Qed.
Lemma map_skipn {A B} (f : A -> B) n v : map f (skipn n v) = skipn n (map f v).
Proof. symmetry. apply skipn_map. Qed.
Lemma map_repeat {A B} (f : A -> B) x n : map f (repeat x n) = repeat (f x) n.
Proof. induction n; cbn; congruence. Qed.
Lemma map_resize {A B} (f : A -> B) d v n : map f (vec_resize d v n) = vec_resize (f d) (map f v) n.
Proof. unfold vec_resize. now rewrite map_app, map_firstn, map_repeat, map_length. Qed.
Lemma map_fold_upd {A B} (f : A -> B) (g : nat -> A) (h : nat -> nat) l v :
  map f (fold_left (fun v i => upd v (h i) (g i)) l v) =
  fold_left (fun v i => upd v (h i) (f (g i))) l (map f v).
Proof. revert v. induction l; intros; cbn; auto. now rewrite IHl, map_upd. Qed.
Lemma map_fold_move {A B} (f : A -> B) d c l v :
  map f (fold_left (fun v i => upd v (i + c) (nth i v d)) l v) =
  fold_left (fun v i => upd v (i + c) (nth i v (f d))) l (map f v).
Proof. revert v. induction l; intros; cbn; auto. now rewrite IHl, map_upd, map_nth. Qed.

(** ** Contents *)
Definition wf_list (l : datalist) : Prop :=
  match data_ l with
  | AllMissing => True
  | Typed k v => length v = size_ l
  | Items v => length v = size_ l
  end.

Lemma contents_length l : wf_list l -> length (contents l) = size_ l.
Proof.
  unfold wf_list, contents. destruct (data_ l); intros H.
  - apply repeat_length.
  - now rewrite map_length.
  - exact H.
Qed.

Lemma dl_get_contents l i : dl_get l i = nth i (contents l) None.
Proof.
  unfold dl_get, contents. destruct (data_ l).
  - rewrite nth_repeat_lt. dif.
  - change (@None value) with (item_of_opt k None). now rewrite map_nth.
  - reflexivity.
Qed.

(** [visit] with a natural function *)
Lemma visit_contents n (fn : forall A : Type, A -> list A -> list A) l :
  (forall A B (f : A -> B) d v, map f (fn A d v) = fn B (f d) (map f v)) ->
  fn ditem None (repeat None (size_ l)) = repeat None n ->
  contents (mkList n (visit fn (data_ l))) = fn ditem None (contents l).
Proof.
  intros Nat E. unfold contents. cbn [data_ size_].
  destruct (data_ l); cbn [visit].
  - now rewrite E.
  - now rewrite Nat.
  - reflexivity.
Qed.

Lemma visit_wf n (fn : forall A : Type, A -> list A -> list A) l :
  wf_list l -> (forall A d (v : list A), length v = size_ l -> length (fn A d v) = n) ->
  wf_list (mkList n (visit fn (data_ l))).
Proof.
  intros W H. unfold wf_list in *. cbn [data_ size_]. destruct (data_ l); cbn; auto.
Qed.

Lemma set_to_missing_ok l i : wf_list l ->
  wf_list (set_to_missing l i) /\ size_ (set_to_missing l i) = size_ l /\
  contents (set_to_missing l i) = upd (contents l) i None.
Proof.
  intros W. unfold set_to_missing. split; [|split; [reflexivity|]].
  - apply visit_wf; auto. intros. now rewrite length_upd.
  - apply (visit_contents _ (fun A d v => upd v i d)).
    + intros. apply map_upd.
    + apply upd_same_repeat.
Qed.

Lemma set_missing_range_ok l a b : wf_list l -> a <= b <= size_ l ->
  wf_list (set_missing_range l a b) /\ size_ (set_missing_range l a b) = size_ l /\
  contents (set_missing_range l a b) = firstn a (contents l) ++ repeat None (b - a) ++ skipn b (contents l).
Proof.
  intros W H. unfold set_missing_range. split; [|split; [reflexivity|]].
  - apply visit_wf; auto. intros. now rewrite length_fold_upd.
  - rewrite (visit_contents _ (fun A d v => fold_left (fun v i => upd v i d) (seq a (b - a)) v)).
    + assert (L := contents_length l W). apply (nth_ext_eq _ _ None).
      * rewrite length_fold_upd, !app_length, firstn_length, skipn_length, repeat_length. lia.
      * intros j Hj. rewrite length_fold_upd in Hj.
        rewrite (nth_fold_upd0 (fun _ => None)).
        destruct (Nat.leb_spec a j), (Nat.ltb_spec j (a + (b - a))), (Nat.ltb_spec j (length (contents l)));
          cbn [andb]; try lia.
        -- rewrite app_nth2, app_nth1 by (rewrite ?firstn_length, ?repeat_length; lia).
           rewrite nth_repeat_lt. dif.
        -- rewrite !app_nth2 by (rewrite ?firstn_length, ?repeat_length; lia).
           rewrite nth_skipn, firstn_length, repeat_length. f_equal. lia.
        -- rewrite app_nth1 by (rewrite firstn_length; lia). rewrite nth_firstn.
           destruct (Nat.ltb_spec j a); [reflexivity|lia].
    + intros. apply (map_fold_upd f (fun _ => d) (fun i => i)).
    + generalize (seq a (b - a)). intros q. induction q; cbn; auto. now rewrite upd_same_repeat.
Qed.

Lemma remove_ok l a c : wf_list l -> a + c <= size_ l ->
  wf_list (remove l a c) /\ size_ (remove l a c) = size_ l - c /\
  contents (remove l a c) = firstn a (contents l) ++ skipn (a + c) (contents l).
Proof.
  intros W H. unfold remove. split; [|split; [reflexivity|]].
  - apply visit_wf; auto. intros. unfold vec_erase. rewrite app_length, firstn_length, skipn_length. lia.
  - apply (visit_contents _ (fun A d v => vec_erase v a (a + c))).
    + intros. unfold vec_erase. now rewrite map_app, map_firstn, map_skipn.
    + unfold vec_erase. apply (nth_ext_eq _ _ None).
      * rewrite app_length, firstn_length, skipn_length, !repeat_length. lia.
      * intros j Hj. rewrite (nth_repeat_lt None None (size_ l - c)).
        destruct (Nat.ltb_spec j (min a (size_ l))).
        -- rewrite app_nth1 by (rewrite firstn_length, repeat_length; lia).
           rewrite nth_firstn, nth_repeat_lt. dif.
        -- rewrite app_nth2 by (rewrite firstn_length, repeat_length; lia).
           rewrite nth_skipn, nth_repeat_lt. dif.
Qed.

Lemma insert_missing_vec {A} (d : A) v from c : from <= length v ->
  fold_left (fun v i => upd v i d) (seq from c)
    (fold_left (fun v i => upd v (i + c) (nth i v d)) (rev (seq from (length v - from)))
       (vec_resize d v (length v + c))) =
  firstn from v ++ repeat d c ++ skipn from v.
Proof.
  intros H. apply (nth_ext_eq _ _ d).
  - rewrite length_fold_upd, length_fold_move, length_resize, !app_length, firstn_length, skipn_length,
      repeat_length. lia.
  - intros j Hj. rewrite length_fold_upd, length_fold_move, length_resize in Hj.
    rewrite (nth_fold_upd0 (fun _ => d)), length_fold_move, length_resize.
    destruct (Nat.eq_dec c 0) as [->|Hc].
    + replace ((from <=? j) && (j <? from + 0)) with false
        by (destruct (Nat.leb_spec from j), (Nat.ltb_spec j (from + 0)); cbn; auto; lia).
      cbn [andb]. cbn [repeat app]. rewrite firstn_skipn.
      replace (length v + 0) with (length v) by lia.
      assert (E : vec_resize d v (length v) = v).
      { unfold vec_resize. rewrite firstn_all, Nat.sub_diag. apply app_nil_r. }
      rewrite E. f_equal. generalize (rev (seq from (length v - from))). intros q.
      assert (U : forall i, upd v i (nth i v d) = v).
      { clear. induction v; intros [|i]; cbn; auto. now rewrite IHv. }
      induction q as [|x q IH]; cbn; auto. rewrite Nat.add_0_r, U. exact IH.
    + rewrite nth_fold_move by (rewrite ?length_resize; lia). rewrite !nth_resize.
      destruct (Nat.leb_spec from j), (Nat.ltb_spec j (from + c)), (Nat.ltb_spec j (length v + c)); cbn [andb]; try lia.
      * rewrite app_nth2, app_nth1 by (rewrite ?firstn_length, ?repeat_length; lia).
        rewrite nth_repeat_lt. dif.
      * destruct (Nat.leb_spec (from + c) j), (Nat.ltb_spec j (from + (length v - from) + c)),
          (Nat.ltb_spec (j - c) (length v + c)); cbn [andb]; try lia.
        rewrite !app_nth2 by (rewrite ?firstn_length, ?repeat_length; lia).
        rewrite nth_skipn, firstn_length, repeat_length. f_equal. lia.
      * destruct (Nat.leb_spec (from + c) j); [lia|]. cbn [andb].
        rewrite app_nth1 by (rewrite firstn_length; lia). rewrite nth_firstn.
        destruct (Nat.ltb_spec j from); [reflexivity|lia].
Qed.

Lemma insert_missing_ok l from c : wf_list l -> from <= size_ l ->
  wf_list (insert_missing l from c) /\ size_ (insert_missing l from c) = size_ l + c /\
  contents (insert_missing l from c) = firstn from (contents l) ++ repeat None c ++ skipn from (contents l).
Proof.
  intros W H. unfold insert_missing. split; [|split; [reflexivity|]].
  - apply visit_wf; auto. intros A d v Hv. cbv zeta.
    now rewrite length_fold_upd, length_fold_move, length_resize.
  - rewrite (visit_contents _ (fun A d v =>
       let v := vec_resize d v (size_ l + c) in
       let v := fold_left (fun v i => upd v (i + c) (nth i v d)) (rev (seq from (size_ l - from))) v in
       fold_left (fun v i => upd v i d) (seq from c) v)); cbv zeta.
    + rewrite <- (contents_length l W). apply insert_missing_vec. now rewrite contents_length.
    + intros. rewrite (map_fold_upd f (fun _ => d) (fun i => i)), map_fold_move, map_resize. reflexivity.
    + generalize (insert_missing_vec (@None value) (repeat None (size_ l)) from c).
      rewrite repeat_length. intros E. rewrite E by exact H.
      apply (nth_ext_eq _ _ None).
      * rewrite !app_length, firstn_length, skipn_length, !repeat_length. lia.
      * intros j _. rewrite (nth_repeat_lt None None (size_ l + c)).
        assert (X : forall w : list ditem, Forall (fun x => x = None) w -> nth j w None = None).
        { intros w Hw. destruct (Nat.lt_ge_cases j (length w)) as [L|L].
          - rewrite Forall_forall in Hw. apply Hw, nth_In, L.
          - now apply nth_overflow. }
        assert (R : forall m, Forall (fun x : ditem => x = None) (repeat None m)).
        { intros m. induction m; constructor; auto. }
        assert (E2 : (if j <? size_ l + c then None else None) = @None value) by dif.
        rewrite E2. apply X.
        assert (R' := R (size_ l)). rewrite <- (firstn_skipn from) in R'. apply Forall_app in R'.
        apply Forall_app. split; [apply R'|]. apply Forall_app. split; [apply R | apply R'].
Qed.

Lemma resize_ok l n : wf_list l ->
  wf_list (resize l n) /\ size_ (resize l n) = n /\
  contents (resize l n) = vec_resize None (contents l) n.
Proof.
  intros W. unfold resize. split; [|split; [reflexivity|]].
  - apply visit_wf; auto. intros. apply length_resize.
  - apply (visit_contents _ (fun A d v => vec_resize d v n)).
    + intros. apply map_resize.
    + apply (nth_ext_eq _ _ None).
      * now rewrite length_resize, repeat_length.
      * intros j _. rewrite nth_resize, !nth_repeat_lt. dif.
Qed.

Lemma convert_ok l : wf_list l -> convert_to_items l = contents l.
Proof.
  intros W. assert (L := contents_length l W). unfold convert_to_items.
  unfold wf_list in W. unfold contents in L |- *. destruct (data_ l) as [|k v|v]; auto.
  - apply (nth_ext_eq _ _ None).
    + now rewrite length_fold_upd, repeat_length, map_length.
    + intros j Hj. rewrite length_fold_upd, repeat_length in Hj.
      rewrite (nth_fold_upd0 (fun i => item_of_opt k (nth i v None))), repeat_length.
      cbn [Nat.leb Nat.add andb]. destruct (Nat.ltb_spec j (size_ l)); [|lia]. cbn [andb].
      change (@None value) with (item_of_opt k None). now rewrite map_nth.
  - apply (nth_ext_eq _ _ None).
    + now rewrite length_fold_upd, repeat_length.
    + intros j Hj. rewrite length_fold_upd, repeat_length in Hj.
      rewrite (nth_fold_upd0 (fun i => nth i v None)), repeat_length.
      cbn [Nat.leb Nat.add andb]. destruct (Nat.ltb_spec j (size_ l)); [|lia]. reflexivity.
Qed.

Lemma apply_ok k fn fi l : wf_list l ->
  (forall v, map (item_of_opt k) (fn v) = fi (map (item_of_opt k) v)) ->
  wf_list (apply_item_or k fn fi l) /\
  contents (apply_item_or k fn fi l) = fi (contents l).
Proof.
  intros W Nat. unfold apply_item_or.
  assert (Fr : contents l = repeat None (size_ l) ->
    wf_list (mkList (length (fn (repeat None (size_ l)))) (Typed k (fn (repeat None (size_ l))))) /\
    contents (mkList (length (fn (repeat None (size_ l)))) (Typed k (fn (repeat None (size_ l))))) = fi (contents l)).
  { intros E. unfold wf_list, contents at 1. cbn [data_ size_]. split; [reflexivity|].
    rewrite Nat, map_repeat, E. reflexivity. }
  destruct (Nat.eqb_spec (size_ l) 0) as [Z|NZ].
  - apply Fr. assert (L := contents_length l W). rewrite Z in L |- *. cbn.
    now destruct (contents l).
  - assert (C := convert_ok l W). unfold wf_list in W.
    destruct (data_ l) as [|k' v|v] eqn:D.
    + apply Fr. unfold contents. now rewrite D.
    + destruct (kind_eq_dec k' k) as [e|ne].
      * subst k'. cbn [eq_rect]. unfold wf_list, contents. cbn [data_ size_]. rewrite D.
        split; [reflexivity|]. apply Nat.
      * unfold wf_list, contents at 1. cbn [data_ size_]. split; [reflexivity|]. now rewrite C.
    + unfold wf_list, contents. cbn [data_ size_]. rewrite D. split; reflexivity.
Qed.

Lemma size_of_contents l : wf_list l -> size_ l = length (contents l).
Proof. intros. symmetry. now apply contents_length. Qed.

Lemma set_typed_ok k l i x : wf_list l ->
  wf_list (set_typed k l i x) /\ contents (set_typed k l i x) = upd (contents l) i (item_of_opt k x).
Proof.
  intros W. apply (apply_ok k (fun v => upd v i x) (fun v => upd v i (item_of_opt k x)) l W).
  intros v. apply map_upd.
Qed.

Lemma set_item_ok l i x : wf_list l ->
  wf_list (set_item l i x) /\ contents (set_item l i x) = upd (contents l) i x.
Proof.
  intros W. unfold set_item. destruct (data_ l) as [|k' v|v] eqn:D.
  - destruct x as [[k x]|]; [apply (set_typed_ok k l i (Some x) W)|].
    destruct (set_to_missing_ok l i W) as (A & _ & B). auto.
  - destruct x as [[k x]|]; [apply (set_typed_ok k l i (Some x) W)|].
    destruct (set_to_missing_ok l i W) as (A & _ & B). auto.
  - unfold wf_list, contents in *. rewrite D in *. cbn [data_ size_]. now rewrite length_upd.
Qed.

Lemma insert_typed_ok k l i x : wf_list l ->
  wf_list (insert_typed k l i x) /\
  contents (insert_typed k l i x) = vec_insert (contents l) i (item_of_opt k x).
Proof.
  intros W. apply (apply_ok k (fun v => vec_insert v i x) (fun v => vec_insert v i (item_of_opt k x)) l W).
  intros v. unfold vec_insert. rewrite map_app, map_firstn. cbn. now rewrite map_skipn.
Qed.

Lemma insert_item_ok l i x : wf_list l -> i <= size_ l ->
  wf_list (insert_item l i x) /\ contents (insert_item l i x) = vec_insert (contents l) i x.
Proof.
  intros W H. unfold insert_item.
  assert (M : wf_list (insert_missing l i 1) /\ contents (insert_missing l i 1) = vec_insert (contents l) i None).
  { destruct (insert_missing_ok l i 1 W H) as (A & _ & B). auto. }
  destruct (data_ l) as [|k' v|v] eqn:D.
  - destruct x as [[k x]|]; [apply (insert_typed_ok k l i (Some x) W) | exact M].
  - destruct x as [[k x]|]; [apply (insert_typed_ok k l i (Some x) W) | exact M].
  - unfold wf_list, contents in *. rewrite D in *. cbn [data_ size_]. auto.
Qed.

Lemma vec_insert_end {A} (v : list A) x : vec_insert v (length v) x = v ++ [x].
Proof. unfold vec_insert. now rewrite firstn_all, skipn_all. Qed.

Lemma skipn_skipn {A} a b (v : list A) : skipn a (skipn b v) = skipn (a + b) v.
Proof.
  revert v. induction b; intros v; [now rewrite Nat.add_0_r|].
  rewrite Nat.add_succ_r. destruct v; cbn; [apply skipn_nil | apply IHb].
Qed.

(** Writing a run of items at [start] *)
Lemma fold_upd_combine {A B} (f : B -> A) start (xs : list B) v : start + length xs <= length v ->
  fold_left (fun v '(i, x) => upd v (start + i) (f x)) (combine (seq 0 (length xs)) xs) v =
  firstn start v ++ map f xs ++ skipn (start + length xs) v.
Proof.
  assert (G : forall xs a v, start + a + length xs <= length v ->
    fold_left (fun v '(i, x) => upd v (start + i) (f x)) (combine (seq a (length xs)) xs) v =
    firstn (start + a) v ++ map f xs ++ skipn (start + a + length xs) v).
  { clear. induction xs as [|x xs IH]; intros a v H; cbn [length seq combine fold_left map].
    - cbn [app]. rewrite Nat.add_0_r. symmetry. apply firstn_skipn.
    - cbn [length] in H. rewrite IH by (rewrite length_upd; lia).
      rewrite upd_app by lia. 
      replace (start + S a) with (S (start + a)) by lia.
      assert (L : length (firstn (start + a) v) = start + a) by (rewrite firstn_length; lia).
      rewrite firstn_app, L. rewrite firstn_all2 by lia.
      replace (S (start + a) - (start + a)) with 1 by lia.
      rewrite skipn_app, L. rewrite (skipn_all2 (firstn (start + a) v)) by lia.
      replace (S (start + a) + length xs - (start + a)) with (1 + length xs) by lia.
      cbn [firstn app Nat.add]. change (skipn (S (length xs)) (f x :: skipn (S (start + a)) v)) with (skipn (length xs) (skipn (S (start + a)) v)).
      rewrite skipn_skipn.
      replace (length xs + S (start + a)) with (start + a + S (length xs)) by lia.
      rewrite <- app_assoc. cbn [app]. reflexivity. }
  intros H. rewrite (G xs 0 v) by lia. now rewrite Nat.add_0_r.
Qed.
