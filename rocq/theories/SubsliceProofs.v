(** Slicing by positions chooses the items that slicing of nested lists chooses. *)
From Coq Require Import NArith ZArith List Bool Arith Lia Permutation.
From Verif Require Import ObjectIdModel SchemaModel ItemModel SliceModel SliceSpec SliceProofs SliceBuildProofs
  SliceOpsModel SliceOpsSpec SliceOpsProofs SliceOrProofs SliceGatherProofs SliceShapeProofs SubsliceModel SubsliceSpec.
Import ListNotations.
Local Open Scope nat_scope.

(** ** Alignment *)
Lemma expand_below : forall {A} (l : list A) e, expand_vals l e = below_it l e.
Proof.
  intros A l. induction l as [|x l IH]; intros [|n e]; auto. unfold expand_vals, below_it in *. cbn. now rewrite IH.
Qed.
Lemma below_app : forall {A} (a b : list A) f,
  below_it (a ++ b) f = below_it a (firstn (length a) f) ++ below_it b (skipn (length a) f).
Proof.
  intros A a. induction a as [|x a IH]; intros b f; [reflexivity|].
  destruct f as [|n f].
  - cbn. destruct b; reflexivity.
  - unfold below_it in *. cbn. rewrite IH. now rewrite app_assoc.
Qed.
Lemma below_repeat : forall {A} (x : A) f, below_it (repeat x (length f)) f = repeat x (list_sum f).
Proof.
  intros A x f. induction f as [|n f IH]; [reflexivity|]. unfold below_it in *. cbn [length repeat map2 concat].
  rewrite IH. change (list_sum (n :: f)) with (n + list_sum f). now rewrite repeat_app.
Qed.
Lemma below_compose : forall {A} e f (l : list A), length l = length e -> list_sum e = length f ->
  below_it l (compose e f) = below_it (below_it l e) f.
Proof.
  intros A e. induction e as [|n e IH]; intros f [|x l] L S; try discriminate; [reflexivity|].
  change (list_sum (n :: e)) with (n + list_sum e) in S. cbn in L.
  unfold compose. cbn [chunks map]. fold (compose e (skipn n f)).
  change (below_it (x :: l) (n :: e)) with (repeat x n ++ below_it l e).
  change (below_it (x :: l) (list_sum (firstn n f) :: compose e (skipn n f)))
    with (repeat x (list_sum (firstn n f)) ++ below_it l (compose e (skipn n f))).
  rewrite IH by (rewrite ?skipn_length; lia). rewrite below_app, repeat_length. f_equal.
  rewrite <- (below_repeat x (firstn n f)). f_equal. rewrite firstn_length. f_equal. lia.
Qed.
Lemma compose_length : forall e f, length (compose e f) = length e.
Proof. intros e f. unfold compose. now rewrite map_length, chunks_length. Qed.
Lemma compose_sum : forall e f, list_sum e = length f -> list_sum (compose e f) = list_sum f.
Proof.
  induction e as [|n e IH]; intros f S.
  - destruct f; [reflexivity|discriminate].
  - change (list_sum (n :: e)) with (n + list_sum e) in S. unfold compose. cbn [chunks map].
    fold (compose e (skipn n f)).
    change (list_sum (list_sum (firstn n f) :: compose e (skipn n f)))
      with (list_sum (firstn n f) + list_sum (compose e (skipn n f))).
    rewrite IH by (rewrite skipn_length; lia). rewrite <- (firstn_skipn n f) at 3. now rewrite list_sum_app.
Qed.
Lemma below_length : forall {A} (l : list A) e, length l = length e -> length (below_it l e) = list_sum e.
Proof.
  intros A l. induction l as [|x l IH]; intros [|n e] L; try discriminate; [reflexivity|].
  unfold below_it in *. cbn [map2 concat]. rewrite app_length, repeat_length, IH by (cbn in L; lia). reflexivity.
Qed.
Lemma below_ones : forall {A} (l : list A), below_it l (repeat 1 (length l)) = l.
Proof. intros A l. induction l as [|x l IH]; [reflexivity|]. unfold below_it in *. cbn. now rewrite IH. Qed.
Lemma sum_ones : forall n, list_sum (repeat 1 n) = n.
Proof. induction n as [|n IH]; [reflexivity|]. cbn [repeat]. change (list_sum (1 :: repeat 1 n)) with (1 + list_sum (repeat 1 n)). lia. Qed.
Lemma below_fold : forall {A} sh e0 k (l : list A), length l = length e0 -> fits (list_sum e0) sh k ->
  below_it l (fold_left compose sh e0) = fold_left below_it sh (below_it l e0).
Proof.
  intros A sh. induction sh as [|e sh IH]; intros e0 k l L F; [reflexivity|]. destruct F as [F1 F2]. cbn [fold_left].
  rewrite (IH _ k); [|now rewrite compose_length|rewrite compose_sum; auto].
  rewrite below_compose; auto.
Qed.
Lemma edge_fold : forall sh e0 k, fits (list_sum e0) sh k ->
  length (fold_left compose sh e0) = length e0 /\ list_sum (fold_left compose sh e0) = k.
Proof.
  intros sh. induction sh as [|e sh IH]; intros e0 k F; [cbn in *; auto|]. destruct F as [F1 F2]. cbn [fold_left].
  destruct (IH (compose e0 e) k) as [H1 H2]; [rewrite compose_sum; auto|].
  rewrite H1, compose_length. auto.
Qed.
Lemma broadcast_stretched : forall {A} (l : list A) from to_ k, fits (length l) (skipn (length from) to_) k ->
  broadcast l from to_ = stretched l from to_.
Proof.
  intros A l from to_ k F. unfold broadcast, broadcast_edge, stretched. rewrite expand_below.
  rewrite (below_fold _ _ k); [now rewrite below_ones|now rewrite repeat_length|now rewrite sum_ones].
Qed.
Lemma below_map : forall {A B} (f : A -> B) l e, below_it (map f l) e = map f (below_it l e).
Proof.
  intros A B f l. induction l as [|x l IH]; intros [|n e]; auto. unfold below_it in *. cbn.
  rewrite map_app, IH. f_equal. clear. induction n; cbn; congruence.
Qed.
Lemma fold_below_map : forall {A B} (f : A -> B) sh l, fold_left below_it sh (map f l) = map f (fold_left below_it sh l).
Proof. intros A B f sh. induction sh as [|e sh IH]; intros l; cbn; auto. now rewrite below_map, IH. Qed.
Lemma stretched_map : forall {A B} (f : A -> B) l from to_, stretched (map f l) from to_ = map f (stretched l from to_).
Proof. intros. apply fold_below_map. Qed.
Lemma fold_below_length : forall {A} sh k (l : list A), fits (length l) sh k -> length (fold_left below_it sh l) = k.
Proof.
  intros A sh. induction sh as [|e sh IH]; intros k l F; cbn in *; auto. destruct F as [F1 F2].
  apply IH. rewrite below_length; auto.
Qed.
Lemma stretched_length : forall {A} (l : list A) from to_ k, fits (length l) (skipn (length from) to_) k ->
  length (stretched l from to_) = k.
Proof. intros. now apply fold_below_length. Qed.
Lemma below_in : forall {A} (l : list A) e x, In x (below_it l e) -> In x l.
Proof.
  intros A l. induction l as [|y l IH]; intros [|n e] x H; try contradiction.
  change (below_it (y :: l) (n :: e)) with (repeat y n ++ below_it l e) in H.
  apply in_app_or in H. destruct H as [H|H]; [left; symmetry; eapply repeat_spec; eauto|right; eauto].
Qed.
Lemma stretched_in : forall {A} (l : list A) from to_ x, In x (stretched l from to_) -> In x l.
Proof.
  intros A l from to_ x. unfold stretched. generalize (skipn (length from) to_) as sh. intros sh. revert l.
  induction sh as [|e sh IH]; intros l H; cbn in *; auto. apply IH in H. eapply below_in; eauto.
Qed.

(** ** The common shape *)
Lemma is_prefix_spec : forall s c, is_prefix s c = true <-> exists r, c = s ++ r.
Proof.
  intros s c. unfold is_prefix. destruct (list_eq_dec edge_dec (firstn (length s) c) s) as [E|E]; split; auto; try discriminate.
  - intros _. exists (skipn (length s) c). rewrite <- E at 1. symmetry. apply firstn_skipn.
  - intros (r & ->). destruct E. now rewrite firstn_app, Nat.sub_diag, firstn_all, app_nil_r.
Qed.
Lemma is_prefix_broadcastable : forall s c, is_prefix s c = broadcastable s c.
Proof.
  intros s c. destruct (broadcastable s c) eqn:E.
  - apply is_prefix_spec. now apply broadcastable_spec.
  - destruct (is_prefix s c) eqn:P; auto. apply is_prefix_spec, broadcastable_spec in P. congruence.
Qed.
Lemma highest_spec : forall l s, In (highest s l) (s :: l) /\ forall x, In x (s :: l) -> length x <= length (highest s l).
Proof.
  induction l as [|y l IH]; intros s.
  - cbn. split; auto. intros x [->|[]]; auto.
  - change (highest s (y :: l)) with (highest (if length s <? length y then y else s) l).
    destruct (IH (if length s <? length y then y else s)) as [H1 H2].
    destruct (length s <? length y) eqn:E; [apply Nat.ltb_lt in E|apply Nat.ltb_ge in E].
    + split; [destruct H1; [now right; left|now right; right]|].
      intros x [<-|[<-|Hx]].
      * specialize (H2 y (or_introl eq_refl)). lia.
      * apply H2. now left.
      * apply H2. now right.
    + split; [destruct H1; [now left|now right; right]|].
      intros x [<-|[<-|Hx]].
      * apply H2. now left.
      * specialize (H2 s (or_introl eq_refl)). lia.
      * apply H2. now right.
Qed.
Lemma prefix_same_length : forall s c, is_prefix s c = true -> length c <= length s -> s = c.
Proof.
  intros s c H L. apply is_prefix_spec in H. destruct H as (r & ->). rewrite app_length in L.
  destruct r; [now rewrite app_nil_r|cbn in L; lia].
Qed.
Lemma common_aligned : forall s l,
  common_shape s l = match aligned (s :: l) with Some c => Done c | None => Fails EBroadcast end.
Proof.
  intros s l. unfold common_shape. destruct (highest_spec l s) as [HI HL].
  assert (E : forall c, forallb (fun s => broadcastable s c) (s :: l) = forallb (fun s => is_prefix s c) (s :: l)).
  { intros c. generalize (s :: l) as m. induction m as [|y m IH]; auto. cbn [forallb]. rewrite is_prefix_broadcastable, IH. reflexivity. }
  rewrite E. unfold aligned. destruct (find _ (s :: l)) as [c|] eqn:F.
  - apply find_some in F. destruct F as [FI FP]. assert (H : highest s l = c).
    { apply prefix_same_length; [exact (proj1 (forallb_forall _ _) FP _ HI)|auto]. }
    rewrite H, FP. reflexivity.
  - apply (find_none _ _ F) in HI. rewrite HI. reflexivity.
Qed.
Lemma aligned_prefix : forall l c s, aligned l = Some c -> In s l -> exists r, c = s ++ r.
Proof.
  intros l c s H I. apply find_some in H. destruct H as [_ H]. apply is_prefix_spec.
  exact (proj1 (forallb_forall _ _) H _ I).
Qed.
Lemma aligned_in : forall l c, aligned l = Some c -> In c l.
Proof. intros l c H. apply find_some in H. apply H. Qed.
Lemma prefix_fits : forall s c r n k, c = s ++ r -> fits 1 s n -> fits 1 c k -> fits n (skipn (length s) c) k.
Proof.
  intros s c r n k -> S C. rewrite skipn_app, skipn_all, Nat.sub_diag. cbn [skipn app].
  apply fits_app in C. destruct C as (m & C1 & C2). now rewrite (fits_unique _ _ _ _ S C1).
Qed.

(** ** Groups *)
Lemma split_point_spec : forall e o p, p <= length e -> nth_error (split_from o e) p = Some (o + list_sum (firstn p e)).
Proof.
  induction e as [|n e IH]; intros o p L.
  - cbn in L. assert (p = 0) by lia. subst p. cbn. f_equal. lia.
  - destruct p as [|p]; [cbn; f_equal; lia|]. cbn [split_from nth_error]. rewrite IH by (cbn in L; lia).
    cbn [firstn]. change (list_sum (n :: firstn p e)) with (n + list_sum (firstn p e)). f_equal. lia.
Qed.
Lemma sum_firstn_S : forall e p, p < length e -> list_sum (firstn (S p) e) = list_sum (firstn p e) + nth p e 0.
Proof.
  induction e as [|n e IH]; intros p L; [cbn in L; lia|]. destruct p as [|p].
  - cbn. lia.
  - change (firstn (S (S p)) (n :: e)) with (n :: firstn (S p) e). change (firstn (S p) (n :: e)) with (n :: firstn p e).
    change (list_sum (n :: firstn (S p) e)) with (n + list_sum (firstn (S p) e)).
    change (list_sum (n :: firstn p e)) with (n + list_sum (firstn p e)). rewrite IH by (cbn in L; lia). cbn [nth]. lia.
Qed.
Lemma split_size_spec : forall e p, p < length e -> split_size e p = Some (Z.of_nat (nth p e 0)).
Proof.
  intros e p L. unfold split_size, split_point, split_points. rewrite !split_point_spec by lia. cbn [obind].
  rewrite sum_firstn_S by auto. f_equal. lia.
Qed.
Lemma skipn_add : forall {A} a b (l : list A), skipn b (skipn a l) = skipn (a + b) l.
Proof. intros A a. induction a as [|a IH]; intros b [|x l]; cbn; auto. apply skipn_nil. Qed.
Lemma nth_chunk : forall {A} e (l : list A) p, p < length e ->
  nth p (chunks e l) [] = firstn (nth p e 0) (skipn (list_sum (firstn p e)) l).
Proof.
  intros A e. induction e as [|n e IH]; intros l p L; [cbn in L; lia|]. destruct p as [|p]; [reflexivity|].
  cbn [chunks nth firstn]. change (list_sum (n :: firstn p e)) with (n + list_sum (firstn p e)).
  rewrite IH by (cbn in L; lia). now rewrite skipn_add.
Qed.
Lemma sum_part : forall e p, p < length e -> list_sum (firstn p e) + nth p e 0 <= list_sum e.
Proof.
  intros e p L. rewrite <- sum_firstn_S by auto. rewrite <- (firstn_skipn (S p) e) at 2. rewrite list_sum_app. lia.
Qed.
Lemma nth_skipn_ : forall {A} (d : A) o l i, nth i (skipn o l) d = nth (o + i) l d.
Proof. intros A d o. induction o as [|o IH]; intros [|x l] i; cbn; auto. destruct i; auto. Qed.
Lemma nth_firstn_ : forall {A} (d : A) n l i, i < n -> nth i (firstn n l) d = nth i l d.
Proof. intros A d n. induction n as [|n IH]; intros [|x l] [|i] L; cbn; auto; try lia. apply IH. lia. Qed.
Lemma part_nth : forall {A} (d : A) k a l, a + k <= length l -> firstn k (skipn a l) = map (fun i => nth i l d) (seq a k).
Proof.
  intros A d k a l L. apply (nth_ext _ _ d d).
  - rewrite firstn_length, skipn_length, map_length, seq_length. lia.
  - intros i Hi. rewrite firstn_length, skipn_length in Hi.
    rewrite nth_firstn_, nth_skipn_ by lia.
    rewrite (nth_indep (map (fun i => nth i l d) (seq a k)) d (nth 0 l d)) by (rewrite map_length, seq_length; lia).
    rewrite (map_nth (fun i => nth i l d)). now rewrite seq_nth by lia.
Qed.

(** ** One argument *)
Lemma in_size_position : forall z n, Z.to_nat (in_size z (Z.of_nat n)) = position n z /\ (0 <= in_size z (Z.of_nat n))%Z
  /\ position n z <= n.
Proof.
  intros z n. unfold in_size, clamp, position. destruct (z <? 0)%Z eqn:Z0; [apply Z.ltb_lt in Z0|apply Z.ltb_ge in Z0].
  - destruct (z + Z.of_nat n <? 0)%Z eqn:C1; [apply Z.ltb_lt in C1; lia|apply Z.ltb_ge in C1].
    rewrite (proj2 (Z.ltb_ge (Z.of_nat n) (z + Z.of_nat n))) by lia. lia.
  - rewrite (proj2 (Z.ltb_ge z 0)) by lia. destruct (Z.of_nat n <? z)%Z eqn:C2; [apply Z.ltb_lt in C2|apply Z.ltb_ge in C2]; lia.
Qed.
Lemma map_add_seq : forall o a k, map (fun i => o + i) (seq a k) = seq (o + a) k.
Proof. intros o a k. revert a. induction k as [|k IH]; intros a; cbn; auto. rewrite IH. f_equal. f_equal. lia. Qed.
Fixpoint prefix_sums (o : nat) (l : list nat) : list nat :=
  match l with [] => [] | n :: r => o :: prefix_sums (o + n) r end.
Lemma edge_of_sums : forall l o, edge_of (prefix_sums o l ++ [o + list_sum l]) = l.
Proof.
  induction l as [|n l IH]; intros o; [reflexivity|].
  change (list_sum (n :: l)) with (n + list_sum l). cbn [prefix_sums app]. specialize (IH (o + n)).
  rewrite Nat.add_assoc.
  destruct l as [|m l]; cbn [prefix_sums app] in *.
  - change (list_sum []) with 0. cbn. f_equal. lia.
  - change (edge_of (o :: o + n :: prefix_sums (o + n + m) l ++ [o + n + list_sum (m :: l)]))
      with ((o + n - o) :: edge_of (o + n :: prefix_sums (o + n + m) l ++ [o + n + list_sum (m :: l)])).
    rewrite IH. f_equal. lia.
Qed.
Lemma ofold_cons : forall {A B} (f : A -> B -> option B) a l b, ofold f (a :: l) b = obind (f a b) (ofold f l).
Proof.
  intros A B f a l b. unfold ofold. cbn [fold_left obind]. destruct (f a b) as [b'|]; cbn [obind]; auto.
  induction l as [|x l IH]; auto.
Qed.
Lemma list_sum_map_concat : forall {A} (rs : list (list A)), list_sum (map (@length A) rs) = length (concat rs).
Proof. intros A rs. induction rs as [|r rs IH]; [reflexivity|]. cbn [map concat]. rewrite app_length, <- IH. reflexivity. Qed.
Section Step.
Variable e : edge.
Variable F : list tree.
Hypothesis FE : length F = list_sum e.
Notation at_F := (fun i => nth i F (Leaf None)).
Notation G := (map Node (chunks e F)).
Lemma nth_group : forall p, p < length e -> nth p G (Leaf None) = Node (nth p (chunks e F) []).
Proof.
  intros p L. rewrite (nth_indep G (Leaf None) (Node [])) by (rewrite map_length, chunks_length; auto).
  apply map_nth.
Qed.
Lemma chunk_length : forall p, p < length e -> length (nth p (chunks e F) []) = nth p e 0.
Proof.
  intros p L. rewrite nth_chunk by auto. rewrite firstn_length, skipn_length. pose proof (sum_part e p L). lia.
Qed.
Lemma chunk_nth : forall p i, p < length e -> i < nth p e 0 ->
  nth i (nth p (chunks e F) []) (Leaf None) = nth (list_sum (firstn p e) + i) F (Leaf None).
Proof. intros p i L I. rewrite nth_chunk by auto. now rewrite nth_firstn_, nth_skipn_. Qed.
Lemma nth_error_child : forall p k, p < length e -> k < nth p e 0 ->
  nth_error (nth p (chunks e F) []) k = Some (nth (list_sum (firstn p e) + k) F (Leaf None)).
Proof.
  intros p k L I. rewrite <- chunk_nth by auto. apply nth_error_nth'. now rewrite chunk_length.
Qed.
Lemma child_index_ok : forall p z, (forall i, p = Some i -> i < length e) ->
  exists c, child_index e p z = Some c /\ (forall i, c = Some i -> i < length F) /\
    child_of (option_map (fun i => nth i G (Leaf None)) p) z = option_map at_F c.
Proof.
  intros [p|] [z|] B; cbn [child_index option_map child_of]; try (exists None; repeat split; congruence).
  specialize (B p eq_refl). rewrite split_size_spec by auto. cbn [obind]. rewrite nth_group by auto. cbn [children].
  unfold nth_child. rewrite chunk_length by auto. pose proof (sum_part e p B) as SP. set (n := nth p e 0) in *.
  unfold split_point, split_points. rewrite split_point_spec by lia. cbn [obind].
  destruct (z <? 0)%Z eqn:Z0; [apply Z.ltb_lt in Z0|apply Z.ltb_ge in Z0].
  - rewrite (proj2 (Z.leb_gt 0 z)) by lia. cbn [andb].
    destruct ((z + Z.of_nat n <? 0)%Z) eqn:C1.
    + cbn [orb]. exists None. apply Z.ltb_lt in C1. rewrite (proj2 (Z.leb_gt (- Z.of_nat n) z)) by lia.
      repeat split; congruence.
    + apply Z.ltb_ge in C1. rewrite (proj2 (Z.leb_gt (Z.of_nat n) (z + Z.of_nat n))) by lia. cbn [orb].
      rewrite (proj2 (Z.leb_le (- Z.of_nat n) z)) by lia. cbn [andb].
      eexists. split; [reflexivity|]. split; [intros i E; injection E as <-; lia|].
      rewrite nth_error_child by (auto; fold n; lia). reflexivity.
  - rewrite (proj2 (Z.ltb_ge z 0)) by lia. rewrite (proj2 (Z.leb_le 0 z)) by lia. cbn [orb andb].
    destruct (Z.of_nat n <=? z)%Z eqn:C2; [apply Z.leb_le in C2|apply Z.leb_gt in C2].
    + exists None. rewrite (proj2 (Z.ltb_ge z (Z.of_nat n))) by lia. rewrite andb_false_r. repeat split; congruence.
    + rewrite (proj2 (Z.ltb_lt z (Z.of_nat n))) by lia.
      eexists. split; [reflexivity|]. split; [intros i E; injection E as <-; lia|].
      rewrite nth_error_child by (auto; fold n; lia). reflexivity.
Qed.
Definition bound_at (s : option (list (option Z))) (id : nat) : option (option Z) :=
  match s with None => None | Some l => Some (nth id l None) end.
Lemma range_at_ok : forall start stop id p, (forall i, p = Some i -> i < length e) ->
  (forall l, start = Some l -> id < length l) -> (forall l, stop = Some l -> id < length l) ->
  exists l, range_at e start stop id p = Some l /\ (forall i, In i l -> i < length F) /\
    range_of (option_map (fun i => nth i G (Leaf None)) p) (bound_at start id) (bound_at stop id) = map at_F l.
Proof.
  intros start stop id [p|] B L1 L2; [|exists []; repeat split; try contradiction].
  specialize (B p eq_refl). cbn [option_map range_of range_at]. rewrite split_size_spec by auto. cbn [obind].
  rewrite nth_group by auto. cbn [children]. rewrite chunk_length by auto. pose proof (sum_part e p B) as SP.
  pose proof (chunk_length p B) as CL. set (n := nth p e 0) in *.
  assert (E1 : exists a, bound start id 0%Z = Some a /\
    match bound_at start id with None => Some 0 | Some z => option_map (position n) z end = option_map (position n) a).
  { destruct start as [l|]; cbn [bound bound_at].
    - exists (nth id l None). split; auto. apply nth_error_nth'. now apply L1.
    - exists (Some 0%Z). split; auto. cbn. unfold position. rewrite (proj2 (Z.ltb_ge 0 0)) by lia. f_equal. lia. }
  assert (E2 : exists a, bound stop id (Z.of_nat n) = Some a /\
    match bound_at stop id with None => Some n | Some z => option_map (position n) z end = option_map (position n) a).
  { destruct stop as [l|]; cbn [bound bound_at].
    - exists (nth id l None). split; auto. apply nth_error_nth'. now apply L2.
    - exists (Some (Z.of_nat n)). split; auto. cbn [option_map]. unfold position. rewrite (proj2 (Z.ltb_ge (Z.of_nat n) 0)) by lia. f_equal. lia. }
  destruct E1 as (a & -> & ->), E2 as (b & -> & ->). cbn [obind].
  destruct a as [a|]; cbn [option_map]; [|exists []; repeat split; try contradiction].
  destruct b as [b|]; cbn [option_map]; [|exists []; repeat split; try contradiction].
  unfold split_point, split_points. rewrite split_point_spec by lia. cbn [obind].
  destruct (in_size_position a n) as (A1 & A2 & A3), (in_size_position b n) as (B1 & B2 & B3).
  rewrite Z2Nat.inj_sub by auto. rewrite A1, B1.
  eexists. split; [reflexivity|]. rewrite map_add_seq. split.
  - intros i Hi. apply in_seq in Hi. lia.
  - set (o := 0 + list_sum (firstn p e)). destruct (Nat.le_gt_cases (position n b) (position n a)) as [LE|GT].
    + replace (position n b - position n a) with 0 by lia. reflexivity.
    + rewrite (part_nth (Leaf None)) by (rewrite CL; lia).
      rewrite <- (map_add_seq o). rewrite map_map. apply map_ext_in. intros i Hi. apply in_seq in Hi.
      rewrite chunk_nth; auto. fold n. lia.
Qed.

Lemma single_ok : forall ps cs, length ps = length cs -> (forall i, In (Some i) ps -> i < length e) ->
  exists l, omap (fun '(p, c) => child_index e p c) (combine ps cs) = Some l /\ length l = length ps /\
    (forall i, In (Some i) l -> i < length F) /\
    map2 child_of (map (option_map (fun i => nth i G (Leaf None))) ps) cs = map (option_map at_F) l.
Proof.
  intros ps. induction ps as [|p ps IH]; intros [|c cs] L B; try discriminate.
  - exists []. repeat split; try contradiction.
  - destruct (child_index_ok p c) as (x & E1 & B1 & I1); [intros i ->; apply B; now left|].
    destruct (IH cs) as (l & E2 & L2 & B2 & I2); [cbn in L; lia|intros i Hi; apply B; now right|].
    exists (x :: l). cbn [combine omap]. rewrite E1. cbn [obind]. rewrite E2. cbn [option_map]. split; auto.
    split; [cbn; now rewrite L2|]. split; [intros i [Hi|Hi]; auto|].
    cbn [map map2]. now rewrite I1, I2.
Qed.
Lemma range_steps_ok : forall start stop n ps k sp0 l0, k + length ps = n ->
  (forall i, In (Some i) ps -> i < length e) ->
  (forall l, start = Some l -> length l = n) -> (forall l, stop = Some l -> length l = n) ->
  exists rs, ofold (range_step e start stop) (combine (seq k (length ps)) ps) (sp0, l0) =
      Some (sp0 ++ prefix_sums (length l0) (map (@length nat) rs), l0 ++ concat rs) /\
    length rs = length ps /\ (forall i, In i (concat rs) -> i < length F) /\
    map3 range_of (map (option_map (fun i => nth i G (Leaf None))) ps)
      (map (bound_at start) (seq k (length ps))) (map (bound_at stop) (seq k (length ps))) = map (map at_F) rs.
Proof.
  intros start stop n ps. induction ps as [|p ps IH]; intros k sp0 l0 N B L1 L2.
  - exists []. cbn. rewrite !app_nil_r. repeat split; try contradiction.
  - cbn [length] in N. destruct (range_at_ok start stop k p) as (l & E1 & B1 & I1).
    { intros i ->. apply B. now left. } { intros l E. rewrite (L1 l E). lia. } { intros l E. rewrite (L2 l E). lia. }
    destruct (IH (S k) (sp0 ++ [length l0]) (l0 ++ l)) as (rs & E2 & LR & B2 & I2); auto; [lia|intros i Hi; apply B; now right|].
    exists (l :: rs). cbn [length seq combine]. rewrite ofold_cons. unfold range_step at 1. cbn [fst snd]. rewrite E1. cbn [obind].
    rewrite E2. split; [|split; [cbn; now rewrite LR|split]].
    + rewrite app_length. cbn [map prefix_sums concat]. rewrite <- !app_assoc. reflexivity.
    + intros i Hi. cbn [concat] in Hi. apply in_app_or in Hi. destruct Hi; auto.
    + cbn [map map3]. now rewrite I1, I2.
Qed.
End Step.
