(** The counting sort of CreateFinalDataSlice lists the groups of each row. *)
From Coq Require Import List Bool Arith Lia Permutation Sorted.
From Verif Require Import SliceOpsModel SubsliceOpsProofs GroupModel GroupSpec GroupAssignProofs GroupSortProofs GroupKeysProofs.
Import ListNotations.
Local Open Scope nat_scope.
Local Open Scope list_scope.

Fixpoint positions (ids : list (option nat)) (pos g : nat) : list nat :=
  match ids with
  | [] => []
  | Some h :: ids => if h =? g then pos :: positions ids (S pos) g else positions ids (S pos) g
  | None :: ids => positions ids (S pos) g
  end.
Lemma positions_in : forall ids pos g i,
  In i (positions ids pos g) <-> exists k, i = pos + k /\ nth_error ids k = Some (Some g).
Proof.
  induction ids as [| x ids IH]; intros pos g i; cbn.
  - split; [tauto | intros [k [_ E]]; destruct k; discriminate].
  - assert (Tl : (exists k, i = S pos + k /\ nth_error ids k = Some (Some g)) ->
                 exists k, i = pos + k /\ nth_error (x :: ids) k = Some (Some g)).
    { intros [k [E F]]. exists (S k). split; [lia | exact F]. }
    assert (Hd : (exists k, i = pos + k /\ nth_error (x :: ids) k = Some (Some g)) ->
                 (i = pos /\ x = Some g) \/ exists k, i = S pos + k /\ nth_error ids k = Some (Some g)).
    { intros [[| k] [E F]]; cbn in F; [left; split; [lia | congruence] | right; exists k; split; [lia | exact F]]. }
    destruct x as [h |].
    + destruct (h =? g) eqn:Q; cbn [In]; rewrite IH.
      * apply Nat.eqb_eq in Q. subst h. split.
        -- intros [<- | X]; [exists 0; split; [lia | reflexivity] | exact (Tl X)].
        -- intros X. destruct (Hd X) as [[-> _] | Y]; auto.
      * apply Nat.eqb_neq in Q. split; [exact Tl |]. intros X. destruct (Hd X) as [[_ Y] | Y]; [congruence | exact Y].
    + rewrite IH. split; [exact Tl |]. intros X. destruct (Hd X) as [[_ Y] | Y]; [congruence | exact Y].
Qed.
Lemma positions_sorted : forall ids pos g, StronglySorted lt (positions ids pos g).
Proof.
  induction ids as [| x ids IH]; intros pos g; cbn; [constructor |].
  destruct x as [h |]; [| apply IH]. destruct (h =? g); [| apply IH].
  constructor; [apply IH |]. apply Forall_forall. intros i I. apply positions_in in I. destruct I as [k [-> _]]. lia.
Qed.

Definition covered (ids : list (option nat)) (l : list nat) : Prop := forall g, In (Some g) ids -> In g l.
Lemma covered_tl x ids l : covered (x :: ids) l -> covered ids l.
Proof. intros C g I. apply C. right. exact I. Qed.

(** ** Counting *)
Lemma count_row_count : forall ids pos c g,
  c_count (count_row ids c) g = c_count c g + length (positions ids pos g).
Proof.
  induction ids as [| x ids IH]; intros pos c g; cbn [count_row positions]; [cbn; lia |].
  destruct x as [h |]; [| apply IH]. rewrite (IH (S pos)). cbn. unfold GroupModel.upd. rewrite (Nat.eqb_sym h g).
  destruct (g =? h) eqn:Q; [apply Nat.eqb_eq in Q; subst; cbn; lia | lia].
Qed.
Definition nonzero (f : nat -> nat) (l : list nat) : nat := length (filter (fun g => negb (f g =? 0)) l).
Lemma nonzero_ext f f' l : (forall g, In g l -> f g = f' g) -> nonzero f l = nonzero f' l.
Proof. intros E. unfold nonzero. f_equal. apply filter_ext_in. intros g I. rewrite (E g I). reflexivity. Qed.
Lemma nonzero_upd f g : forall l, NoDup l -> In g l ->
  nonzero (GroupModel.upd f g (S (f g))) l = nonzero f l + (if f g =? 0 then 1 else 0).
Proof.
  induction l as [| h l IH]; intros N I; [destruct I |]. inversion N as [| ? ? N1 N2]; subst.
  unfold nonzero in *. cbn [filter]. unfold GroupModel.upd at 1. destruct (Nat.eqb_spec h g) as [-> | D].
  - assert (R : filter (fun g0 => negb (GroupModel.upd f g (S (f g)) g0 =? 0)) l = filter (fun g0 => negb (f g0 =? 0)) l).
    { apply filter_ext_in. intros a Ia. unfold GroupModel.upd. destruct (Nat.eqb_spec a g) as [-> | ]; [contradiction | reflexivity]. }
    rewrite R. cbn. destruct (f g =? 0); cbn; lia.
  - destruct I as [-> | I]; [congruence |]. specialize (IH N2 I). destruct (f h =? 0); cbn in *; lia.
Qed.
Lemma count_row_local l : NoDup l -> forall ids c, covered ids l ->
  nonzero (c_count (count_row ids c)) l + c_local c = nonzero (c_count c) l + c_local (count_row ids c).
Proof.
  intros N. induction ids as [| x ids IH]; intros c C; cbn [count_row]; [reflexivity |].
  pose proof (IH) as IH'. destruct x as [h |]; [| apply IH; exact (covered_tl _ _ _ C)].
  specialize (IH (mkCounting (GroupModel.upd (c_count c) h (S (c_count c h))) (c_local c + (if c_count c h =? 0 then 1 else 0))
                   (Nat.min (c_start c) h) (Nat.max (c_end c) (S h))) (covered_tl _ _ _ C)).
  cbn [c_local c_count] in IH. rewrite nonzero_upd in IH; [lia | exact N | apply C; left; reflexivity].
Qed.
Lemma count_row_bounds : forall ids c,
  c_start (count_row ids c) <= c_start c /\ c_end c <= c_end (count_row ids c) /\
  (forall g, In (Some g) ids -> c_start (count_row ids c) <= g < c_end (count_row ids c)).
Proof.
  induction ids as [| x ids IH]; intros c; cbn [count_row]; [repeat split; auto; destruct H |].
  destruct x as [h |].
  - destruct (IH (mkCounting (GroupModel.upd (c_count c) h (S (c_count c h))) (c_local c + (if c_count c h =? 0 then 1 else 0))
                   (Nat.min (c_start c) h) (Nat.max (c_end c) (S h)))) as [A [B C]]. cbn [c_start c_end] in A, B.
    split; [lia |]. split; [lia |]. intros g [E | I]; [assert (h = g) by congruence; lia | exact (C g I)].
  - destruct (IH c) as [A [B C]]. split; [lia |]. split; [lia |]. intros g [E | I]; [discriminate | exact (C g I)].
Qed.
Lemma count_row_start lo : forall ids c, (forall g, In (Some g) ids -> lo <= g) -> lo <= c_start c ->
  lo <= c_start (count_row ids c).
Proof.
  induction ids as [| x ids IH]; intros c L S0; cbn [count_row]; [exact S0 |].
  destruct x as [h |]; apply IH; try (intros g I; apply L; right; exact I); try exact S0.
  cbn. pose proof (L h (or_introl eq_refl)). lia.
Qed.
Lemma count_row_end hi : forall ids c, (forall g, In (Some g) ids -> g < hi) -> c_end c <= hi ->
  c_end (count_row ids c) <= hi.
Proof.
  induction ids as [| x ids IH]; intros c L S0; cbn [count_row]; [exact S0 |].
  destruct x as [h |]; apply IH; try (intros g I; apply L; right; exact I); try exact S0.
  cbn. pose proof (L h (or_introl eq_refl)). lia.
Qed.

(** ** Starting positions *)
Definition nonempty (l : list nat) : bool := match l with [] => false | _ => true end.
Lemma nonempty_length l : nonempty l = negb (length l =? 0).
Proof. destruct l; reflexivity. Qed.
Definition offset (P : nat -> list nat) (i g : nat) : nat := length (concat (map P (seq i (g - i)))).
Lemma offset_S P i g : i <= g -> offset P i (S g) = offset P i g + length (P g).
Proof.
  intros L. unfold offset. replace (S g - i) with ((g - i) + 1) by lia.
  rewrite seq_app, map_app, concat_app, app_length. cbn. rewrite app_nil_r. replace (i + (g - i)) with g by lia. reflexivity.
Qed.
Lemma offset_first P i g : i < g -> offset P i g = length (P i) + offset P (S i) g.
Proof.
  intros L. unfold offset. replace (g - i) with (S (g - S i)) by lia. cbn. rewrite app_length. reflexivity.
Qed.
Lemma offset_self P i : offset P i i = 0.
Proof. unfold offset. rewrite Nat.sub_diag. reflexivity. Qed.
Lemma offset_mono P i g h : i <= g -> g < h -> offset P i g + length (P g) <= offset P i h.
Proof.
  intros L M. induction h as [| h IH]; [lia |]. rewrite offset_S by lia.
  destruct (Nat.eq_dec g h) as [-> | D]; [lia |]. specialize (IH ltac:(lia)). lia.
Qed.

Lemma start_positions_ok P : forall n i prefix count items,
  (forall g, i <= g < i + n -> count g = length (P g)) ->
  exists count', start_positions n i prefix count items
    = (count', items ++ tl (split_from prefix (map (@length nat) (filter nonempty (map P (seq i n)))))) /\
    (forall g, i <= g < i + n -> count' g = prefix + offset P i g) /\
    (forall g, g < i \/ i + n <= g -> count' g = count g).
Proof.
  induction n as [| n IH]; intros i prefix count items C.
  - exists count. cbn. rewrite app_nil_r. repeat split; auto. intros; lia.
  - cbn [start_positions]. pose proof (C i ltac:(lia)) as Ci.
    set (prefix' := if count i =? 0 then prefix else prefix + count i).
    assert (Ep : prefix' = prefix + length (P i)).
    { unfold prefix'. destruct (Nat.eqb_spec (count i) 0); lia. }
    destruct (IH (S i) prefix' (GroupModel.upd count i (prefix' - count i))
                (if count i =? 0 then items else items ++ [prefix'])) as [count' [R [A B]]].
    { intros g L. unfold GroupModel.upd. destruct (Nat.eqb_spec g i); [lia |]. apply C. lia. }
    exists count'. rewrite R. split; [| split].
    + f_equal. cbn [seq map filter]. rewrite nonempty_length, <- Ci. destruct (Nat.eqb_spec (count i) 0) as [Z | Z]; cbn [negb].
      * rewrite Ep, <- Ci, Z, Nat.add_0_r. reflexivity.
      * cbn [map split_from tl]. rewrite Ep, <- app_assoc. cbn.
        destruct (map (@length nat) (filter nonempty (map P (seq (S i) n)))); cbn; reflexivity.
    + intros g L. destruct (Nat.eq_dec g i) as [-> | D].
      * rewrite B by lia. unfold GroupModel.upd. rewrite Nat.eqb_refl, offset_self. lia.
      * rewrite A by lia. rewrite (offset_first P i g) by lia. lia.
    + intros g L. rewrite B by lia. unfold GroupModel.upd. destruct (Nat.eqb_spec g i); [lia | reflexivity].
Qed.

(** ** Placing *)
Definition present (ids : list (option nat)) : nat :=
  length (filter (fun x : option nat => match x with Some _ => true | None => false end) ids).
Lemma place_row_ok : forall ids pos count idx out,
  (forall g h a b, g <> h -> a < length (positions ids pos g) -> b < length (positions ids pos h) -> count g + a <> count h + b) ->
  exists count' idx', place_row ids pos count idx out = (count', idx', out + present ids) /\
    (forall g, count' g = count g + length (positions ids pos g)) /\
    (forall g a, a < length (positions ids pos g) -> idx' (count g + a) = nth_error (positions ids pos g) a) /\
    (forall p, (forall g a, a < length (positions ids pos g) -> p <> count g + a) -> idx' p = idx p).
Proof.
  induction ids as [| x ids IH]; intros pos count idx out D.
  - exists count, idx. cbn. rewrite Nat.add_0_r. repeat split; auto; intros; lia.
  - destruct x as [h |]; cbn [place_row].
    + set (count1 := GroupModel.upd count h (S (count h))).
      assert (Ph : positions (Some h :: ids) pos h = pos :: positions ids (S pos) h) by (cbn; rewrite Nat.eqb_refl; reflexivity).
      assert (Pg : forall g, g <> h -> positions (Some h :: ids) pos g = positions ids (S pos) g).
      { intros g N. cbn. destruct (Nat.eqb_spec h g); [congruence | reflexivity]. }
      assert (Ch : count1 h = S (count h)) by (unfold count1, GroupModel.upd; rewrite Nat.eqb_refl; reflexivity).
      assert (Cg : forall g, g <> h -> count1 g = count g).
      { intros g N. unfold count1, GroupModel.upd. destruct (Nat.eqb_spec g h); [congruence | reflexivity]. }
      assert (D' : forall g1 g2 a b, g1 <> g2 -> a < length (positions ids (S pos) g1) ->
                     b < length (positions ids (S pos) g2) -> count1 g1 + a <> count1 g2 + b).
      { intros g1 g2 a b N La Lb. destruct (Nat.eq_dec g1 h) as [-> | N1]; destruct (Nat.eq_dec g2 h) as [-> | N2]; [congruence | | |].
        - rewrite Ch, (Cg g2 N2). pose proof (D h g2 (S a) b N) as X. rewrite Ph, (Pg g2 N2) in X. cbn in X. lia.
        - rewrite Ch, (Cg g1 N1). pose proof (D g1 h a (S b) N) as X. rewrite Ph, (Pg g1 N1) in X. cbn in X. lia.
        - rewrite (Cg g1 N1), (Cg g2 N2). apply D; [exact N | rewrite (Pg g1 N1); exact La | rewrite (Pg g2 N2); exact Lb]. }
      destruct (IH (S pos) count1 (GroupModel.upd idx (count h) (Some pos)) (S out) D') as [count' [idx' [R [A [B C]]]]].
      exists count', idx'. split; [| split; [| split]].
      * rewrite R. f_equal. unfold present. cbn. lia.
      * intros g. rewrite A. destruct (Nat.eq_dec g h) as [-> | N]; [rewrite Ch, Ph; cbn; lia | rewrite (Cg g N), (Pg g N); reflexivity].
      * intros g a La. destruct (Nat.eq_dec g h) as [-> | N].
        -- rewrite Ph in *. destruct a as [| a]; cbn [nth_error].
           ++ rewrite Nat.add_0_r. rewrite C.
              ** unfold GroupModel.upd. rewrite Nat.eqb_refl. reflexivity.
              ** intros g b Lb. destruct (Nat.eq_dec g h) as [-> | N]; [rewrite Ch; lia |]. rewrite (Cg g N).
                 pose proof (D h g 0 b (not_eq_sym N)) as X. rewrite Ph, (Pg g N) in X. cbn in X. lia.
           ++ cbn in La. replace (count h + S a) with (count1 h + a) by (rewrite Ch; lia). apply B. lia.
        -- rewrite (Pg g N) in *. rewrite <- (Cg g N). apply B. exact La.
      * intros p Np. rewrite C.
        -- unfold GroupModel.upd. destruct (Nat.eqb_spec p (count h)) as [-> | ]; [| reflexivity].
           exfalso. apply (Np h 0); [rewrite Ph; cbn; lia | lia].
        -- intros g a La. destruct (Nat.eq_dec g h) as [-> | N].
           ++ rewrite Ch. replace (S (count h) + a) with (count h + S a) by lia. apply Np. rewrite Ph. cbn. lia.
           ++ rewrite (Cg g N). apply Np. rewrite (Pg g N). exact La.
    + destruct (IH (S pos) count idx out D) as [count' [idx' R]]. exists count', idx'. exact R.
Qed.

Lemma sum_positions l : NoDup l -> forall ids pos, covered ids l ->
  length (concat (map (positions ids pos) l)) = present ids.
Proof.
  intros N. induction ids as [| x ids IH]; intros pos C.
  - cbn. clear. induction l as [| g l IH]; cbn; auto.
  - specialize (IH (S pos) (covered_tl _ _ _ C)). destruct x as [h |]; [| exact IH].
    assert (I : In h l) by (apply C; left; reflexivity).
    assert (E : length (concat (map (positions (Some h :: ids) pos) l)) = S (length (concat (map (positions ids (S pos)) l)))).
    { clear C IH. induction l as [| g l IHl]; [destruct I |]. inversion N as [| ? ? N1 N2]; subst.
      cbn [map concat]. rewrite !app_length.
      assert (Pc : positions (Some h :: ids) pos g = if h =? g then pos :: positions ids (S pos) g else positions ids (S pos) g) by reflexivity.
      rewrite Pc. clear Pc. destruct (Nat.eqb_spec h g) as [-> | D].
      - assert (Q : map (positions (Some g :: ids) pos) l = map (positions ids (S pos)) l).
        { apply map_ext_in. intros a Ia. cbn. destruct (Nat.eqb_spec g a) as [-> | ]; [contradiction | reflexivity]. }
        rewrite Q. cbn. lia.
      - destruct I as [-> | I]; [congruence |]. specialize (IHl N2 I). lia. }
    rewrite E, IH. reflexivity.
Qed.

(** the groups with ids in [a, a + k) *)
Definition groups_in (ids : list (option nat)) (a k : nat) : list (list nat) :=
  filter nonempty (map (positions ids 0) (seq a k)).
Lemma concat_nonempty : forall ll, concat (filter nonempty ll) = concat ll.
Proof. induction ll as [| l ll IH]; cbn; [reflexivity |]. destruct l; cbn; rewrite IH; reflexivity. Qed.

Lemma nth_concat_map (P : nat -> list nat) : forall n i q x, nth_error (concat (map P (seq i n))) q = Some x ->
  exists g a, i <= g < i + n /\ a < length (P g) /\ q = offset P i g + a /\ nth_error (P g) a = Some x.
Proof.
  induction n as [| n IH]; intros i q x E; cbn in E; [destruct q; discriminate |].
  destruct (lt_dec q (length (P i))) as [L | L].
  - rewrite nth_error_app1 in E by exact L. exists i, q. rewrite offset_self. repeat apply conj; auto; lia.
  - rewrite nth_error_app2 in E by lia. destruct (IH _ _ _ E) as [g [a [B [La [Q X]]]]].
    exists g, a. rewrite (offset_first P i g) by lia. repeat apply conj; auto; lia.
Qed.

Lemma split_from_app : forall a b o, split_from o (a ++ b) = split_from o a ++ tl (split_from (o + list_sum a) b).
Proof.
  induction a as [| n a IH]; intros b o; cbn.
  - rewrite Nat.add_0_r. destruct b; reflexivity.
  - rewrite IH, Nat.add_assoc. reflexivity.
Qed.
Lemma sum_lengths {A} : forall ll : list (list A), list_sum (map (@length A) ll) = length (concat ll).
Proof. induction ll as [| l ll IH]; [reflexivity |]. cbn [map concat].
  change (length l + list_sum (map (@length A) ll) = length (l ++ concat ll)). rewrite app_length, IH. reflexivity.
Qed.

(** ** A round *)
Record done (s : final) (gss : list (list (list nat))) (lo : nat) : Prop := {
  d_out : f_out s = length (concat (concat gss));
  d_prefix : f_prefix s = length (concat gss);
  d_groups : f_groups s = split_points (map (@length _) gss);
  d_items : f_items s = split_points (map (@length _) (concat gss));
  d_idx : forall p, p < f_out s -> f_idx s p = nth_error (concat (concat gss)) p;
  d_count : forall g, lo <= g -> f_count s g = 0 }.

Lemma final_row_ok size s gss lo hi ids : done s gss lo -> within lo hi ids -> lo <= hi -> hi <= size ->
  exists a k, (forall g, In (Some g) ids -> a <= g < a + k) /\
    done (final_row size ids s) (gss ++ [groups_in ids a k]) hi /\
    f_out (final_row size ids s) = f_out s + present ids.
Proof.
  intros [Do Dp Dg Di Dx Dc] W L1 L2.
  assert (W' : forall g, In (Some g) ids -> lo <= g < hi).
  { intros g I. apply In_nth_error in I. destruct I as [i I]. exact (W _ _ I). }
  unfold final_row. set (c := count_row ids (mkCounting (f_count s) 0 (size + 1) 0)).
  destruct (count_row_bounds ids (mkCounting (f_count s) 0 (size + 1) 0)) as [_ [_ Bd]]. fold c in Bd.
  assert (Cc : forall g, c_count c g = f_count s g + length (positions ids 0 g)) by (intros g; apply (count_row_count ids 0)).
  assert (Cl : lo <= c_start c).
  { apply count_row_start; [intros g I; apply W' in I; lia | cbn; lia]. }
  assert (Ch : c_end c <= hi).
  { apply count_row_end; [intros g I; apply W' in I; lia | cbn; lia]. }
  assert (Local : forall a k, lo <= a -> (forall g, In (Some g) ids -> a <= g < a + k) -> c_local c = length (groups_in ids a k)).
  { intros a k La Cov.
    pose proof (count_row_local (seq a k) (seq_NoDup _ _) ids (mkCounting (f_count s) 0 (size + 1) 0)) as X.
    fold c in X. cbn [c_local c_count] in X.
    assert (C : covered ids (seq a k)) by (intros g I; apply in_seq; apply Cov; exact I).
    specialize (X C).
    assert (Z : nonzero (f_count s) (seq a k) = 0).
    { unfold nonzero. rewrite (proj2 (length_zero_iff_nil _)); [reflexivity |].
      assert (F : forall l, (forall g, In g l -> lo <= g) -> filter (fun g => negb (f_count s g =? 0)) l = []).
      { induction l as [| g l IH]; intros H; [reflexivity |]. cbn. rewrite (Dc g) by (apply H; left; reflexivity). cbn.
        apply IH. intros; apply H; right; auto. }
      apply F. intros g I. apply in_seq in I. lia. }
    rewrite Z in X. cbn in X. rewrite Nat.add_0_r in X. rewrite <- X. unfold nonzero, groups_in.
    assert (F : forall l, (forall g, In g l -> lo <= g) ->
                length (filter (fun g => negb (c_count c g =? 0)) l) = length (filter nonempty (map (positions ids 0) l))).
    { induction l as [| g l IH]; intros H; [reflexivity |]. cbn [filter map].
      rewrite Cc, (Dc g) by (apply H; left; reflexivity). cbn [plus]. rewrite nonempty_length.
      destruct (negb (length (positions ids 0 g) =? 0)); cbn; rewrite IH; auto; intros; apply H; right; auto. }
    apply F. intros g I. apply in_seq in I. lia. }
  assert (Snoc : forall gs, split_points (map (@length _) (gss ++ [gs])) = f_groups s ++ [f_prefix s + length gs]).
  { intros gs. unfold split_points. rewrite map_app, split_from_app, sum_lengths. cbn [map split_from tl]. rewrite Dg, Dp. reflexivity. }
  destruct (Nat.eqb_spec (c_local c) 0) as [Z | Z].
  - exists lo, (hi - lo).
    assert (Cov : forall g, In (Some g) ids -> lo <= g < lo + (hi - lo)) by (intros g I; apply W' in I; lia).
    pose proof (Local lo (hi - lo) (le_n _) Cov) as Lg. rewrite Z in Lg.
    assert (Ge : groups_in ids lo (hi - lo) = []) by (apply length_zero_iff_nil; auto).
    assert (Pz : present ids = 0).
    { rewrite <- (sum_positions (seq lo (hi - lo)) (seq_NoDup _ _) ids 0).
      - unfold groups_in in Ge. rewrite <- concat_nonempty, Ge. reflexivity.
      - intros g I. apply in_seq. apply Cov. exact I. }
    split; [exact Cov |]. split; [| cbn; lia]. rewrite Ge. split; cbn [f_out f_prefix f_groups f_items f_idx f_count].
    + rewrite concat_app. cbn. rewrite app_nil_r. exact Do.
    + rewrite concat_app. cbn. rewrite app_nil_r. lia.
    + rewrite Snoc, Z. reflexivity.
    + rewrite concat_app. cbn. rewrite app_nil_r. exact Di.
    + rewrite concat_app. cbn. rewrite app_nil_r. exact Dx.
    + intros g Lgt. rewrite Cc, (Dc g) by lia. cbn.
      destruct (positions ids 0 g) as [| i l] eqn:E; [reflexivity | exfalso].
      assert (I : In i (positions ids 0 g)) by (rewrite E; left; reflexivity).
      apply positions_in in I. destruct I as [k [_ I]]. apply nth_error_In in I. apply W' in I. lia.
  - set (a := c_start c) in *. set (k := c_end c - a). exists a, k.
    assert (Cov : forall g, In (Some g) ids -> a <= g < a + k) by (intros g I; pose proof (Bd g I); unfold k; lia).
    assert (Pos : forall g b, b < length (positions ids 0 g) -> a <= g < a + k).
    { intros g b Lb. destruct (nth_error (positions ids 0 g) b) as [i |] eqn:E; [| apply nth_error_None in E; lia].
      apply nth_error_In, positions_in in E. destruct E as [m [_ E]]. apply nth_error_In in E. exact (Cov g E). }
    destruct (start_positions_ok (positions ids 0) k a (f_out s) (c_count c) (f_items s)) as [count1 [R1 [A1 B1]]].
    { intros g Lg. rewrite Cc, (Dc g) by lia. reflexivity. }
    rewrite R1.
    destruct (place_row_ok ids 0 count1 (f_idx s) (f_out s)) as [count2 [idx2 [R2 [A2 [B2 C2]]]]].
    { intros g h x y N Lx Ly. rewrite (A1 g (Pos g x Lx)), (A1 h (Pos h y Ly)).
      pose proof (Pos g x Lx). pose proof (Pos h y Ly).
      destruct (Nat.lt_total g h) as [M | [M | M]]; [| congruence |].
      - pose proof (offset_mono (positions ids 0) a g h). lia.
      - pose proof (offset_mono (positions ids 0) a h g). lia. }
    rewrite R2. cbn [f_out]. split; [exact Cov |]. split; [| reflexivity].
    assert (Pr : present ids = length (concat (groups_in ids a k))).
    { unfold groups_in. rewrite concat_nonempty. symmetry. apply sum_positions; [apply seq_NoDup |].
      intros g I. apply in_seq. exact (Cov g I). }
    split; cbn [f_out f_prefix f_groups f_items f_idx f_count].
    + rewrite concat_app, concat_app, app_length, <- Do. cbn. rewrite app_nil_r. lia.
    + rewrite concat_app, app_length, <- Dp. cbn. rewrite app_nil_r, (Local a k Cl Cov). reflexivity.
    + rewrite Snoc, (Local a k Cl Cov). reflexivity.
    + rewrite concat_app. cbn [concat]. rewrite app_nil_r. unfold split_points. rewrite map_app, split_from_app, sum_lengths.
      rewrite Di, Do. reflexivity.
    + intros p Lp. rewrite concat_app, concat_app. cbn [concat]. rewrite app_nil_r.
      destruct (lt_dec p (f_out s)) as [Lo | Lo].
      * rewrite nth_error_app1 by lia. rewrite <- (Dx p Lo). apply C2. intros g b Lb.
        rewrite (A1 g (Pos g b Lb)). lia.
      * rewrite nth_error_app2 by lia. rewrite <- Do. unfold groups_in in *. rewrite concat_nonempty in *.
        destruct (nth_error (concat (map (positions ids 0) (seq a k))) (p - f_out s)) as [x |] eqn:E.
        -- destruct (nth_concat_map _ _ _ _ _ E) as [g [b [Bg [Lb [Q X]]]]].
           rewrite <- X, <- (B2 g b Lb). f_equal. rewrite (A1 g Bg). lia.
        -- apply nth_error_None in E. lia.
    + intros g Lg. assert (N : positions ids 0 g = []).
      { destruct (positions ids 0 g) as [| i l] eqn:E; [reflexivity | exfalso].
        assert (I : 0 < length (positions ids 0 g)) by (rewrite E; cbn; lia). apply Pos in I. unfold k in I. lia. }
      rewrite A2, N. cbn. rewrite B1 by (unfold k; lia). rewrite Cc, (Dc g) by lia. rewrite N. reflexivity.
Qed.

(** [gs] lists the groups of [ids] *)
Definition lists_groups (ids : list (option nat)) (gs : list (list nat)) : Prop :=
  exists a k, (forall g, In (Some g) ids -> a <= g < a + k) /\ gs = groups_in ids a k.

Lemma final_rows size : forall rows s gss lo, done s gss lo -> ranges lo rows -> lo + length (concat rows) <= size ->
  exists gss', Forall2 lists_groups rows gss' /\ exists hi,
    done (fold_left (fun s ids => final_row size ids s) rows s) (gss ++ gss') hi /\
    f_out (fold_left (fun s ids => final_row size ids s) rows s) = f_out s + total_size rows.
Proof.
  induction rows as [| ids rows IH]; intros s gss lo D R L.
  - exists []. split; [constructor |]. exists lo. cbn. rewrite app_nil_r. split; [exact D | unfold total_size; cbn; lia].
  - cbn in R. destruct R as [hi [L1 [L2 [W R]]]]. cbn [concat] in L. rewrite app_length in L.
    destruct (final_row_ok size s gss lo hi ids D W L1 ltac:(lia)) as [a [k [Cov [D' O']]]].
    destruct (IH _ _ hi D' R ltac:(lia)) as [gss' [F [hi' [D2 O2]]]].
    exists (groups_in ids a k :: gss'). split; [constructor; [exists a, k; auto | exact F] |].
    exists hi'. cbn [fold_left]. rewrite <- app_assoc in D2. split; [exact D2 |].
    rewrite O2, O'. unfold total_size. cbn [concat]. rewrite filter_app, app_length. unfold present. lia.
Qed.

Theorem create_final_ok rows : ranges 0 rows -> exists gss, Forall2 lists_groups rows gss /\
  create_final rows = (map Some (concat (concat gss)), split_points (map (@length _) gss), split_points (map (@length _) (concat gss))).
Proof.
  intros R. unfold create_final.
  destruct (final_rows (length (concat rows)) rows (mkFinal (fun _ => 0) 0 0 [0] [0] (fun _ => None)) [] 0) as [gss [F [hi [D O]]]]; auto.
  { split; cbn; auto. intros; lia. }
  cbn [app] in D. cbn [f_out plus] in O.
  exists gss. split; [exact F |]. rewrite (d_groups _ _ _ D), (d_items _ _ _ D). f_equal. f_equal.
  rewrite <- O. pose proof (d_idx _ _ _ D) as X. rewrite (d_out _ _ _ D) in *.
  assert (G : forall (f : nat -> option nat) (l : list nat), (forall p, p < length l -> f p = nth_error l p) ->
                map f (seq 0 (length l)) = map Some l).
  { intros f l. revert f. induction l as [| y l IHl]; intros f H; [reflexivity |]. cbn. f_equal.
    - apply (H 0). cbn. lia.
    - rewrite <- seq_shift, map_map. apply IHl. intros p Lp. apply (H (S p)). cbn. lia. }
  apply G. exact X.
Qed.

(** ** The groups of a row *)
Lemma lists_row_groups T eqb ltb sort cols n ids gs : grouped T eqb ltb sort cols n ids ->
  (forall j, has_keys T cols j -> j < n) -> lists_groups ids gs ->
  row_groups T eqb ltb sort cols n gs.
Proof.
  intros G Bd [a [k [Cov ->]]].
  assert (Mem : forall l, In l (groups_in ids a k) <-> exists g, In g (seq a k) /\ l = positions ids 0 g /\ l <> []).
  { intros l. unfold groups_in. rewrite filter_In, in_map_iff. split.
    - intros [[g [E I]] N]. exists g. repeat apply conj; auto. intros ->. discriminate.
    - intros [g [I [-> N]]]. split; [eauto |]. destruct (positions ids 0 g); [congruence | reflexivity]. }
  assert (Pin : forall g i, In i (positions ids 0 g) <-> nth_error ids i = Some (Some g)).
  { intros g i. rewrite positions_in. split; [intros [m [-> E]]; exact E | intros E; exists i; auto]. }
  split; [| split; [| split; [| split]]].
  - intros i. unfold groups_in. rewrite concat_nonempty, in_concat. split.
    + intros [l [Il Ii]]. apply in_map_iff in Il. destruct Il as [g [<- _]]. apply Pin in Ii.
      assert (Li : i < n) by (apply nth_error_lt in Ii; rewrite (g_len _ _ _ _ _ _ _ G) in Ii; exact Ii).
      split; [exact Li |]. apply (g_def _ _ _ _ _ _ _ G i Li). eauto.
    + intros [Li H]. apply (g_def _ _ _ _ _ _ _ G i Li) in H. destruct H as [g H].
      exists (positions ids 0 g). split; [| apply Pin; exact H]. apply List.in_map. apply in_seq.
      apply Cov. apply nth_error_In in H. exact H.
  - unfold groups_in. rewrite concat_nonempty.
    generalize (seq_NoDup k a). generalize (seq a k). intros l. induction l as [| g l IH]; intros N; cbn; [constructor |].
    inversion N as [| ? ? N1 N2]; subst. specialize (IH N2).
    assert (Ng : NoDup (positions ids 0 g)).
    { pose proof (positions_sorted ids 0 g) as Q. induction Q as [| x m Q IHm Fx]; constructor; [| exact IHm].
      intros I. rewrite Forall_forall in Fx. specialize (Fx _ I). lia. }
    assert (Dj : forall i, In i (positions ids 0 g) -> ~ In i (concat (map (positions ids 0) l))).
    { intros i I J. apply in_concat in J. destruct J as [m [Im J]]. apply in_map_iff in Im. destruct Im as [h [<- Ih]].
      apply Pin in I. apply Pin in J. assert (g = h) by congruence. subst. contradiction. }
    revert Ng Dj. generalize (positions ids 0 g). intros m. induction m as [| x m IHm]; intros Ng Dj; cbn; [exact IH |].
    inversion Ng as [| ? ? M1 M2]; subst. constructor.
    + intros I. apply in_app_or in I. destruct I as [I | I]; [contradiction | exact (Dj x (or_introl eq_refl) I)].
    + apply IHm; [exact M2 |]. intros i I. apply Dj. right. exact I.
  - intros l I. apply Mem in I. destruct I as [g [_ [-> N]]]. split; [exact N | apply positions_sorted].
  - intros l i j I Ii. apply Mem in I. destruct I as [g [_ [-> N]]]. apply Pin in Ii. rewrite Pin. split.
    + intros J. destruct (Nat.eq_dec i j) as [-> | D]; [left; reflexivity | right].
      apply (g_same _ _ _ _ _ _ _ G i j g g Ii J D). reflexivity.
    + intros [-> | K]; [exact Ii |]. destruct (Nat.eq_dec i j) as [<- | D]; [exact Ii |].
      assert (Hj : has_keys T cols j).
      { intros c Ic. destruct (K c Ic) as [v [w [_ [W _]]]]. eauto. }
      destruct (proj2 (g_def _ _ _ _ _ _ _ G j (Bd j Hj)) Hj) as [h J].
      rewrite J. f_equal. f_equal. symmetry. apply (g_same _ _ _ _ _ _ _ G i j g h Ii J D). exact K.
  - assert (Ord : forall g h, g < h -> positions ids 0 g <> [] -> positions ids 0 h <> [] ->
                  before T eqb ltb sort cols (positions ids 0 g) (positions ids 0 h)).
    { intros g h L Ng Nh. pose proof (g_order _ _ _ _ _ _ _ G) as O. unfold before. destruct sort.
      - intros i j I J. apply Pin in I. apply Pin in J. apply (O i j g h I J). exact L.
      - intros j J. destruct (positions ids 0 g) as [| i0 l0] eqn:E; [congruence |].
        assert (I : In i0 (positions ids 0 g)) by (rewrite E; left; reflexivity).
        apply Pin in I. apply Pin in J. destruct (O i0 j g h I J L) as [f [F1 F2]].
        exists f. split; [| exact F1]. rewrite <- E. apply Pin. exact F2. }
    unfold groups_in. clear Cov Mem. revert a. induction k as [| k IH]; intros a; cbn [seq map filter]; [constructor |].
    destruct (nonempty (positions ids 0 a)) eqn:Ne; [| apply IH].
    constructor; [| apply IH]. apply Forall_forall. intros l I. apply filter_In in I. destruct I as [I Nl].
    apply in_map_iff in I. destruct I as [h [<- Ih]]. apply in_seq in Ih.
    apply Ord; [lia | |]; intros Z; rewrite Z in *; discriminate.
Qed.
