(** The lemmas behind the theorems of BagCodecProps.v. *)
From Coq Require Import String NArith ZArith List Bool Arith Lia Permutation.
From Verif Require Import ObjectIdModel ObjectIdProofs SchemaModel ItemModel DictModel DictSpec SourceModel SourceSpec BagModel BagProofs
  MergeModel BagSpec BagReads MergeImplProofs ReadProofs BagKeysProofs BagStateProofs BagStepProofs BagOpsProofs BagRunProofs BagViewProofs
  BagCodecModel BagCodecSpec BagCodecProofs.
Import ListNotations.
Local Open Scope nat_scope.

Section Results.
Variable asize : ObjectId -> N.
Hypothesis asize_ok : forall a, (asize a <= capacity a)%N.
Hypothesis schemas_full : forall a, is_schema a = true -> asize a = capacity a.
Variable iter iter' : dmap -> dmap.
Hypothesis any_order : forall m, Permutation (iter m) m.
Hypothesis any_order' : forall m, Permutation (iter' m) m.
Variable ord : orders.
Hypothesis any_ord : any_orders ord.
Notation same_content := (same_content asize).
Notation All := (fun _ : ObjectId => True).

Lemma after_all it (any : forall m, Permutation (it m) m) ops : history asize ops -> inv asize All (after it ops).
Proof. intros Hi. destruct (after_inv asize asize_ok it any ops Hi) as [T I]. apply (inv_more asize T); auto. Qed.

Theorem round_trip ops ops' b : history asize ops -> history asize ops' ->
  let st := after iter ops in
  let st0 := after iter' ops' in
  has_bag st b -> (forall c, In c (depth_first st b) -> storable asize (own_seen st c)) ->
  exists d st' b', dump iter ord st b = Some d /\ load iter' st0 d = Some (st', b') /\
    has_bag st' b' /\ ~ has_bag st0 b' /\
    same_content (seen st b) (seen st' b') /\ is_mutable st' b' = is_mutable st b /\
    all_unchanged asize st0 st'.
Proof.
  intros Hi Hi'. cbn zeta. intros Hb St. assert (I := after_all iter any_order ops Hi). assert (I0 := after_all iter' any_order' ops' Hi').
  remember (after iter ops) as st. remember (after iter' ops') as st0.
  destruct (dump_load_from asize asize_ok schemas_full iter iter' any_order any_order' ord any_ord st I (S b) b ltac:(lia) Hb St) as (d & Ed & Ld).
  destruct (Ld st0 I0) as (st' & b' & El & I' & (tail & S) & Lb & x & Ex & Wx & Cx). exists d, st', b'. split; auto. split; auto.
  assert (Hb' : has_bag st' b') by (unfold has_bag; rewrite <- (abs_len st'); apply nth_error_Some; congruence).
  split; auto. split; [unfold has_bag; rewrite <- (abs_len st0); lia|]. split; [|split].
  - eapply same_trans; [apply same_sym; eapply seen_full; eauto|]. eapply same_trans; [exact Cx|]. eapply seen_full; eauto.
  - unfold is_mutable at 1. rewrite abs_nth in Ex. destruct (nth_error (bags st') b') as [y|]; [|discriminate]. cbn in Ex. assert (Ey : abs_bag (layers st') y = x) by congruence. subst x. exact Wx.
  - intros c Hc. assert (Lc : c < length (abs st0)) by (rewrite abs_len; exact Hc). destruct (bag_in st0 c Hc) as (y & Ey).
    assert (Ay : nth_error (abs st0) c = Some (abs_bag (layers st0) y)) by (rewrite abs_nth, Ey; reflexivity).
    destruct (bags_nth asize _ _ c _ S (nth_app _ _ _ _ Ay)) as (y' & Ey' & (A & B & C)).
    assert (Hc' : has_bag st' c) by (unfold has_bag; rewrite <- (abs_len st'); apply nth_error_Some; congruence). split; auto. split.
    + eapply same_trans; [apply same_sym; eapply seen_full; eauto|]. eapply same_trans; [eapply full_tail; eauto|]. eapply seen_full; eauto.
    + unfold is_mutable. rewrite Ey. rewrite abs_nth in Ey'. destruct (nth_error (bags st') c) as [z|]; [|discriminate]. cbn in Ey'.
      assert (Ez : abs_bag (layers st') z = y') by congruence. subst y'. exact B.
Qed.
End Results.
