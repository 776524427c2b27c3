From Coq Require Import NArith List Bool Arith Lia Sorting.Sorted.
From Verif Require Import AllocSetModel AllocSetSpec.
Import ListNotations.
Open Scope N_scope.

Notation sorted := (StronglySorted N.lt).
Notation wsorted := (StronglySorted N.le).

Lemma mem_In x l : mem x l = true <-> In x l.
Proof.
  unfold mem. rewrite existsb_exists. split.
  - intros (y & H & E). apply N.eqb_eq in E. subst; auto.
  - intros H. exists x. split; auto. apply N.eqb_refl.
Qed.

Lemma hs_insert_In x s y : In y (fst (hs_insert x s)) <-> y = x \/ In y s.
Proof.
  unfold hs_insert. destruct (mem x s) eqn:E; cbn.
  - apply mem_In in E. split; [auto|]. intros [->|]; auto.
  - split; intros [|]; auto.
Qed.

Lemma hs_fold_In l : forall s y, In y (fold_left (fun u x => fst (hs_insert x u)) l s) <-> In y l \/ In y s.
Proof.
  induction l as [|x l IH]; intros s y; cbn [fold_left].
  - cbn; tauto.
  - rewrite IH, hs_insert_In. cbn. split; intros [H|H]; auto; destruct H; auto.
Qed.

(** sorting *)
Lemma insert_sorted_In x l y : In y (insert_sorted x l) <-> y = x \/ In y l.
Proof.
  induction l as [|z l IH]; cbn; [intuition congruence|].
  destruct (x <=? z); cbn; [intuition congruence|]. rewrite IH. intuition congruence.
Qed.
Lemma sort_In l y : In y (sort l) <-> In y l.
Proof.
  induction l as [|x l IH]; [reflexivity|].
  change (sort (x :: l)) with (insert_sorted x (sort l)). rewrite insert_sorted_In, IH.
  cbn. intuition congruence.
Qed.
Lemma insert_sorted_sorted x l : wsorted l -> wsorted (insert_sorted x l).
Proof.
  induction 1 as [|z l Hl IH Hz]; cbn; [repeat constructor|].
  destruct (N.leb_spec x z).
  - constructor; [constructor; auto|]. constructor; auto.
    eapply Forall_impl; [|exact Hz]. intros; lia.
  - constructor; auto. apply Forall_forall. intros y Hy. apply insert_sorted_In in Hy.
    destruct Hy as [->|Hy]; [lia|]. rewrite Forall_forall in Hz. auto.
Qed.
Lemma sort_sorted l : wsorted (sort l).
Proof. induction l; cbn; [constructor|]. apply insert_sorted_sorted; auto. Qed.

Lemma unique_In l y : In y (unique l) <-> In y l.
Proof.
  induction l as [|x l IH]; [reflexivity|].
  cbn [unique]. destruct (unique l) as [|z r] eqn:E.
  - cbn [In] in *. tauto.
  - destruct (N.eqb_spec x z) as [->|Hn]; cbn in *; tauto.
Qed.
Lemma unique_sorted l : wsorted l -> sorted (unique l).
Proof.
  induction 1 as [|x l Hl IH Hx]; [constructor|].
  cbn [unique]. destruct (unique l) as [|z r] eqn:E; [repeat constructor|].
  destruct (N.eqb_spec x z) as [->|Hn]; auto.
  constructor; auto.
  assert (Hxz : x < z).
  { assert (In z l) by (apply unique_In; rewrite E; left; auto).
    rewrite Forall_forall in Hx. specialize (Hx z H). lia. }
  inversion IH as [|? ? Hr Hz]; subst. constructor; auto.
  eapply Forall_impl; [|exact Hz]. intros; cbn in *; lia.
Qed.

Lemma merge_nil_r l : merge l [] = l.
Proof. destruct l; reflexivity. Qed.
Lemma merge_cons x l1 y l2 :
  merge (x :: l1) (y :: l2) = if y <? x then y :: merge (x :: l1) l2 else x :: merge l1 (y :: l2).
Proof. reflexivity. Qed.
Lemma merge_In l1 : forall l2 z, In z (merge l1 l2) <-> In z l1 \/ In z l2.
Proof.
  induction l1 as [|x l1 IH1]; [intros [|]; cbn; tauto|].
  induction l2 as [|y l2 IH2]; intros z.
  - rewrite merge_nil_r. cbn; tauto.
  - rewrite merge_cons. destruct (y <? x); cbn [In].
    + rewrite IH2. cbn; tauto.
    + rewrite IH1. cbn; tauto.
Qed.
Lemma merge_sorted l1 : forall l2, wsorted l1 -> wsorted l2 -> wsorted (merge l1 l2).
Proof.
  induction l1 as [|x l1 IH1]; [intros [|]; cbn; auto|].
  induction l2 as [|y l2 IH2]; intros H1 H2; [rewrite merge_nil_r; auto|].
  rewrite merge_cons. inversion H1 as [|? ? Hl1 Hx]; inversion H2 as [|? ? Hl2 Hy]; subst.
  rewrite Forall_forall in Hx, Hy.
  destruct (N.ltb_spec y x).
  - constructor; auto. apply Forall_forall. intros z Hz. apply merge_In in Hz.
    destruct Hz as [[->|Hz]|Hz]; [lia| |auto]. specialize (Hx z Hz). lia.
  - constructor; auto. apply Forall_forall. intros z Hz. apply merge_In in Hz.
    destruct Hz as [Hz|[->|Hz]]; [auto|lia|]. specialize (Hy z Hz). lia.
Qed.

Lemma sorted_weak l : sorted l -> wsorted l.
Proof.
  induction 1 as [|x l Hl IH Hx]; constructor; auto.
  eapply Forall_impl; [|exact Hx]. intros; cbn in *; lia.
Qed.
Lemma sorted_NoDup l : sorted l -> NoDup l.
Proof.
  induction 1 as [|x l Hl IH Hx]; constructor; auto.
  intros Hin. rewrite Forall_forall in Hx. specialize (Hx x Hin). lia.
Qed.
Lemma sorted_app l1 l2 :
  sorted (l1 ++ l2) <-> sorted l1 /\ sorted l2 /\ (forall x y, In x l1 -> In y l2 -> x < y).
Proof.
  induction l1 as [|a l1 IH]; cbn [app].
  - split; [intros H; repeat split; auto; [constructor|contradiction]|tauto].
  - split.
    + intros H. inversion H as [|? ? Hl Ha]; subst. apply IH in Hl. destruct Hl as (A & B & C).
      apply Forall_app in Ha. destruct Ha as [Ha1 Ha2]. split; [constructor; auto|]. split; auto.
      intros x y [->|Hx] Hy; auto. rewrite Forall_forall in Ha2; auto.
    + intros (A & B & C). inversion A as [|? ? Hl Ha]; subst. constructor.
      * apply IH. repeat split; auto. intros; apply C; auto; right; auto.
      * apply Forall_app. split; auto. apply Forall_forall. intros; apply C; auto. left; auto.
Qed.
Lemma firstn_sorted n l : sorted l -> sorted (firstn n l).
Proof. intros H. rewrite <- (firstn_skipn n l) in H. apply sorted_app in H. tauto. Qed.
Lemma skipn_sorted n l : sorted l -> sorted (skipn n l).
Proof. intros H. rewrite <- (firstn_skipn n l) in H. apply sorted_app in H. tauto. Qed.

(** two strictly sorted lists with the same members are equal *)
Lemma sorted_ext l1 : forall l2, sorted l1 -> sorted l2 -> (forall x, In x l1 <-> In x l2) -> l1 = l2.
Proof.
  induction l1 as [|a l1 IH]; intros [|b l2] H1 H2 E; auto.
  - destruct (proj2 (E b)); left; auto.
  - destruct (proj1 (E a)); left; auto.
  - inversion H1 as [|? ? S1 F1]; inversion H2 as [|? ? S2 F2]; subst.
    rewrite Forall_forall in F1, F2.
    assert (a = b).
    { destruct (proj1 (E a) (or_introl eq_refl)) as [->|Ha]; auto.
      destruct (proj2 (E b) (or_introl eq_refl)) as [->|Hb]; auto.
      specialize (F1 b Hb). specialize (F2 a Ha). lia. }
    subst b. f_equal. apply IH; auto. intros x. specialize (E x). split; intros Hx.
    + destruct (proj1 E (or_intror Hx)) as [<-|]; auto. specialize (F1 a Hx). lia.
    + destruct (proj2 E (or_intror Hx)) as [<-|]; auto. specialize (F2 a Hx). lia.
Qed.

Lemma lower_bound_le l x : (lower_bound l x <= length l)%nat.
Proof. induction l as [|y l IH]; cbn; [lia|]. destruct (y <? x); lia. Qed.

Lemma lower_bound_spec l x : sorted l ->
  (forall y, In y (firstn (lower_bound l x) l) -> y < x) /\
  (forall y, In y (skipn (lower_bound l x) l) -> x <= y) /\
  (In x l <-> nth_error l (lower_bound l x) = Some x).
Proof.
  induction 1 as [|z l Hl IH Hz]; cbn [lower_bound].
  - cbn. repeat split; try contradiction. discriminate.
  - rewrite Forall_forall in Hz. destruct (N.ltb_spec z x) as [L|L].
    + destruct IH as (A & B & C). cbn [firstn skipn nth_error].
      split; [intros y [<-|Hy]; auto|]. split; [exact B|].
      rewrite <- C. cbn. split; [intros [->|]; [lia|auto]|auto].
    + cbn [firstn skipn nth_error].
      assert (Hall : forall y, In y (z :: l) -> x <= y).
      { intros y [<-|Hy]; auto. specialize (Hz y Hy). lia. }
      split; [intros y []|]. split; [exact Hall|].
      split; [|intros [= ->]; left; auto].
      intros [->|Hx]; auto. specialize (Hz x Hx). lia.
Qed.

Lemma insert_at_In (x : N) n l y : In y (firstn n l ++ x :: skipn n l) <-> y = x \/ In y l.
Proof.
  rewrite <- (firstn_skipn n l) at 3. rewrite !in_app_iff. cbn. intuition congruence.
Qed.

(** * The invariant *)
Record Inv (s : aset) : Prop := {
  inv_nodup : NoDup (ids s);
  inv_big : forall x, In x (ids s) -> is_small x = false;
  inv_sorted : sorted (firstn kMaxSortedSize (ids s));
  inv_short : (length (ids s) <= kMaxSortedSize)%nat -> unsorted s = None;
  inv_long : (kMaxSortedSize < length (ids s))%nat ->
             exists u, unsorted s = Some u /\
               (forall x, In x (skipn kMaxSortedSize (ids s)) -> In x u) /\
               (forall x, In x u -> In x (ids s))
}.

Lemma short_sorted s : Inv s -> (length (ids s) <= kMaxSortedSize)%nat -> sorted (ids s).
Proof. intros I L. pose proof (inv_sorted s I) as H. rewrite firstn_all2 in H; auto. Qed.

Lemma in_split30 (l : list N) x : In x l <-> In x (firstn kMaxSortedSize l) \/ In x (skipn kMaxSortedSize l).
Proof. rewrite <- in_app_iff, firstn_skipn. tauto. Qed.

Lemma in_skipn n (l : list N) x : In x (skipn n l) -> In x l.
Proof. intros H. rewrite <- (firstn_skipn n l). apply in_app_iff. auto. Qed.
Lemma in_firstn n (l : list N) x : In x (firstn n l) -> In x l.
Proof. intros H. rewrite <- (firstn_skipn n l). apply in_app_iff. auto. Qed.

(** A sorted list of big ids makes a good set. *)
Lemma Inv_of_sorted sm r u :
  sorted r -> (forall x, In x r -> is_small x = false) ->
  ((length r <= kMaxSortedSize)%nat -> u = None) ->
  ((kMaxSortedSize < length r)%nat -> exists v, u = Some v /\
      (forall x, In x (skipn kMaxSortedSize r) -> In x v) /\ (forall x, In x v -> In x r)) ->
  Inv (mkSet sm r u).
Proof.
  intros H1 H2 H3 H4. constructor; cbn [ids unsorted]; auto.
  - apply sorted_NoDup; auto.
  - apply firstn_sorted; auto.
Qed.

Lemma of_span_ok l : Inv (of_span l) /\
  (forall x, In x (ids (of_span l)) <-> In x l /\ is_small x = false) /\
  (small (of_span l) = true <-> exists x, In x l /\ is_small x = true).
Proof.
  unfold of_span. set (big := filter (fun x => negb (is_small x)) l).
  assert (Hbig : forall x, In x big <-> In x l /\ is_small x = false).
  { intros x. unfold big. rewrite filter_In, negb_true_iff. tauto. }
  assert (Hsm : negb (length big =? length l)%nat = true <-> exists x, In x l /\ is_small x = true).
  { clear Hbig. unfold big. clear big. rewrite negb_true_iff, Nat.eqb_neq.
    assert (Hle : forall m, (length (filter (fun x => negb (is_small x)) m) <= length m)%nat).
    { induction m as [|a m IHm]; cbn; [lia|]. destruct (negb (is_small a)); cbn; lia. }
    induction l as [|a l IH]; cbn; [split; [lia|intros (x & [] & _)]|].
    pose proof (Hle l). destruct (is_small a) eqn:E; cbn.
    - split; [intros _; exists a; auto|lia].
    - split.
      + intros Hn. destruct (proj1 IH ltac:(lia)) as (x & Hx & Ex). exists x; auto.
      + intros (x & [->|Hx] & Ex); [congruence|].
        assert (length (filter (fun x0 => negb (is_small x0)) l) <> length l) by (apply IH; eauto). lia. }
  destruct (Nat.ltb_spec 1 (length big)) as [L|L]; cbn [ids small unsorted].
  - assert (Hs : sorted (unique (sort big))) by (apply unique_sorted, sort_sorted).
    assert (Hin : forall x, In x (unique (sort big)) <-> In x big) by (intros; rewrite unique_In, sort_In; tauto).
    split.
    + apply Inv_of_sorted; auto.
      * intros x Hx. apply Hin, Hbig in Hx. tauto.
      * intros Hle. destruct (Nat.ltb_spec kMaxSortedSize (length (unique (sort big)))); [lia|auto].
      * intros Hlt. destruct (Nat.ltb_spec kMaxSortedSize (length (unique (sort big)))); [|lia].
        eexists. split; [reflexivity|]. split; auto. intros x. apply in_skipn.
    + split; auto. intros x. rewrite Hin. auto.
  - split; [|split; auto].
    apply Inv_of_sorted; auto.
    + destruct big as [|a [|b big']]; [constructor|repeat constructor|cbn in L; lia].
    + intros x Hx. apply Hbig in Hx. tauto.
    + unfold kMaxSortedSize. lia.
Qed.

Lemma nth_error_last {A} (l : list A) d : l <> [] -> nth_error l (length l - 1) = Some (last l d).
Proof.
  intros H. destruct (exists_last H) as (l' & a & ->).
  rewrite last_last, app_length. cbn. rewrite nth_error_app2 by lia.
  replace (length l' + 1 - 1 - length l')%nat with O by lia. reflexivity.
Qed.

Lemma skipn_last {A} (l : list A) n d : length l = S n -> skipn n l = [last l d].
Proof.
  intros H. assert (Hn : l <> []) by (intros ->; discriminate).
  destruct (exists_last Hn) as (l' & a & ->). rewrite last_last.
  rewrite app_length in H. cbn in H. replace n with (length l') by lia.
  rewrite skipn_app, skipn_all, Nat.sub_diag. reflexivity.
Qed.

Lemma firstn_insert_skip l it x (L : sorted l) :
  it = lower_bound l x -> ~ In x l -> sorted (firstn it l ++ x :: skipn it l).
Proof.
  intros -> Hx. destruct (lower_bound_spec l x L) as (A & B & _).
  apply sorted_app. split; [apply firstn_sorted; auto|]. split.
  - constructor; [apply skipn_sorted; auto|]. apply Forall_forall. intros y Hy.
    specialize (B y Hy). assert (x <> y) by (intros ->; apply Hx; eapply in_skipn; eauto). lia.
  - intros a b Ha [<-|Hb]; [apply A; auto|]. specialize (A a Ha). specialize (B b Hb). lia.
Qed.

Lemma insert_big_slow_ok s x :
  Inv s -> is_small x = false ->
  exists s' b, insert_big_slow s x = Some (s', b) /\ Inv s' /\ small s' = small s /\
    (forall y, In y (ids s') <-> y = x \/ In y (ids s)) /\
    (b = true <-> ~ In x (ids s)).
Proof.
  intros I Hx. unfold insert_big_slow.
  set (sl := if (kMaxSortedSize <? length (ids s))%nat then firstn kMaxSortedSize (ids s) else ids s).
  assert (Hsl : sorted sl).
  { unfold sl. destruct (Nat.ltb_spec kMaxSortedSize (length (ids s))); [apply inv_sorted; auto|].
    apply short_sorted; auto. }
  assert (Hsub : forall y, In y sl -> In y (ids s)).
  { unfold sl. intros y. destruct (_ <? _)%nat; auto. apply in_firstn. }
  destruct (lower_bound_spec sl x Hsl) as (A & B & C).
  assert (Hf : (match nth_error sl (lower_bound sl x) with Some y => y =? x | None => false end) = true <-> In x sl).
  { rewrite C. destruct (nth_error sl (lower_bound sl x)) as [y|]; [|split; discriminate].
    rewrite N.eqb_eq. split; [intros ->; auto|intros [=]; auto]. }
  match goal with |- context[if ?c then _ else _] => destruct c eqn:F end.
  - exists s, false. split; auto. split; auto. split; auto.
    assert (In x (ids s)) by (apply Hsub, Hf; auto). split.
    + intros y; split; [auto|intros [->|]; auto].
    + split; [discriminate|tauto].
  - assert (Hnin : ~ In x sl) by (rewrite <- Hf; congruence).
    destruct (Nat.leb_spec (length (ids s)) kMaxSortedSize) as [L|L].
    + assert (Esl : sl = ids s).
      { unfold sl. destruct (Nat.ltb_spec kMaxSortedSize (length (ids s))); [lia|auto]. }
      rewrite Esl in *. set (r := firstn (lower_bound (ids s) x) (ids s) ++ x :: skipn (lower_bound (ids s) x) (ids s)).
      assert (Hr : forall y, In y r <-> y = x \/ In y (ids s)) by (intros; apply insert_at_In).
      assert (Hlen : length r = S (length (ids s))).
      { unfold r. rewrite app_length. cbn [length]. rewrite firstn_length, skipn_length.
        pose proof (lower_bound_le (ids s) x). lia. }
      eexists _, true. split; [reflexivity|]. cbn [ids small].
      split; [|split; [auto|split; [auto|tauto]]].
      apply Inv_of_sorted.
      * apply firstn_insert_skip; auto.
      * intros y Hy. apply Hr in Hy. destruct Hy as [->|Hy]; auto. apply (inv_big s I); auto.
      * intros Hle. destruct (Nat.ltb_spec kMaxSortedSize (length r)); [lia|]. apply (inv_short s I). lia.
      * intros Hlt. destruct (Nat.ltb_spec kMaxSortedSize (length r)); [|lia].
        exists [last r 0]. split; auto.
        rewrite (skipn_last r kMaxSortedSize 0) by lia. split; auto.
        intros y [<-|[]]. assert (r <> []) by (intros E; rewrite E in Hlen; discriminate).
        apply (nth_error_In r (length r - 1)). apply nth_error_last; auto.
    + destruct (inv_long s I L) as (u & Eu & U1 & U2). rewrite Eu.
      assert (Esl : sl = firstn kMaxSortedSize (ids s)).
      { unfold sl. destruct (Nat.ltb_spec kMaxSortedSize (length (ids s))); [auto|lia]. }
      assert (Hiff : In x (ids s) <-> In x u).
      { split; [|apply U2]. intros H. apply in_split30 in H. rewrite <- Esl in H. destruct H; [contradiction|apply U1; auto]. }
      unfold hs_insert. destruct (mem x u) eqn:Em.
      * apply mem_In in Em. eexists _, false. split; [reflexivity|]. cbn [ids small].
        assert (Hin : In x (ids s)) by tauto.
        split; [|split; [auto|split; [intros y; split; [auto|intros [->|]; auto]|split; [discriminate|tauto]]]].
        replace (mkSet (small s) (ids s) (Some u)) with s by (destruct s; cbn in *; congruence). auto.
      * assert (Hnu : ~ In x u) by (rewrite <- mem_In; congruence).
        eexists _, true. split; [reflexivity|]. cbn [ids small].
        assert (Hin : ~ In x (ids s)) by tauto.
        assert (Happ : forall y, In y (ids s ++ [x]) <-> y = x \/ In y (ids s)).
        { intros y. rewrite in_app_iff. cbn. intuition congruence. }
        split; [|split; [auto|split; [auto|tauto]]].
        constructor; cbn [ids unsorted].
        -- rewrite <- (rev_involutive (ids s ++ [x])).
           apply NoDup_rev. rewrite rev_app_distr. cbn. constructor; [rewrite <- in_rev; auto|].
           apply NoDup_rev, inv_nodup; auto.
        -- intros y Hy. apply Happ in Hy. destruct Hy as [->|Hy]; auto. apply (inv_big s I); auto.
        -- rewrite firstn_app. replace (kMaxSortedSize - length (ids s))%nat with O by lia.
           cbn. rewrite app_nil_r. apply inv_sorted; auto.
        -- rewrite app_length. cbn. lia.
        -- intros _. exists (x :: u). split; auto. split.
           ++ intros y. rewrite skipn_app. replace (kMaxSortedSize - length (ids s))%nat with O by lia.
              rewrite in_app_iff. cbn. intros [H|[H|[]]]; auto.
           ++ intros y [<-|Hy]; apply Happ; auto.
Qed.

Lemma insert_ok s x :
  Inv s ->
  exists s' b, insert s x = Some (s', b) /\ Inv s' /\
    (forall y, In y (ids s') <-> (y = x /\ is_small x = false) \/ In y (ids s)) /\
    small s' = (small s || is_small x) /\
    (b = true <-> if is_small x then small s = false else ~ In x (ids s)).
Proof.
  intros I. unfold insert. destruct (is_small x) eqn:Hx.
  - eexists _, _. split; [reflexivity|]. cbn [ids small].
    split; [destruct I; constructor; auto|].
    split; [intros y; split; [auto|intros [[_ H]|]; [discriminate|auto]]|].
    split; [rewrite orb_true_r; auto|]. apply negb_true_iff.
  - destruct (ids s) as [|y l] eqn:E.
    + eexists _, _. split; [reflexivity|]. cbn [ids small]. split.
      { apply Inv_of_sorted.
        - repeat constructor.
        - intros z [<-|[]]; auto.
        - intros _. apply (inv_short s I). rewrite E. cbn. unfold kMaxSortedSize; lia.
        - unfold kMaxSortedSize. cbn. lia. }
      split; [intros z; cbn; intuition congruence|].
      split; [rewrite orb_false_r; auto|]. cbn; tauto.
    + destruct (N.eqb_spec y x) as [->|Hn].
      * eexists _, _. split; [reflexivity|]. split; auto. rewrite E.
        split; [intros z; cbn; intuition congruence|]. split; [rewrite orb_false_r; auto|].
        cbn. split; [discriminate|]. intros H; exfalso; apply H; auto.
      * destruct (insert_big_slow_ok s x I Hx) as (s' & b & E1 & I' & Es & Hin & Hb).
        exists s', b. split; auto. split; auto. rewrite E in *. split; [intros z; rewrite Hin; tauto|].
        split; [rewrite orb_false_r; auto|auto].
Qed.

Lemma common_prefix_spec l1 : forall l2, firstn (common_prefix l1 l2) l1 = firstn (common_prefix l1 l2) l2.
Proof.
  induction l1 as [|x l1 IH]; intros [|y l2]; cbn; auto.
  destruct (N.eqb_spec x y) as [->|]; cbn; auto. f_equal; auto.
Qed.
Lemma common_prefix_le l1 : forall l2, (common_prefix l1 l2 <= length l2)%nat.
Proof.
  induction l1 as [|x l1 IH]; intros [|y l2]; cbn; try lia.
  destruct (x =? y); [|lia]. specialize (IH l2). lia.
Qed.

Lemma insert_set_ok s n : Inv s -> Inv n ->
  Inv (insert_set s n) /\
  (forall y, In y (ids (insert_set s n)) <-> In y (ids s) \/ In y (ids n)) /\
  small (insert_set s n) = (small s || small n).
Proof.
  intros Is In_. unfold insert_set. destruct (ids s) as [|a l] eqn:E.
  - cbn [ids small]. split; [destruct In_; constructor; auto|]. split; [cbn; tauto|auto].
  - rewrite <- E in *. clear E a l.
    set (off := common_prefix (ids s) (ids n)).
    pose proof (common_prefix_spec (ids s) (ids n)) as Hp. fold off in Hp.
    pose proof (common_prefix_le (ids s) (ids n)) as Hl. fold off in Hl.
    destruct (Nat.eqb_spec off (length (ids n))) as [Eo|No].
    + cbn [ids small]. split; [destruct Is; constructor; auto|]. split; [|auto].
      intros y. split; [auto|]. intros [|H]; auto.
      rewrite (firstn_all2 (ids n)) in Hp by lia. rewrite <- Hp in H. eapply in_firstn; eauto.
    + set (tail := skipn off (ids n)).
      assert (Htail : forall y, In y (ids s) \/ In y tail <-> In y (ids s) \/ In y (ids n)).
      { intros y. rewrite <- (firstn_skipn off (ids n)), in_app_iff, <- Hp. fold tail.
        split; [tauto|]. intros [|[H|]]; auto. left; eapply in_firstn; eauto. }
      set (r := if (length (ids s ++ tail) <=? kMaxSortedSize)%nat
                then firstn off (ids s) ++ unique (merge (skipn off (ids s)) tail)
                else unique (sort (ids s ++ tail))).
      assert (Hr : forall y, In y r <-> In y (ids s) \/ In y (ids n)).
      { intros y. rewrite <- Htail. unfold r. destruct (_ <=? _)%nat.
        - rewrite in_app_iff, unique_In, merge_In.
          rewrite <- (firstn_skipn off (ids s)) at 3. rewrite in_app_iff. tauto.
        - rewrite unique_In, sort_In, in_app_iff. tauto. }
      assert (Hs : sorted r).
      { unfold r. destruct (Nat.leb_spec (length (ids s ++ tail)) kMaxSortedSize) as [L|L].
        - rewrite app_length in L. unfold tail in L. rewrite skipn_length in L.
          assert (Lo : (off <= length (ids s))%nat).
          { assert (H : length (firstn off (ids s)) = length (firstn off (ids n))) by congruence.
            rewrite !firstn_length in H. lia. }
          assert (S1 : sorted (ids s)) by (apply short_sorted; auto; lia).
          assert (S2 : sorted (ids n)) by (apply short_sorted; auto; lia).
          apply sorted_app. split; [apply firstn_sorted; auto|]. split.
          { apply unique_sorted, merge_sorted; apply sorted_weak, skipn_sorted; auto. }
          intros x y Hx Hy. apply unique_In, merge_In in Hy.
          pose proof S1 as S1'. rewrite <- (firstn_skipn off (ids s)) in S1'.
          pose proof S2 as S2'. rewrite <- (firstn_skipn off (ids n)) in S2'.
          apply sorted_app in S1', S2'. destruct Hy as [Hy|Hy]; [apply S1'; auto|].
          apply S2'; auto. rewrite <- Hp; auto.
        - apply unique_sorted, sort_sorted. }
      assert (Hlen : (length (ids s) <= length r)%nat).
      { apply NoDup_incl_length; [apply inv_nodup; auto|]. intros y Hy. apply Hr; auto. }
      cbn [ids small]. split; [|split; [auto|auto]].
      apply Inv_of_sorted; auto.
      * intros y Hy. apply Hr in Hy. destruct Hy; [apply (inv_big s Is)|apply (inv_big n In_)]; auto.
      * intros Hle. destruct (Nat.ltb_spec kMaxSortedSize (length r)); [lia|]. apply (inv_short s Is). lia.
      * intros Hlt. destruct (Nat.ltb_spec kMaxSortedSize (length r)); [|lia].
        eexists. split; [reflexivity|]. split.
        -- intros x Hx. apply hs_fold_In. auto.
        -- intros x Hx. apply hs_fold_In in Hx. destruct Hx as [Hx|Hx]; [eapply in_skipn; eauto|].
           destruct (unsorted s) as [u|] eqn:Eu; [|destruct Hx].
           destruct (Nat.leb_spec (length (ids s)) kMaxSortedSize) as [L|L].
           { rewrite (inv_short s Is L) in Eu. discriminate. }
           destruct (inv_long s Is L) as (v & Ev & _ & V). rewrite Eu in Ev. injection Ev as <-.
           apply Hr. auto.
Qed.

Lemma list_eqb_eq l1 : forall l2, list_eqb l1 l2 = true <-> l1 = l2.
Proof.
  induction l1 as [|x l1 IH]; intros [|y l2]; cbn; try (split; congruence).
  rewrite andb_true_iff, N.eqb_eq, IH. split; [intros [-> ->]; auto|intros [=]; auto].
Qed.

Lemma set_eqb_ok l r : Inv l -> Inv r ->
  exists b, set_eqb l r = Some b /\
    (b = true <-> small l = small r /\ forall x, In x (ids l) <-> In x (ids r)).
Proof.
  intros Il Ir. unfold set_eqb.
  destruct (Bool.eqb (small l) (small r)) eqn:Es; cbn [andb].
  2:{ exists false. split; auto. apply eqb_false_iff in Es. split; [discriminate|tauto]. }
  apply eqb_prop in Es.
  destruct (Nat.eqb_spec (length (ids l)) (length (ids r))) as [El|Nl].
  2:{ exists false. split; auto. split; [discriminate|]. intros [_ H]. exfalso. apply Nl.
      apply Nat.le_antisymm; apply NoDup_incl_length; try apply inv_nodup; auto; intros x Hx; apply H; auto. }
  destruct (Nat.ltb_spec kMaxSortedSize (length (ids l))) as [L|L].
  - destruct (inv_long l Il L) as (u & Eu & U1 & U2). rewrite Eu. eexists. split; [reflexivity|].
    assert (Hset : forall x, In x (fold_left (fun u0 x0 => fst (hs_insert x0 u0)) (firstn kMaxSortedSize (ids l)) u)
                             <-> In x (ids l)).
    { intros x. rewrite hs_fold_In. split.
      - intros [H|H]; auto. eapply in_firstn; eauto.
      - intros H. apply in_split30 in H. destruct H; auto. }
    rewrite forallb_forall. split.
    + intros H. split; auto. assert (incl (ids r) (ids l)).
      { intros x Hx. apply Hset, mem_In. auto. }
      intros x. split; [|apply H0].
      apply (NoDup_length_incl (inv_nodup r Ir)); auto. lia.
    + intros [_ H] x Hx. apply mem_In, Hset, H. auto.
  - eexists. split; [reflexivity|]. rewrite list_eqb_eq. split; [intros ->; tauto|].
    intros [_ H]. apply sorted_ext; auto; apply short_sorted; auto. lia.
Qed.

(** * Every construction *)
Lemma eval_ok b : exists s, eval b = Some s /\ Inv s /\
  (forall x, In x (ids s) <-> big_member b x) /\ (small s = true <-> has_small b).
Proof.
  unfold big_member, has_small.
  induction b as [|f|x|l|b IH x|b IH|b1 IH1 b2 IH2]; cbn [eval inserted flagged].
  - exists empty_set. split; auto. split; [apply Inv_of_sorted; try constructor; cbn; auto; try contradiction; lia|].
    split; [cbn; tauto|]. split; [discriminate|]. intros [|(x & [] & _)]; auto.
  - exists (of_flag f). split; auto. split; [apply Inv_of_sorted; try constructor; cbn; auto; try contradiction; lia|].
    split; [cbn; tauto|]. cbn. split; [auto|]. intros [|(x & [] & _)]; auto.
  - exists (of_id x). split; auto. unfold of_id. destruct (is_small x) eqn:E; cbn [ids small].
    + split; [apply Inv_of_sorted; try constructor; cbn; auto; try contradiction; lia|].
      split; [cbn; split; [tauto|intros [[<-|[]] H]; congruence]|]. split; [intros _|auto].
      right; exists x; cbn; auto.
    + split; [apply Inv_of_sorted; [repeat constructor|intros y [<-|[]]; auto|auto|unfold kMaxSortedSize; cbn; lia]|].
      split; [intros y; cbn; split; [intros [<-|[]]; auto|tauto]|].
      split; [discriminate|]. intros [|(y & [<-|[]] & H)]; congruence.
  - exists (of_span l). destruct (of_span_ok l) as (A & B & C). split; auto. split; auto. split; auto.
    rewrite C. split; [auto|intros [|]; [discriminate|auto]].
  - destruct IH as (s & -> & I & Hin & Hsm).
    destruct (insert_ok s x I) as (s' & b' & -> & I' & Hin' & Hsm' & _). exists s'. split; auto. split; auto.
    split.
    + intros y. rewrite Hin', Hin. cbn. split; [intros [[-> ?]|[? ?]]; auto|].
      intros [[<-|H] E]; auto.
    + rewrite Hsm', orb_true_iff, Hsm. split.
      * intros [[H|(y & Hy & E)]|H]; auto; right; [exists y|exists x]; cbn; auto.
      * intros [H|(y & [<-|Hy] & E)]; eauto.
  - destruct IH as (s & -> & I & Hin & Hsm). exists (insert_small s). split; auto.
    split; [destruct I; constructor; auto|]. split; auto. cbn. split; auto.
  - destruct IH1 as (s1 & -> & I1 & Hin1 & Hsm1). destruct IH2 as (s2 & -> & I2 & Hin2 & Hsm2).
    destruct (insert_set_ok s1 s2 I1 I2) as (I & Hin & Hsm). exists (insert_set s1 s2).
    split; auto. split; auto. split.
    + intros x. rewrite Hin, Hin1, Hin2, in_app_iff. tauto.
    + rewrite Hsm, !orb_true_iff, Hsm1, Hsm2. split.
      * intros [[|(x & Hx & E)]|[|(x & Hx & E)]]; auto; right; exists x; rewrite in_app_iff; auto.
      * intros [[|]|(x & Hx & E)]; auto. apply in_app_iff in Hx. destruct Hx; eauto.
Qed.

Lemma eval_full b : exists s, eval b = Some s /\ NoDup (ids s) /\
  (forall x, In x (ids s) <-> big_member b x) /\ (small s = true <-> has_small b).
Proof.
  destruct (eval_ok b) as (s & E & I & H). exists s. split; auto. split; auto. apply inv_nodup; auto.
Qed.

Lemma insert_result b s x : eval b = Some s ->
  exists s' r, insert s x = Some (s', r) /\
    (r = true <-> if is_small x then ~ has_small b else ~ big_member b x).
Proof.
  intros E. destruct (eval_ok b) as (s0 & E0 & I & Hin & Hsm). rewrite E in E0. injection E0 as <-.
  destruct (insert_ok s x I) as (s' & r & -> & _ & _ & _ & Hr). exists s', r. split; auto.
  rewrite Hr. destruct (is_small x).
  - rewrite <- Hsm. destruct (small s); split; congruence.
  - rewrite Hin. tauto.
Qed.

Lemma eqb_result b1 b2 s1 s2 : eval b1 = Some s1 -> eval b2 = Some s2 ->
  exists r, set_eqb s1 s2 = Some r /\
    (r = true <-> (has_small b1 <-> has_small b2) /\ forall x, big_member b1 x <-> big_member b2 x).
Proof.
  intros E1 E2. destruct (eval_ok b1) as (s & E & I1 & Hin1 & Hsm1). rewrite E1 in E. injection E as <-.
  destruct (eval_ok b2) as (s & E & I2 & Hin2 & Hsm2). rewrite E2 in E. injection E as <-.
  destruct (set_eqb_ok s1 s2 I1 I2) as (r & -> & Hr). exists r. split; auto. rewrite Hr.
  rewrite <- Hsm1, <- Hsm2. split.
  - intros [-> H]. split; [tauto|]. intros x. rewrite <- Hin1, <- Hin2. auto.
  - intros [Hs H]. split.
    + apply eq_true_iff_eq. auto.
    + intros x. rewrite Hin1, Hin2. auto.
Qed.
