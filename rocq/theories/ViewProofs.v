(** * Proofs about [map_structures] and the operations on views. *)

From Coq Require Import List Arith Bool ZArith Lia ZifyBool Permutation.
From Verif Require Import ViewModel ViewSpec.
Import ListNotations.
Local Open Scope nat_scope.
Local Arguments Nat.leb : simpl never.
Local Arguments Nat.ltb : simpl never.
Local Arguments Nat.eqb : simpl never.

(** ** Sequences of calls *)

Lemma mapM_app : forall A B (f : A -> M B) l1 l2 h,
  mapM f (l1 ++ l2) h =
  match mapM f l1 h with
  | (h1, Raise e) => (h1, Raise e)
  | (h1, Ok ys1) =>
      match mapM f l2 h1 with
      | (h2, Raise e) => (h2, Raise e)
      | (h2, Ok ys2) => (h2, Ok (ys1 ++ ys2))
      end
  end.
Proof.
  induction l1 as [|a l1 IH]; intros l2 h; cbn.
  - destruct (mapM f l2 h) as [h2 [ys|e]]; reflexivity.
  - unfold bind. destruct (f a h) as [h1 [b|e]]; [|reflexivity].
    rewrite IH. destruct (mapM f l1 h1) as [h2 [ys|e]]; [|reflexivity].
    cbn. destruct (mapM f l2 h2) as [h3 [zs|e]]; reflexivity.
Qed.

Lemma mapM_length : forall A B (f : A -> M B) l h h' ys,
  mapM f l h = (h', Ok ys) -> length ys = length l.
Proof.
  induction l as [|a l IH]; intros h h' ys; cbn.
  - unfold ret. intros E. assert (ys = []) by congruence. subst. reflexivity.
  - unfold bind. destruct (f a h) as [h1 [b|e]]; [|discriminate].
    destruct (mapM f l h1) as [h2 [zs|e]] eqn:E; [|discriminate].
    unfold ret. intros E'. assert (ys = b :: zs) by congruence. subst.
    cbn. f_equal. eapply IH. exact E.
Qed.

Lemma mapM_ext : forall A B (f g : A -> M B) l h,
  (forall a h, In a l -> f a h = g a h) -> mapM f l h = mapM g l h.
Proof.
  induction l as [|a l IH]; intros h H; cbn; [reflexivity|].
  unfold bind. rewrite H by (left; reflexivity).
  destruct (g a h) as [h1 [b|e]]; [|reflexivity].
  rewrite IH; [reflexivity|]. intros; apply H; right; assumption.
Qed.

(** ** Shapes *)

Lemma shaped_tuple : forall d xs,
  shaped (S d) (PTuple xs) <-> Forall (shaped d) xs.
Proof.
  intros. cbn. split.
  - intros [ys [E F]]. congruence.
  - intros F. exists xs. split; [reflexivity|exact F].
Qed.

Lemma shaped_below : forall d e o, e <= d -> shaped d o -> shaped e o.
Proof.
  induction d as [|d IH]; intros e o L S0.
  - assert (e = 0) by lia. subst. exact I.
  - destruct e as [|e]; [exact I|].
    destruct S0 as [xs [-> F]]. apply shaped_tuple.
    eapply Forall_impl; [|exact F]. intros. apply IH; [lia|assumption].
Qed.

Lemma at_app : forall p q o,
  at_ (p ++ q) o = match at_ p o with Some x => at_ q x | None => None end.
Proof.
  induction p as [|i p IH]; intros q o; cbn; [reflexivity|].
  destruct o; try reflexivity.
  destruct (nth_error items i); [apply IH|reflexivity].
Qed.

Lemma shaped_at : forall p d o x,
  shaped (length p + d) o -> at_ p o = Some x -> shaped d x.
Proof.
  induction p as [|i p IH]; intros d o x S0 A; cbn in *.
  - congruence.
  - destruct S0 as [xs [-> F]].
    destruct (nth_error xs i) as [y|] eqn:E; [|discriminate].
    apply (IH d y x); [|exact A].
    eapply Forall_forall; [exact F|]. eapply nth_error_In. exact E.
Qed.

Lemma flat_map_map_ {A B C} (f : B -> list C) (g : A -> B) l :
  flat_map f (map g l) = flat_map (fun a => f (g a)) l.
Proof. induction l; cbn; congruence. Qed.

Lemma map_flat_map_ {A B C} (f : B -> C) (g : A -> list B) l :
  map f (flat_map g l) = flat_map (fun a => map f (g a)) l.
Proof. induction l; cbn; [reflexivity|]. rewrite map_app. congruence. Qed.

Lemma flat_map_ext_in {A B} (f g : A -> list B) l :
  (forall a, In a l -> f a = g a) -> flat_map f l = flat_map g l.
Proof.
  induction l as [|a l IH]; intros H; cbn; [reflexivity|].
  rewrite H by (left; reflexivity). rewrite IH; [reflexivity|].
  intros; apply H; right; assumption.
Qed.

Lemma flat_map_length_eq {A B C} (f : A -> list B) (g : A -> list C) l :
  (forall a, In a l -> length (f a) = length (g a)) ->
  length (flat_map f l) = length (flat_map g l).
Proof.
  induction l as [|a l IH]; intros H; cbn; [reflexivity|].
  rewrite !app_length, H by (left; reflexivity). f_equal.
  apply IH. intros; apply H; right; assumption.
Qed.

Lemma combine_snd {A B} (xs : list A) (ys : list B) :
  length xs = length ys -> map snd (combine xs ys) = ys.
Proof.
  revert ys. induction xs as [|x xs IH]; intros [|y ys] L; cbn in *;
    try discriminate; [reflexivity|]. f_equal. apply IH. lia.
Qed.

Lemma in_combine_seq {A} (xs : list A) s i x :
  In (i, x) (combine (seq s (length xs)) xs) <->
  s <= i /\ nth_error xs (i - s) = Some x.
Proof.
  revert s. induction xs as [|y xs IH]; intros s; cbn.
  - split; [tauto|]. intros [_ E]. destruct (i - s); discriminate.
  - split.
    + intros [E|H].
      * inversion E; subst. split; [lia|]. rewrite Nat.sub_diag. reflexivity.
      * apply IH in H. destruct H as [L E]. split; [lia|].
        replace (i - s) with (S (i - S s)) by lia. exact E.
    + intros [L E]. destruct (Nat.eq_dec i s) as [->|NE].
      * left. rewrite Nat.sub_diag in E. cbn in E. congruence.
      * right. apply IH. split; [lia|].
        replace (i - s) with (S (i - S s)) in E by lia. exact E.
Qed.

(** Items are what is found at the positions, in order. *)
Lemma leaves_at : forall d o,
  map (fun p => at_ p o) (positions d o) = map Some (leaves d o).
Proof.
  induction d as [|d IH]; intros o; cbn; [reflexivity|].
  destruct o; try reflexivity.
  rewrite !map_flat_map_.
  transitivity (flat_map (fun x => map Some (leaves d x))
                  (map snd (combine (seq 0 (length items)) items))).
  - rewrite flat_map_map_. apply flat_map_ext_in. intros [i x] H.
    apply in_combine_seq in H. destruct H as [_ E].
    rewrite Nat.sub_0_r in E. cbn beta iota delta [fst snd].
    rewrite map_map, <- IH. apply map_ext. intros p. cbn. rewrite E.
    reflexivity.
  - rewrite combine_snd by apply seq_length. reflexivity.
Qed.

Lemma positions_length : forall d o,
  length (positions d o) = length (leaves d o).
Proof.
  intros. rewrite <- (map_length Some (leaves d o)), <- leaves_at, map_length.
  reflexivity.
Qed.

Lemma positions_in : forall d o p,
  shaped d o ->
  In p (positions d o) <-> length p = d /\ exists x, at_ p o = Some x.
Proof.
  induction d as [|d IH]; intros o p S0; cbn.
  - split.
    + intros [<-|[]]. split; [reflexivity|]. eexists; reflexivity.
    + intros [L _]. left. destruct p; [reflexivity|discriminate].
  - destruct S0 as [xs [-> F]]. rewrite in_flat_map. split.
    + intros [[i x] [H1 H2]]. apply in_combine_seq in H1.
      destruct H1 as [_ E]. rewrite Nat.sub_0_r in E. cbn [fst snd] in H2.
      apply in_map_iff in H2. destruct H2 as [q [<- Q]].
      apply IH in Q.
      * destruct Q as [L [y A]]. cbn. rewrite E. split; [lia|].
        exists y. exact A.
      * eapply Forall_forall; [exact F|]. eapply nth_error_In; exact E.
    + intros [L [y A]]. destruct p as [|i q]; [discriminate|]. cbn in A.
      destruct (nth_error xs i) as [x|] eqn:E; [|discriminate].
      exists (i, x). split.
      * apply in_combine_seq. split; [lia|]. rewrite Nat.sub_0_r. exact E.
      * cbn [fst snd]. apply in_map. apply IH.
        -- eapply Forall_forall; [exact F|]. eapply nth_error_In; exact E.
        -- cbn in L. split; [lia|]. exists y. exact A.
Qed.

(** A structure is determined by its positions and items. *)
Lemma at_positions : forall d o ps ys p y,
  positions d o = ps -> leaves d o = ys ->
  In (p, y) (combine ps ys) -> at_ p o = Some y.
Proof.
  intros d o ps ys p y <- <- H.
  pose proof (leaves_at d o) as E.
  remember (positions d o) as ps eqn:Ep. remember (leaves d o) as ys eqn:Ey.
  clear Ep Ey. revert ys E H.
  induction ps as [|q ps IH]; intros [|z ys] E H; cbn in *; try tauto;
    try discriminate.
  inversion E as [[E1 E2]]. destruct H as [H|H].
  - inversion H; subst. exact E1.
  - eapply IH; eassumption.
Qed.

Lemma at_full : forall d o p y,
  shaped d o -> length p = d -> at_ p o = Some y ->
  In (p, y) (combine (positions d o) (leaves d o)).
Proof.
  intros d o p y S0 L A.
  assert (I1 : In p (positions d o))
    by (apply positions_in; [exact S0|]; split; [exact L|eexists; exact A]).
  pose proof (leaves_at d o) as E.
  remember (positions d o) as ps. remember (leaves d o) as ys.
  clear Heqps Heqys. revert ys E.
  induction ps as [|q ps IH]; intros [|z ys] E; cbn in *; try tauto;
    try discriminate.
  inversion E as [[E1 E2]]. destruct I1 as [->|I1].
  - left. congruence.
  - right. apply IH; assumption.
Qed.

Lemma positions_nodup : forall d o, NoDup (positions d o).
Proof.
  induction d as [|d IH]; intros o; cbn; [repeat constructor; tauto|].
  destruct o; try constructor.
  generalize 0. induction items as [|x xs IHx]; intros s; cbn; [constructor|].
  assert (G : forall (l1 l2 : list (list nat)), NoDup l1 -> NoDup l2 ->
      (forall a, In a l1 -> ~ In a l2) -> NoDup (l1 ++ l2)).
  { clear. induction l1 as [|a l1 IH]; intros l2 N1 N2 D; cbn; [exact N2|].
    inversion N1; subst. constructor.
    - rewrite in_app_iff. intros [H|H]; [contradiction|].
      apply (D a); [left; reflexivity|exact H].
    - apply IH; auto. intros b B. apply D. right. exact B. }
  apply G.
  - apply FinFun.Injective_map_NoDup; [|apply IH].
    intros a b E. congruence.
  - apply IHx.
  - intros a A1 A2. apply in_map_iff in A1. destruct A1 as [q [<- _]].
    apply in_flat_map in A2. destruct A2 as [[i y] [C1 C2]].
    apply in_combine_seq in C1. apply in_map_iff in C2.
    destruct C2 as [q' [E _]]. cbn in E. assert (i = s) by congruence. lia.
Qed.

(** ** One level of [map_impl] *)

Lemma scan_spec : forall cur args ml r,
  scan_lengths cur args ml = Ok r ->
  (forall m, ml = Some m -> r = Some m) /\
  (r = None <-> ml = None /\ Forall (fun da => fst da <= cur) args) /\
  (forall len, r = Some len ->
     Forall (fun da => cur < fst da ->
               exists xs, snd da = PTuple xs /\ length xs = len) args).
Proof.
  intros cur. induction args as [|[d a] args IH]; intros ml r E; cbn in E.
  - assert (r = ml) by congruence. subst. split; [auto|]. split.
    + split; [auto|]. intros [X _]; exact X.
    + constructor.
  - destruct (d <=? cur) eqn:L.
    + apply Nat.leb_le in L. apply IH in E. destruct E as [E1 [E2 E3]].
      split; [exact E1|]. split.
      * rewrite E2. split; intros [X Y]; split; auto.
        inversion Y; assumption.
      * intros len R. constructor; [cbn; lia|]. apply E3. exact R.
    + apply Nat.leb_gt in L.
      destruct a as [| |xs| |]; try discriminate.
      destruct ml as [m|].
      * destruct (length xs =? m) eqn:Q; [|discriminate].
        apply Nat.eqb_eq in Q.
        apply IH in E. destruct E as [E1 [E2 E3]].
        assert (R : r = Some m) by (apply E1; reflexivity).
        split; [exact E1|]. split.
        -- split; [congruence|]. intros [X _]; discriminate.
        -- intros len R'. constructor; [|apply E3; exact R'].
           cbn. intros _. exists xs. split; [reflexivity|]. congruence.
      * apply IH in E. destruct E as [E1 [E2 E3]].
        assert (R : r = Some (length xs)) by (apply E1; reflexivity).
        split; [intros; discriminate|]. split.
        -- split; [congruence|]. intros [_ X]. inversion X; subst.
           cbn in *. lia.
        -- intros len R'. constructor; [|apply E3; exact R'].
           cbn. intros _. exists xs. split; [reflexivity|]. congruence.
Qed.

(** It finds a length when all tuples have it. *)
Lemma scan_ok : forall cur args len ml,
  Forall (fun da => cur < fst da ->
            exists xs, snd da = PTuple xs /\ length xs = len) args ->
  ml = None \/ ml = Some len ->
  scan_lengths cur args ml =
  Ok (if existsb (fun da => cur <? fst da) args then Some len else ml).
Proof.
  intros cur args len. induction args as [|[d a] args IH]; intros ml F M0; cbn.
  - reflexivity.
  - inversion F as [|? ? F1 F2]; subst.
    destruct (d <=? cur) eqn:L.
    + replace (cur <? d) with false by lia. cbn. apply IH; assumption.
    + replace (cur <? d) with true by lia. cbn.
      destruct F1 as [xs [X Lx]]; [cbn; lia|]. cbn in X. subst a.
      destruct M0 as [->| ->].
      * rewrite IH; [|assumption|right; congruence].
        rewrite Lx.
        destruct (existsb _ args); reflexivity.
      * rewrite Lx, Nat.eqb_refl. rewrite IH; auto.
        destruct (existsb _ args); reflexivity.
Qed.

Lemma pick_spec : forall cur i args args',
  pick cur i args = Some args' ->
  Forall2 (fun da da' => fst da' = fst da /\
             (if fst da <=? cur then snd da' = snd da
              else at_ [i] (snd da) = Some (snd da'))) args args'.
Proof.
  intros cur i. induction args as [|[d a] args IH]; intros args' E; cbn in E.
  - assert (args' = []) by congruence. subst. constructor.
  - destruct (if d <=? cur then Some a else _) as [o|] eqn:X; [|discriminate].
    destruct (pick cur i args) as [rest|]; [|discriminate].
    assert (args' = (d, o) :: rest) by congruence. subst.
    constructor; [|apply IH; reflexivity].
    cbn. split; [reflexivity|]. destruct (d <=? cur); [congruence|].
    destruct a; try discriminate. destruct (nth_error items i); congruence.
Qed.

Lemma pick_ok : forall cur i len args,
  Forall (fun da => cur < fst da ->
            exists xs, snd da = PTuple xs /\ length xs = len) args ->
  i < len -> exists args', pick cur i args = Some args'.
Proof.
  intros cur i len args F L. induction F as [|[d a] args F1 F2 IH]; cbn.
  - eexists; reflexivity.
  - destruct IH as [rest ->].
    destruct (d <=? cur) eqn:Q; [eexists; reflexivity|].
    destruct F1 as [xs [X Lx]]; [cbn; lia|]. cbn in X. subst.
    destruct (nth_error xs i) eqn:E; [eexists; reflexivity|].
    apply nth_error_None in E. lia.
Qed.

(** ** All levels of [map_impl] *)

Definition row_of (cur : nat) (args : list (nat * obj)) (p : list nat)
    (xs : list obj) : Prop :=
  Forall2 (fun da x => at_ (firstn (fst da - cur) p) (snd da) = Some x)
          args xs.

Definition shaped_args (cur : nat) (args : list (nat * obj)) : Prop :=
  Forall (fun da => shaped (fst da - cur) (snd da)) args.

Definition aligned_args (cur : nat) (args : list (nat * obj)) : Prop :=
  forall da db p xs,
    In da args -> In db args ->
    length p < fst da - cur -> length p < fst db - cur ->
    at_ p (snd da) = Some (PTuple xs) ->
    exists ys, at_ p (snd db) = Some (PTuple ys) /\ length ys = length xs.

(** What it means for a computation to make the calls of [rows] and return a
    structure of the shape of [a]. *)
Definition runs (D : nat) (a : obj) (rows : list (list obj))
    (g : (list obj -> M obj) -> bool -> M obj) : Prop :=
  forall f inc h,
    match mapM (call f inc) rows h with
    | (h', Raise e) => g f inc h = (h', Raise e)
    | (h', Ok ys) =>
        exists r, g f inc h = (h', Ok r) /\ shaped D r /\
                  (forall e, e <= D -> positions e r = positions e a) /\
                  leaves D r = ys
    end.

Lemma runs_list : forall P D g (ixs : list (nat * obj)),
  (forall i x, In (i, x) ixs ->
     exists rows, Forall2 P (map (cons i) (positions D x)) rows /\
                  runs D x rows (g i)) ->
  exists rows,
    Forall2 P (flat_map (fun ix => map (cons (fst ix)) (positions D (snd ix)))
                 ixs) rows /\
    forall f inc h,
      match mapM (call f inc) rows h with
      | (h', Raise e) =>
          mapM (fun i => g i f inc) (map fst ixs) h = (h', Raise e)
      | (h', Ok ys) =>
          exists rs, mapM (fun i => g i f inc) (map fst ixs) h = (h', Ok rs) /\
            Forall (shaped D) rs /\
            (forall e, e <= D ->
               map (positions e) rs = map (fun ix => positions e (snd ix)) ixs) /\
            flat_map (leaves D) rs = ys
      end.
Proof.
  intros P D g. induction ixs as [|[i x] ixs IH]; intros H.
  - exists []. split; [constructor|]. intros f inc h. cbn.
    exists []. repeat split; constructor.
  - destruct (H i x) as [rows1 [P1 R1]]; [left; reflexivity|].
    destruct IH as [rows2 [P2 R2]].
    { intros j y J. apply H. right. exact J. }
    exists (rows1 ++ rows2). split; [cbn; apply Forall2_app; assumption|].
    intros f inc h. rewrite mapM_app.
    specialize (R1 f inc h).
    destruct (mapM (call f inc) rows1 h) as [h1 [ys1|e1]].
    + destruct R1 as [r [G [S0 [Ps Ls]]]].
      specialize (R2 f inc h1).
      destruct (mapM (call f inc) rows2 h1) as [h2 [ys2|e2]].
      * destruct R2 as [rs [G2 [S2 [Ps2 Ls2]]]].
        exists (r :: rs). cbn. unfold bind. rewrite G, G2.
        split; [reflexivity|]. split; [constructor; assumption|].
        split; [|congruence]. intros e L. rewrite Ps, Ps2 by exact L.
        reflexivity.
      * cbn. unfold bind. rewrite G, R2. reflexivity.
    + cbn. unfold bind. rewrite R1. reflexivity.
Qed.

Lemma positions_tuple : forall D rs xs,
  map (positions D) rs = map (positions D) xs ->
  positions (S D) (PTuple rs) = positions (S D) (PTuple xs).
Proof.
  intros D rs xs E. cbn.
  assert (L : length rs = length xs)
    by (rewrite <- (map_length (positions D) rs), E, map_length; reflexivity).
  rewrite L. generalize 0. clear L.
  revert xs E. induction rs as [|r rs IH]; intros [|x xs] E s; cbn in *;
    try discriminate; [reflexivity|].
  inversion E as [[E1 E2]]. rewrite E1. f_equal. apply IH. exact E2.
Qed.

Lemma row_of_cons : forall cur i args args' p xs,
  Forall2 (fun da da' => fst da' = fst da /\
             (if fst da <=? cur then snd da' = snd da
              else at_ [i] (snd da) = Some (snd da'))) args args' ->
  row_of (S cur) args' p xs ->
  row_of cur args (i :: p) xs.
Proof.
  intros cur i args args' p xs F. revert xs.
  induction F as [|[d a] [d' a'] args args' [E1 E2] F IH]; intros xs R;
    inversion R as [|? x ? xs' R1 R2]; subst; constructor.
  - cbn [fst snd] in *. subst d'. destruct (d <=? cur) eqn:L.
    + replace (d - cur) with 0 by lia. replace (d - S cur) with 0 in R1 by lia.
      cbn in *. congruence.
    + replace (d - cur) with (S (d - S cur)) by lia. cbn [firstn].
      change (i :: firstn (d - S cur) p) with ([i] ++ firstn (d - S cur) p).
      rewrite at_app, E2. exact R1.
  - apply IH. exact R2.
Qed.

Lemma Forall2_in_r : forall A B (R : A -> B -> Prop) l l' b,
  Forall2 R l l' -> In b l' -> exists a, In a l /\ R a b.
Proof.
  induction 1 as [|x y l l' H F IH]; intros J; [destruct J|].
  destruct J as [->|J].
  - exists x. split; [left; reflexivity|exact H].
  - destruct (IH J) as [a [A1 A2]]. exists a. split; [right; exact A1|exact A2].
Qed.

Lemma Forall2_in_l : forall A B (R : A -> B -> Prop) l l' a,
  Forall2 R l l' -> In a l -> exists b, In b l' /\ R a b.
Proof.
  induction 1 as [|x y l l' H F IH]; intros J; [destruct J|].
  destruct J as [->|J].
  - exists y. split; [left; reflexivity|exact H].
  - destruct (IH J) as [b [A1 A2]]. exists b. split; [right; exact A1|exact A2].
Qed.

Lemma Forall2_length_eq : forall A B (R : A -> B -> Prop) l l',
  Forall2 R l l' -> length l = length l'.
Proof. induction 1; cbn; congruence. Qed.

Lemma at_one : forall i o x,
  at_ [i] o = Some x -> exists xs, o = PTuple xs /\ nth_error xs i = Some x.
Proof.
  intros i o x E. cbn in E. destruct o; try discriminate.
  destruct (nth_error items i) eqn:N0; [|discriminate].
  exists items. split; congruence.
Qed.

(** The arguments of an inner call are shaped and aligned. *)
Lemma pick_keeps : forall cur i args args',
  Forall2 (fun da da' => fst da' = fst da /\
             (if fst da <=? cur then snd da' = snd da
              else at_ [i] (snd da) = Some (snd da'))) args args' ->
  shaped_args cur args -> aligned_args cur args ->
  shaped_args (S cur) args' /\ aligned_args (S cur) args'.
Proof.
  intros cur i args args' F S0 A0. split.
  - unfold shaped_args in *. rewrite Forall_forall in S0 |- *.
    intros da' J. destruct (Forall2_in_r _ _ _ _ _ _ F J)
      as [da [J2 [E1 E2]]].
    rewrite E1. specialize (S0 da J2). destruct (fst da <=? cur) eqn:L.
    + replace (fst da - S cur) with 0 by lia. exact I.
    + apply at_one in E2. destruct E2 as [xs [E N0]]. rewrite E in S0.
      replace (fst da - cur) with (S (fst da - S cur)) in S0 by lia.
      apply shaped_tuple in S0. rewrite Forall_forall in S0. apply S0.
      eapply nth_error_In. exact N0.
  - intros da' db' p xs J1 J2 L1 L2 E.
    destruct (Forall2_in_r _ _ _ _ _ _ F J1) as [da [K1 [E1 E2]]].
    destruct (Forall2_in_r _ _ _ _ _ _ F J2) as [db [K2 [E3 E4]]].
    rewrite E1 in L1. rewrite E3 in L2.
    replace (fst da <=? cur) with false in E2 by lia.
    replace (fst db <=? cur) with false in E4 by lia.
    destruct (A0 da db (i :: p) xs K1 K2) as [ys [Y1 Y2]].
    + cbn; lia.
    + cbn; lia.
    + change (i :: p) with ([i] ++ p). rewrite at_app, E2. exact E.
    + exists ys. split; [|exact Y2].
      change (i :: p) with ([i] ++ p) in Y1. rewrite at_app, E4 in Y1.
      exact Y1.
Qed.

Lemma lengths_agree : forall cur args dm xs,
  In (dm, PTuple xs) args -> cur < dm ->
  shaped_args cur args -> aligned_args cur args ->
  Forall (fun da => cur < fst da ->
            exists ys, snd da = PTuple ys /\ length ys = length xs) args.
Proof.
  intros cur args dm xs J L S0 A0. apply Forall_forall. intros da K L2.
  destruct (A0 (dm, PTuple xs) da [] xs J K) as [ys [Y1 Y2]];
    try (cbn; lia).
  - reflexivity.
  - exists ys. cbn in Y1. split; congruence.
Qed.

Lemma map_impl_runs : forall left cur args dm a,
  shaped_args cur args -> aligned_args cur args ->
  In (dm, a) args -> Forall (fun da => fst da <= dm) args ->
  dm - cur <= left ->
  exists rows,
    Forall2 (row_of cur args) (positions (dm - cur) a) rows /\
    runs (dm - cur) a rows
      (fun f inc => map_impl f inc left cur args).
Proof.
  induction left as [|left IH]; intros cur args dm a S0 A0 J Mx L.
  all: destruct (dm - cur) as [|D] eqn:ED.
  1,3: exists [map snd args]; split;
    [ constructor; [|constructor]; unfold row_of;
      clear - Mx ED; induction Mx as [|da args H F IHm]; constructor;
      [replace (fst da - cur) with 0 by lia; reflexivity|exact IHm]
    | intros f inc h; cbn [mapM];
      unfold bind, ret;
      assert (SC : scan_lengths cur args None = Ok None)
        by (rewrite (scan_ok cur args 0 None);
            [ replace (existsb _ args) with false; [reflexivity|];
              symmetry; apply Bool.not_true_iff_false; rewrite existsb_exists;
              intros [da [K1 K2]]; rewrite Forall_forall in Mx;
              specialize (Mx da K1); lia
            | rewrite Forall_forall in Mx; apply Forall_forall;
              intros da K1 K2; specialize (Mx da K1); lia
            | left; reflexivity ]);
      cbn [map_impl]; rewrite SC;
      destruct (call f inc (map snd args) h) as [h1 [y|e]];
      [ exists y; repeat split; intros e0 L0;
        assert (e0 = 0) by lia; subst e0; reflexivity
      | reflexivity ] ].
  { lia. }
  assert (Sa : shaped (dm - cur) a).
  { unfold shaped_args in S0. rewrite Forall_forall in S0.
    exact (S0 _ J). }
  rewrite ED in Sa. destruct Sa as [xs [-> Fx]].
  pose proof (lengths_agree cur args dm xs J ltac:(lia) S0 A0) as LA.
  destruct (runs_list (row_of cur args) D
              (fun i f inc =>
                 match pick cur i args with
                 | Some args' => map_impl f inc left (S cur) args'
                 | None => raise Unreachable
                 end)
              (combine (seq 0 (length xs)) xs)) as [rows [P1 R1]].
  - intros i x K. apply in_combine_seq in K. destruct K as [_ N0].
    rewrite Nat.sub_0_r in N0.
    destruct (pick_ok cur i (length xs) args LA) as [args' E].
    { apply nth_error_Some. congruence. }
    pose proof (pick_spec _ _ _ _ E) as F.
    destruct (pick_keeps _ _ _ _ F S0 A0) as [S1 A1].
    destruct (Forall2_in_l _ _ _ _ _ _ F J) as [[dm' x'] [J' [E1 E2]]].
    cbn [fst snd] in E1, E2. subst dm'.
    replace (dm <=? cur) with false in E2 by lia.
    assert (x' = x) by (cbn in E2; rewrite N0 in E2; congruence). subst x'.
    destruct (IH (S cur) args' dm x S1 A1 J') as [rows [P2 R2]].
    { clear - F Mx. induction F as [|da da' l l' [H1 H2] F IHf]; constructor.
      - inversion Mx; subst. rewrite H1. assumption.
      - apply IHf. inversion Mx; assumption. }
    { lia. }
    replace (dm - S cur) with D in P2, R2 by lia.
    exists rows. split.
    + clear - F P2. induction P2; cbn; constructor.
      * eapply row_of_cons; eassumption.
      * assumption.
    + intros f inc h. rewrite E. apply R2.
  - exists rows. split; [exact P1|]. intros f inc h.
    specialize (R1 f inc h).
    assert (MF : map fst (combine (seq 0 (length xs)) xs) = seq 0 (length xs)).
    { generalize (seq_length (length xs) 0). generalize (seq 0 (length xs)).
      clear. induction xs as [|x xs IH]; intros [|i l] E; cbn in *;
        try discriminate; [reflexivity|]. f_equal. apply IH. lia. }
    rewrite MF in R1.
    assert (SC : scan_lengths cur args None = Ok (Some (length xs))).
    { rewrite (scan_ok cur args (length xs) None LA) by (left; reflexivity).
      replace (existsb _ args) with true; [reflexivity|].
      symmetry. apply existsb_exists. exists (dm, PTuple xs).
      split; [exact J|]. cbn [fst]. lia. }
    cbn [map_impl]. rewrite SC. unfold bind.
    destruct (mapM (call f inc) rows h) as [h1 [ys|e]].
    + destruct R1 as [rs [G [Sr [Ps Ls]]]]. rewrite G. unfold ret.
      exists (PTuple rs). split; [reflexivity|].
      split; [apply shaped_tuple; exact Sr|]. split.
      * intros e L0. destruct e as [|e]; [reflexivity|].
        apply positions_tuple. rewrite Ps by lia.
        rewrite <- (map_map snd (positions e)).
        rewrite combine_snd by apply seq_length. reflexivity.
      * exact Ls.
    + rewrite R1. reflexivity.
Qed.

(** A result shows that the arguments were shaped and aligned. *)
Lemma mapM_ok_each : forall A B (f : A -> M B) l h h' ys,
  mapM f l h = (h', Ok ys) ->
  forall a, In a l -> exists h1 h2 y, f a h1 = (h2, Ok y).
Proof.
  induction l as [|b l IH]; intros h h' ys E a J; [destruct J|].
  cbn in E. unfold bind in E.
  destruct (f b h) as [h1 [y|e]] eqn:F; [|discriminate].
  destruct (mapM f l h1) as [h2 [zs|e]] eqn:G; [|discriminate].
  destruct J as [->|J].
  - exists h, h1, y. exact F.
  - eapply IH; eassumption.
Qed.

Lemma map_impl_ok : forall f inc left cur args h h' r,
  map_impl f inc left cur args h = (h', Ok r) ->
  shaped_args cur args /\ aligned_args cur args.
Proof.
  intros f inc. induction left as [|left IH]; intros cur args h h' r E.
  all: cbn [map_impl] in E;
    destruct (scan_lengths cur args None) as [[len|]|e] eqn:SC;
    try discriminate; apply scan_spec in SC; destruct SC as [_ [SN SS]].
  1,3: destruct SN as [SN _]; specialize (SN eq_refl); destruct SN as [_ SN];
    split;
    [ eapply Forall_impl; [|exact SN]; intros da L; cbn in L;
      replace (fst da - cur) with 0 by lia; exact I
    | intros da db p xs J1 J2 L1 L2; rewrite Forall_forall in SN;
      specialize (SN da J1); cbn in SN; lia ].
  specialize (SS len eq_refl).
  unfold bind in E.
  destruct (mapM _ (seq 0 len) h) as [h1 [rs|e]] eqn:G; [|discriminate].
  assert (ALL : forall i, i < len -> exists args',
            Forall2 (fun da da' => fst da' = fst da /\
               (if fst da <=? cur then snd da' = snd da
                else at_ [i] (snd da) = Some (snd da'))) args args' /\
            shaped_args (S cur) args' /\ aligned_args (S cur) args').
  { intros i L.
    destruct (mapM_ok_each _ _ _ _ _ _ _ G i) as [g1 [g2 [y Y]]].
    { apply in_seq. lia. }
    destruct (pick cur i args) as [args'|] eqn:PK; [|discriminate].
    exists args'. split; [apply pick_spec; exact PK|].
    eapply IH. exact Y. }
  clear E G. rewrite Forall_forall in SS. split.
  - apply Forall_forall. intros da J.
    destruct (fst da <=? cur) eqn:L.
    + replace (fst da - cur) with 0 by lia. exact I.
    + destruct (SS da J) as [xs [E1 E2]]; [lia|].
      replace (fst da - cur) with (S (fst da - S cur)) by lia.
      rewrite E1. apply shaped_tuple. apply Forall_forall. intros x X.
      apply In_nth_error in X. destruct X as [i N0].
      destruct (ALL i) as [args' [F [S1 _]]].
      { rewrite <- E2. apply nth_error_Some. congruence. }
      destruct (Forall2_in_l _ _ _ _ _ _ F J) as [da' [J' [Q1 Q2]]].
      rewrite L in Q2. rewrite E1 in Q2. cbn in Q2. rewrite N0 in Q2.
      unfold shaped_args in S1. rewrite Forall_forall in S1.
      specialize (S1 da' J'). rewrite Q1 in S1. congruence.
  - intros da db p xs J1 J2 L1 L2 E.
    destruct (SS da J1) as [xa [Ea La]]; [lia|].
    destruct (SS db J2) as [xb [Eb Lb]]; [lia|].
    destruct p as [|i p].
    + cbn in E. exists xb. cbn. split; [congruence|].
      assert (xs = xa) by congruence. congruence.
    + rewrite Ea in E. cbn in E.
      destruct (nth_error xa i) as [x|] eqn:N0; [|discriminate].
      destruct (ALL i) as [args' [F [_ A1]]].
      { rewrite <- La. apply nth_error_Some. congruence. }
      destruct (Forall2_in_l _ _ _ _ _ _ F J1) as [da' [K1 [Q1 Q2]]].
      destruct (Forall2_in_l _ _ _ _ _ _ F J2) as [db' [K2 [Q3 Q4]]].
      replace (fst da <=? cur) with false in Q2 by lia.
      replace (fst db <=? cur) with false in Q4 by lia.
      rewrite Ea in Q2. cbn in Q2. rewrite N0 in Q2.
      destruct (A1 da' db' p xs K1 K2) as [ys [Y1 Y2]].
      * cbn in L1. lia.
      * cbn in L2. lia.
      * congruence.
      * exists ys. split; [|exact Y2].
        change (i :: p) with ([i] ++ p). rewrite at_app, Q4. exact Y1.
Qed.

(** ** [map_structures] on views *)

Definition on_views (f : list obj -> M obj) (inc : bool) (vs : list view)
  : M obj :=
  map_structures f (map v_depth vs) inc (map v_obj vs).

Lemma on_views_impl : forall f inc vs,
  vs <> [] ->
  on_views f inc vs =
  map_impl f inc (depth_of vs) 0 (map (fun v => (v_depth v, v_obj v)) vs).
Proof.
  intros f inc vs NE. unfold on_views, map_structures, depth_of.
  rewrite !map_length, Nat.eqb_refl. cbn [negb].
  destruct vs as [|v vs]; [congruence|].
  cbn [map]. f_equal. cbn [combine]. f_equal.
  clear. induction vs as [|w vs IH]; cbn; [reflexivity|]. f_equal. exact IH.
Qed.

Lemma deepest : forall vs, vs <> [] ->
  exists v, In v vs /\ v_depth v = depth_of vs.
Proof.
  unfold depth_of. induction vs as [|v vs IH]; intros NE; [congruence|].
  destruct vs as [|w vs].
  - exists v. split; [left; reflexivity|]. cbn. lia.
  - destruct IH as [u [J E]]; [congruence|].
    change (list_max (map v_depth (v :: w :: vs))) with
      (Nat.max (v_depth v) (list_max (map v_depth (w :: vs)))).
    destruct (Nat.max_spec (v_depth v) (list_max (map v_depth (w :: vs))))
      as [[_ ->]|[_ ->]].
    + exists u. split; [right; exact J|exact E].
    + exists v. split; [left; reflexivity|reflexivity].
Qed.

Lemma depth_of_le : forall vs v, In v vs -> v_depth v <= depth_of vs.
Proof.
  unfold depth_of. intros vs v J.
  assert (F : Forall (fun k => k <= list_max (map v_depth vs))
                (map v_depth vs)) by (apply list_max_le; lia).
  rewrite Forall_forall in F. apply F. apply in_map. exact J.
Qed.

Definition as_args (vs : list view) : list (nat * obj) :=
  map (fun v => (v_depth v, v_obj v)) vs.

Lemma shaped_args_views : forall vs,
  shaped_args 0 (as_args vs) <-> Forall good vs.
Proof.
  intros vs. unfold shaped_args, as_args. rewrite Forall_map. cbn [fst snd].
  split; intros F; (eapply Forall_impl; [|exact F]); intros v; unfold good;
    rewrite Nat.sub_0_r; auto.
Qed.

Lemma aligned_args_views : forall vs,
  aligned_args 0 (as_args vs) <-> aligned vs.
Proof.
  intros vs. unfold aligned_args, aligned, as_args. split.
  - intros A v w p xs J1 J2 L1 L2 E.
    apply (A (v_depth v, v_obj v) (v_depth w, v_obj w) p xs);
      try (apply in_map_iff; eexists; split; [reflexivity|assumption]);
      cbn [fst snd]; rewrite ?Nat.sub_0_r; assumption.
  - intros A da db p xs J1 J2 L1 L2 E.
    apply in_map_iff in J1. destruct J1 as [v [<- J1]].
    apply in_map_iff in J2. destruct J2 as [w [<- J2]].
    cbn [fst snd] in *. rewrite Nat.sub_0_r in *.
    eapply A; [exact J1| | | |]; assumption.
Qed.

Lemma row_of_views : forall vs p xs,
  row_of 0 (as_args vs) p xs <-> row vs p xs.
Proof.
  intros vs p. unfold row_of, row, as_args.
  induction vs as [|v vs IH]; intros xs; cbn [map].
  - split; intros H; inversion H; constructor.
  - split; intros H; inversion H as [|? x ? xs' H1 H2]; subst; constructor;
      cbn [fst snd] in *; rewrite ?Nat.sub_0_r in *; try assumption;
      apply IH; assumption.
Qed.

Lemma views_run : forall vs v,
  Forall good vs -> aligned vs -> In v vs -> v_depth v = depth_of vs ->
  exists rows,
    Forall2 (row vs) (positions (depth_of vs) (v_obj v)) rows /\
    runs (depth_of vs) (v_obj v) rows (fun f inc => on_views f inc vs).
Proof.
  intros vs v G A J E.
  destruct (map_impl_runs (depth_of vs) 0 (as_args vs) (depth_of vs) (v_obj v))
    as [rows [P R]].
  - apply shaped_args_views. exact G.
  - apply aligned_args_views. exact A.
  - apply in_map_iff. exists v. split; [congruence|exact J].
  - unfold as_args. rewrite Forall_map. apply Forall_forall. intros w W.
    cbn. apply depth_of_le. exact W.
  - lia.
  - rewrite Nat.sub_0_r in P, R. exists rows. split.
    + clear R. induction P; constructor; [apply row_of_views; assumption|].
      assumption.
    + intros f inc h. rewrite on_views_impl; [apply R|].
      intros ->. destruct J.
Qed.

Lemma views_ok : forall vs f inc h h' r,
  vs <> [] -> on_views f inc vs h = (h', Ok r) ->
  Forall good vs /\ aligned vs.
Proof.
  intros vs f inc h h' r NE E. rewrite on_views_impl in E by exact NE.
  apply map_impl_ok in E. destruct E as [S0 A].
  split; [apply shaped_args_views|apply aligned_args_views]; assumption.
Qed.

(** ** Functions that depend on their arguments only *)

Lemma none_in : forall xs, existsb is_none xs = true <-> In PNone xs.
Proof.
  intros xs. rewrite existsb_exists. split.
  - intros [x [J E]]. destruct x; try discriminate. exact J.
  - intros J. exists PNone. split; [exact J|reflexivity].
Qed.

Lemma call_pure : forall F g inc xs h,
  (forall xs, F xs h = (h, g xs)) ->
  exists o, call F inc xs h = (h, o) /\
    (forall y, o = Ok y <-> applied g inc xs y).
Proof.
  intros F g inc xs h PF. unfold call, applied.
  destruct inc; cbn [negb andb].
  - exists (g xs). split; [apply PF|]. intros y. tauto.
  - destruct (existsb is_none xs) eqn:N0.
    + exists (Ok PNone). split; [reflexivity|]. intros y.
      apply none_in in N0. split; [intros E; left; split; congruence|].
      intros [[_ ->]|[X _]]; [reflexivity|contradiction].
    + exists (g xs). split; [apply PF|]. intros y.
      assert (NN : ~ In PNone xs) by (rewrite <- none_in; congruence).
      split; [intros E; right; split; assumption|].
      intros [[X _]|[_ X]]; [contradiction|exact X].
Qed.

Lemma mapM_pure : forall F g inc rows h,
  (forall xs, F xs h = (h, g xs)) ->
  exists o, mapM (call F inc) rows h = (h, o) /\
    (forall ys, o = Ok ys <-> Forall2 (applied g inc) rows ys).
Proof.
  intros F g inc rows h PF. induction rows as [|xs rows IH]; cbn [mapM].
  - exists (Ok []). split; [reflexivity|]. intros ys. split.
    + intros E. assert (ys = []) by congruence. subst. constructor.
    + intros H. inversion H. reflexivity.
  - destruct IH as [o [E O]].
    destruct (call_pure F g inc xs h PF) as [o1 [E1 O1]].
    unfold bind. rewrite E1.
    destruct o1 as [y|e].
    + rewrite E. destruct o as [zs|e].
      * exists (Ok (y :: zs)). split; [reflexivity|]. intros ys. split.
        -- intros X. assert (ys = y :: zs) by congruence. subst.
           constructor; [apply O1; reflexivity|apply O; reflexivity].
        -- intros H. inversion H as [|? y' ? ys' H1 H2]; subst.
           apply O1 in H1. apply O in H2. congruence.
      * exists (Raise e). split; [reflexivity|]. intros ys. split; [discriminate|].
        intros H. inversion H as [|? y' ? ys' H1 H2]; subst.
        apply O in H2. discriminate.
    + exists (Raise e). split; [reflexivity|]. intros ys. split; [discriminate|].
      intros H. inversion H as [|? y' ? ys' H1 H2]; subst.
      apply O1 in H1. discriminate.
Qed.

Lemma row_unique : forall vs p xs ys, row vs p xs -> row vs p ys -> xs = ys.
Proof.
  unfold row. intros vs p. induction vs as [|v vs IH]; intros xs ys H1 H2;
    inversion H1; inversion H2; subst; [reflexivity|].
  f_equal; [congruence|]. apply IH; assumption.
Qed.

Lemma row_in : forall vs p xs v,
  row vs p xs -> In v vs ->
  exists x, at_ (firstn (v_depth v) p) (v_obj v) = Some x.
Proof.
  unfold row. intros vs p xs v H J.
  destruct (Forall2_in_l _ _ _ _ _ _ H J) as [x [_ E]]. exists x. exact E.
Qed.

Lemma Forall2_combine_in : forall A B (R : A -> B -> Prop) l l' a b,
  Forall2 R l l' -> In (a, b) (combine l l') -> R a b.
Proof.
  induction 1 as [|x y l l' H F IH]; cbn; [tauto|].
  intros [E|J]; [|apply IH; exact J]. congruence.
Qed.

Lemma in_combine_left : forall A B (l : list A) (l' : list B) a,
  length l = length l' -> In a l -> exists b, In (a, b) (combine l l').
Proof.
  induction l as [|x l IH]; intros [|y l'] a L J; cbn in *; try tauto;
    try discriminate.
  destruct J as [->|J]; [exists y; left; reflexivity|].
  destruct (IH l' a) as [b B0]; [lia|exact J|]. exists b. right. exact B0.
Qed.

Lemma combine_trans : forall A B C (l : list A) (m : list B) (n : list C) a c
  (R : A -> B -> Prop) (Q : B -> C -> Prop),
  Forall2 R l m -> Forall2 Q m n -> In (a, c) (combine l n) ->
  exists b, R a b /\ Q b c.
Proof.
  intros A B C l m n a c R Q H1. revert n.
  induction H1 as [|x y l m H F IH]; intros n H2 J; inversion H2; subst;
    cbn in J; [tauto|].
  destruct J as [E|J].
  - inversion E; subst. eexists. split; eassumption.
  - eapply IH; eassumption.
Qed.

(** Below its own depth, the deepest view decides which positions occur. *)
Lemma aligned_at : forall vs v w p,
  Forall good vs -> aligned vs -> In v vs -> In w vs ->
  length p <= v_depth v -> (exists x, at_ p (v_obj v) = Some x) ->
  exists y, at_ (firstn (v_depth w) p) (v_obj w) = Some y.
Proof.
  intros vs v w p G A J1 J2. induction p as [|i p IH] using rev_ind;
    intros L [x X].
  - exists (v_obj w). rewrite firstn_nil. reflexivity.
  - rewrite app_length in L. cbn in L.
    rewrite at_app in X. destruct (at_ p (v_obj v)) as [o|] eqn:O;
      [|discriminate].
    apply at_one in X. destruct X as [xs [-> N0]].
    destruct (le_lt_dec (v_depth w) (length p)) as [LE|LT].
    + rewrite firstn_app. replace (v_depth w - length p) with 0 by lia.
      cbn [firstn]. rewrite app_nil_r. apply IH; [lia|]. eexists; reflexivity.
    + destruct (A v w p xs J1 J2) as [ys [Y1 Y2]]; try assumption; [lia|].
      rewrite firstn_all2 by (rewrite app_length; cbn; lia).
      rewrite at_app, Y1. cbn.
      destruct (nth_error ys i) as [y|] eqn:N1; [exists y; reflexivity|].
      apply nth_error_None in N1.
      assert (i < length xs) by (apply nth_error_Some; congruence). lia.
Qed.

Lemma occurs_deepest : forall vs v p,
  Forall good vs -> aligned vs -> In v vs -> v_depth v = depth_of vs ->
  length p <= depth_of vs ->
  ((exists xs, row vs p xs) <-> exists x, at_ p (v_obj v) = Some x).
Proof.
  intros vs v p G A J D L. split.
  - intros [xs R]. destruct (row_in _ _ _ _ R J) as [x X].
    rewrite firstn_all2 in X by lia. exists x. exact X.
  - intros X. assert (K : forall ws, incl ws vs -> exists xs, row ws p xs).
    { induction ws as [|w ws IH]; intros I0.
      - exists []. constructor.
      - destruct IH as [xs R]; [intros u U; apply I0; right; exact U|].
        destruct (aligned_at vs v w p G A J) as [y Y].
        + apply I0. left. reflexivity.
        + lia.
        + exact X.
        + exists (y :: xs). constructor; assumption. }
    apply K. apply incl_refl.
Qed.

Lemma views_pure_ok : forall vs F g inc h h' r,
  vs <> [] -> (forall xs, F xs h = (h, g xs)) ->
  on_views F inc vs h = (h', Ok r) ->
  h' = h /\ Forall good vs /\ aligned vs /\ shaped (depth_of vs) r /\
  (forall p, length p <= depth_of vs ->
     ((exists o, at_ p r = Some o) <-> exists xs, row vs p xs)) /\
  (forall p y, length p = depth_of vs ->
     (at_ p r = Some y <-> exists xs, row vs p xs /\ applied g inc xs y)).
Proof.
  intros vs F g inc h h' r NE PF E.
  destruct (views_ok _ _ _ _ _ _ NE E) as [G A].
  destruct (deepest vs NE) as [v [J D]].
  destruct (views_run vs v G A J D) as [rows [P R]].
  specialize (R F inc h).
  destruct (mapM_pure F g inc rows h PF) as [o [EM O]].
  rewrite EM in R. destruct o as [ys|e]; [|congruence].
  destruct R as [r' [R1 [R2 [R3 R4]]]].
  assert (h' = h /\ r' = r) by (split; congruence).
  destruct H as [-> ->].
  split; [reflexivity|]. split; [exact G|]. split; [exact A|].
  split; [exact R2|].
  split.
  { intros p L. rewrite (occurs_deepest vs v p G A J D L).
    assert (Gv : shaped (length p) (v_obj v)).
    { rewrite Forall_forall in G. specialize (G v J). unfold good in G.
      eapply shaped_below; [|exact G]. lia. }
    pose proof (positions_in (length p) (v_obj v) p Gv) as Q1.
    pose proof (positions_in (length p) r p (shaped_below _ _ _ L R2)) as Q2.
    rewrite (R3 _ L) in Q2. tauto. }
  assert (AP : Forall2 (applied g inc) rows ys) by (apply O; reflexivity).
  assert (KEY : forall p y, length p = depth_of vs -> at_ p r = Some y ->
            exists xs, row vs p xs /\ applied g inc xs y).
  { intros p y L X. pose proof (at_full _ _ _ _ R2 L X) as K.
    rewrite (R3 _ (le_n _)), R4 in K. eapply combine_trans; eassumption. }
  intros p y L. split; [apply KEY; exact L|].
  intros [xs [RW Y]].
  destruct (row_in _ _ _ _ RW J) as [x X]. rewrite D, <- L, firstn_all in X.
  assert (IP : In p (positions (depth_of vs) (v_obj v))).
  { apply positions_in.
    - rewrite Forall_forall in G. specialize (G v J). unfold good in G.
      rewrite D in G. exact G.
    - split; [exact L|]. exists x. exact X. }
  rewrite <- (R3 _ (le_n _)) in IP. apply positions_in in IP; [|exact R2].
  destruct IP as [_ [z Z0]]. rewrite Z0. f_equal.
  destruct (KEY p z L Z0) as [xs' [RW' Y']].
  assert (xs' = xs) by (eapply row_unique; eassumption). subst xs'.
  unfold applied in Y, Y'. destruct inc; [congruence|].
  destruct Y as [[Y1 Y2]|[Y1 Y2]], Y' as [[Y3 Y4]|[Y3 Y4]];
    try contradiction; congruence.
Qed.

Lemma views_pure_total : forall vs F g inc h,
  vs <> [] -> (forall xs, F xs h = (h, g xs)) ->
  Forall good vs -> aligned vs ->
  (forall p xs, length p = depth_of vs -> row vs p xs ->
     exists y, applied g inc xs y) ->
  exists r, on_views F inc vs h = (h, Ok r).
Proof.
  intros vs F g inc h NE PF G A T.
  destruct (deepest vs NE) as [v [J D]].
  destruct (views_run vs v G A J D) as [rows [P R]].
  specialize (R F inc h).
  destruct (mapM_pure F g inc rows h PF) as [o [EM O]].
  assert (X : exists ys, Forall2 (applied g inc) rows ys).
  { assert (LP : Forall (fun p => length p = depth_of vs)
                   (positions (depth_of vs) (v_obj v))).
    { apply Forall_forall. intros p K. apply positions_in in K; [tauto|].
      rewrite Forall_forall in G. specialize (G v J). unfold good in G.
      rewrite D in G. exact G. }
    clear R EM O. induction P as [|p xs ps rows H P IH].
    - exists []. constructor.
    - inversion LP; subst. destruct IH as [ys Y]; [assumption|].
      destruct (T p xs) as [y Y0]; [assumption|assumption|].
      exists (y :: ys). constructor; assumption. }
  destruct X as [ys X]. apply O in X. subst o. rewrite EM in R.
  destruct R as [r [R1 _]]. exists r. exact R1.
Qed.

(** Structures with the same positions and the same items are equal. *)
Lemma shape_ext : forall d o o',
  shaped d o -> shaped d o' ->
  (forall p, length p <= d ->
     ((exists x, at_ p o = Some x) <-> (exists x, at_ p o' = Some x))) ->
  (forall p x y, length p = d -> at_ p o = Some x -> at_ p o' = Some y ->
     x = y) ->
  o = o'.
Proof.
  induction d as [|d IH]; intros o o' S0 S1 P E.
  - apply (E [] o o'); reflexivity.
  - destruct S0 as [xs [-> F]]. destruct S1 as [ys [-> G]]. f_equal.
    assert (ST : forall i, (exists x, nth_error xs i = Some x) <->
                           (exists y, nth_error ys i = Some y)).
    { intros i. specialize (P [i]). cbn in P.
      destruct (nth_error xs i), (nth_error ys i);
        (split; intros [z Z0]; [|]);
        try (eexists; reflexivity);
        destruct P as [P1 P2]; try lia;
        first [ destruct P1 as [u U]; [eexists; reflexivity|discriminate]
              | destruct P2 as [u U]; [eexists; reflexivity|discriminate]
              | discriminate ]. }
    assert (EL : forall i x y, nth_error xs i = Some x ->
                   nth_error ys i = Some y -> x = y).
    { intros i x y X Y. apply IH.
      - rewrite Forall_forall in F. apply F. eapply nth_error_In; exact X.
      - rewrite Forall_forall in G. apply G. eapply nth_error_In; exact Y.
      - intros p L. specialize (P (i :: p)). cbn in P. rewrite X, Y in P.
        apply P. lia.
      - intros p u w L U W. apply (E (i :: p)); cbn; [lia| |].
        + rewrite X. exact U.
        + rewrite Y. exact W. }
    clear - ST EL. revert ys ST EL.
    induction xs as [|x xs IH]; intros [|y ys] ST EL.
    + reflexivity.
    + destruct (ST 0) as [_ [z Z0]]; [exists y; reflexivity|discriminate].
    + destruct (ST 0) as [[z Z0] _]; [exists x; reflexivity|discriminate].
    + f_equal; [apply (EL 0); reflexivity|].
      apply IH; [intros i; exact (ST (S i))|].
      intros i; exact (EL (S i)).
Qed.
