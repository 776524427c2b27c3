(** Unique keeps the first occurrences of the values of each row. *)
From Coq Require Import List Bool Arith Lia Permutation Sorted.
From Verif Require Import SliceOpsModel SliceGatherProofs SubsliceOpsProofs GroupModel GroupSpec GroupAssignProofs GroupSortProofs.
Import ListNotations.
Local Open Scope nat_scope.
Local Open Scope list_scope.

Lemma filter_split {A} (f : A -> bool) : forall l, Permutation (filter (fun x => negb (f x)) l ++ filter f l) l.
Proof.
  induction l as [| x l IH]; cbn; [reflexivity |]. destruct (f x); cbn.
  - rewrite <- Permutation_middle, IH. reflexivity.
  - rewrite IH. reflexivity.
Qed.
Lemma fop_filter {A} (R : A -> A -> Prop) f : forall l, ForallOrdPairs R l -> ForallOrdPairs R (filter f l).
Proof.
  induction 1 as [| x l F Q IH]; cbn; [constructor |]. destruct (f x); [| exact IH]. constructor; [| exact IH].
  rewrite Forall_forall in *. intros y I. apply filter_In in I. apply F. tauto.
Qed.

Section Unique.
Variable T : Type.
Variables eqb ltb : T -> T -> bool.
Variable nan_of : T -> bool.
Hypothesis PE : partial_equivalence T eqb.
Hypothesis NaN : forall a b, nan_of a = true -> eqb a b = false.

Definition samev (w v : T) : bool := eqb w v || (nan_of w && nan_of v).
Lemma samev_true w v : samev w v = true <-> same_value T eqb (fun v => nan_of v = true) w v.
Proof. unfold samev, same_value. rewrite orb_true_iff, andb_true_iff. tauto. Qed.
Lemma NaN_r a b : nan_of b = true -> eqb a b = false.
Proof. intros H. apply not_true_is_false. intros E. apply (proj1 PE) in E. rewrite (NaN _ _ H) in E. discriminate. Qed.

(** first occurrences, with their positions, of what is not in [seen] *)
Fixpoint first_pos (seen : list T) (row : list (option T)) (pos : nat) : list (nat * T) :=
  match row with
  | [] => []
  | None :: row => first_pos seen row (S pos)
  | Some v :: row =>
      if existsb (fun w => samev w v) seen then first_pos (v :: seen) row (S pos)
      else (pos, v) :: first_pos (v :: seen) row (S pos)
  end.

Lemma existsb_false {A} (f : A -> bool) l : existsb f l = false <-> forall x, In x l -> f x = false.
Proof.
  split.
  - intros E x I. apply not_true_is_false. intros F. assert (existsb f l = true) by (apply existsb_exists; eauto). congruence.
  - intros H. apply not_true_is_false. intros E. apply existsb_exists in E. destruct E as [x [I F]]. rewrite (H x I) in F. discriminate.
Qed.

Lemma first_pos_in : forall row seen pos i v, In (i, v) (first_pos seen row pos) <->
  exists k, i = pos + k /\ nth_error row k = Some (Some v) /\ (forall w, In w seen -> samev w v = false) /\
            (forall j w, j < k -> nth_error row j = Some (Some w) -> samev w v = false).
Proof.
  induction row as [| x row IH]; intros seen pos i v.
  - cbn. split; [tauto | intros [k [_ [E _]]]; destruct k; discriminate].
  - destruct x as [y |]; cbn [first_pos].
    + assert (Tl : In (i, v) (first_pos (y :: seen) row (S pos)) <->
        exists k, i = pos + S k /\ nth_error (Some y :: row) (S k) = Some (Some v) /\ (forall w, In w seen -> samev w v = false) /\
            (forall j w, j < S k -> nth_error (Some y :: row) j = Some (Some w) -> samev w v = false)).
      { rewrite IH. split; intros [k [E [N [S1 J]]]]; exists k; (split; [lia |]); (split; [exact N |]).
        - split; [intros w I; apply S1; right; exact I |]. intros [| j] w L X; cbn in X.
          + assert (y = w) by congruence. subst. apply S1. left. reflexivity.
          + apply (J j w); [lia | exact X].
        - split; [intros w [<- | I]; [apply (J 0 y); [lia | reflexivity] | exact (S1 w I)] |].
          intros j w L X. apply (J (S j) w); [lia | exact X]. }
      destruct (existsb (fun w => samev w y) seen) eqn:Q.
      * rewrite Tl. split.
        -- intros [k H]. exists (S k). exact H.
        -- intros [[| k] [E [N [S1 J]]]].
           ++ cbn in N. assert (y = v) by congruence. subst y. apply existsb_exists in Q. destruct Q as [w [I F]].
              rewrite (S1 w I) in F. discriminate.
           ++ exists k. auto.
      * cbn [In]. rewrite Tl. split.
        -- intros [E | [k H]].
           ++ exists 0. assert (pos = i) by congruence. assert (y = v) by congruence. subst.
              split; [lia |]. split; [reflexivity |]. split; [exact (proj1 (existsb_false _ _) Q) | intros; lia].
           ++ exists (S k). exact H.
        -- intros [[| k] [E [N [S1 J]]]].
           ++ left. cbn in N. assert (y = v) by congruence. subst. f_equal. lia.
           ++ right. exists k. auto.
    + rewrite IH. split.
      * intros [k [E [N [S1 J]]]]. exists (S k). split; [lia |]. split; [exact N |]. split; [exact S1 |].
        intros [| j] w L X; [discriminate |]. apply (J j w); [lia | exact X].
      * intros [[| k] [E [N [S1 J]]]]; [discriminate |]. exists k. split; [lia |]. split; [exact N |]. split; [exact S1 |].
        intros j w L X. apply (J (S j) w); [lia | exact X].
Qed.
Lemma first_pos_sorted : forall row seen pos, StronglySorted lt (map fst (first_pos seen row pos)).
Proof.
  induction row as [| x row IH]; intros seen pos; cbn; [constructor |]. destruct x as [y |]; [| apply IH].
  destruct (existsb (fun w => samev w y) seen); [apply IH |]. cbn. constructor; [apply IH |].
  apply Forall_forall. intros i I. apply in_map_iff in I. destruct I as [[i' v] [<- I]].
  apply first_pos_in in I. destruct I as [k [-> _]]. cbn. lia.
Qed.
Lemma first_pos_distinct : forall row seen pos, ForallOrdPairs (fun a b => samev a b = false) (map snd (first_pos seen row pos)).
Proof.
  induction row as [| x row IH]; intros seen pos; cbn; [constructor |]. destruct x as [y |]; [| apply IH].
  destruct (existsb (fun w => samev w y) seen); [apply IH |]. cbn. constructor; [| apply IH].
  apply Forall_forall. intros v I. apply in_map_iff in I. destruct I as [[i v'] [<- I]].
  apply first_pos_in in I. destruct I as [k [_ [_ [S1 _]]]]. cbn. apply S1. left. reflexivity.
Qed.
Lemma first_pos_occurrences row : first_occurrences T eqb (fun v => nan_of v = true) row (map snd (first_pos [] row 0)).
Proof.
  exists (map fst (first_pos [] row 0)). split; [apply first_pos_sorted |]. split.
  - intros i. rewrite in_map_iff. split.
    + intros [[i' v] [<- I]]. apply first_pos_in in I. destruct I as [k [-> [N [_ J]]]]. cbn. exists v. split; [exact N |].
      intros j w L X. rewrite <- samev_true. rewrite (J j w L X). discriminate.
    + intros [v [N J]]. exists (i, v). split; [reflexivity |]. apply first_pos_in. exists i. split; [reflexivity |].
      split; [exact N |]. split; [intros w [] |]. intros j w L X. apply not_true_is_false. rewrite samev_true. exact (J j w L X).
  - assert (F : forall l, (forall i v, In (i, v) l -> nth_error row i = Some (Some v)) ->
                Forall2 (fun i v => nth_error row i = Some (Some v)) (map fst l) (map snd l)).
    { induction l as [| [i v] l IH]; intros H; cbn; constructor; [apply H; left; reflexivity | apply IH; intros; apply H; right; auto]. }
    apply F. intros i v I. apply first_pos_in in I. destruct I as [k [-> [N _]]]. exact N.
Qed.

(** ** The map *)
Notation find_value := (GroupModel.find_value T eqb).
Notation touch := (GroupModel.touch T eqb).
Lemma eqb_both a b v : eqb a b = true -> eqb a v = eqb b v.
Proof.
  intros E. destruct (eqb a v) eqn:X; destruct (eqb b v) eqn:Y; auto.
  - rewrite <- Y. symmetry. exact (proj2 PE _ _ _ (proj1 PE _ _ E) X).
  - rewrite <- X. exact (proj2 PE _ _ _ E Y).
Qed.
Lemma find_touch split v v' : forall m s, find_value v m = Some s ->
  find_value v' (touch v split m) = if eqb v v' then Some split else find_value v' m.
Proof.
  induction m as [| [w s0] m IH]; intros s E; cbn in E; [discriminate |]. cbn [GroupModel.touch].
  destruct (eqb w v) eqn:Q.
  - cbn. rewrite (eqb_both _ _ v' Q). destruct (eqb v v'); reflexivity.
  - cbn. rewrite (IH _ E). destruct (eqb w v') eqn:X; [| reflexivity].
    destruct (eqb v v') eqn:Y; [| reflexivity]. rewrite (proj2 PE _ _ _ X (proj1 PE _ _ Y)) in Q. discriminate.
Qed.
Definition at_most (split : nat) (m : list (T * nat)) : Prop := forall w s, In (w, s) m -> s <= split.
Lemma touch_at_most v split : forall m, at_most split m -> at_most split (touch v split m).
Proof.
  induction m as [| [w s0] m IH]; intros A; cbn; [exact A |].
  assert (A' : at_most split m) by (intros x s I; apply (A x); right; exact I).
  destruct (eqb w v).
  - intros x s [E | I]; [assert (split = s) by congruence; lia | exact (A' x s I)].
  - intros x s [E | I]; [apply (A x); left; exact E | exact (IH A' x s I)].
Qed.
Lemma find_in v : forall m s, find_value v m = Some s -> exists w, In (w, s) m.
Proof.
  induction m as [| [w s0] m IH]; intros s E; cbn in E; [discriminate |]. destruct (eqb w v).
  - exists w. left. congruence.
  - destruct (IH _ E) as [w' I]. exists w'. right. exact I.
Qed.

Definition seen_ok (split : nat) (seen : list T) (m : list (T * nat)) (nan : option T) : Prop :=
  (forall v, nan_of v = false -> (find_value v m = Some split <-> existsb (fun w => eqb w v) seen = true)) /\
  (nan = None <-> existsb nan_of seen = false) /\ at_most split m.

Lemma samev_seen v seen : existsb (fun w => samev w v) seen =
  if nan_of v then existsb nan_of seen else existsb (fun w => eqb w v) seen.
Proof.
  induction seen as [| w seen IH]; cbn; [destruct (nan_of v); reflexivity |]. rewrite IH. unfold samev.
  destruct (nan_of v) eqn:N.
  - rewrite (NaN_r w v N), andb_true_r. reflexivity.
  - rewrite andb_false_r, orb_false_r. reflexivity.
Qed.

Definition opt_list (o : option T) : list T := match o with Some v => [v] | None => [] end.
Lemma unique_row_ok sort split : forall row seen m nan pos u m' nan', seen_ok split seen m nan ->
  unique_row T eqb nan_of sort split row m nan = (u, m', nan') ->
  let all := map snd (first_pos seen row pos) in
  at_most split m' /\
  (sort = false -> u = all) /\
  (sort = true -> u = filter (fun v => negb (nan_of v)) all /\
                  match nan with Some _ => filter nan_of all = [] | None => filter nan_of all = opt_list nan' end).
Proof.
  induction row as [| x row IH]; intros seen m nan pos u m' nan' Sk E; cbn [GroupModel.unique_row] in E.
  - assert (u = []) by congruence. assert (m' = m) by congruence. assert (nan' = nan) by congruence. subst. cbn.
    split; [apply Sk |]. split; [reflexivity |]. intros _. split; [reflexivity |]. destruct nan; reflexivity.
  - destruct x as [v |]; [| exact (IH seen m nan (S pos) u m' nan' Sk E)].
    cbn [first_pos]. rewrite samev_seen. destruct Sk as [S1 [S2 S3]].
    destruct (nan_of v) eqn:Nv.
    + assert (S1' : forall v0, nan_of v0 = false -> (find_value v0 m = Some split <-> existsb (fun w => eqb w v0) (v :: seen) = true)).
      { intros v0 N0. cbn. rewrite (NaN v v0 Nv). exact (S1 v0 N0). }
      assert (S2' : forall o : T, Some o = None <-> existsb nan_of (v :: seen) = false).
      { intros o. cbn. rewrite Nv. cbn. split; discriminate. }
      destruct nan as [o |].
      * assert (Es : existsb nan_of seen = true).
        { destruct (existsb nan_of seen); [reflexivity |]. destruct S2 as [_ S2]. discriminate (S2 eq_refl). }
        rewrite Es. apply (IH (v :: seen) m (Some o) (S pos) u m' nan'); [| exact E].
        split; [exact S1' |]. split; [apply S2' | exact S3].
      * assert (Es : existsb nan_of seen = false) by (apply S2; reflexivity). rewrite Es.
        destruct (unique_row T eqb nan_of sort split row m (Some v)) as [[u1 m1] nan1] eqn:R.
        destruct (IH (v :: seen) m (Some v) (S pos) u1 m1 nan1) as [A [B C]]; [| exact R |].
        { split; [exact S1' |]. split; [apply S2' | exact S3]. }
        assert (m' = m1) by congruence. assert (nan' = nan1) by congruence. subst m' nan'.
        assert (Nn : forall row m u1 m1 nan1, unique_row T eqb nan_of sort split row m (Some v) = (u1, m1, nan1) -> nan1 = Some v).
        { clear. induction row as [| y row IHr]; intros m u1 m1 nan1 R; cbn in R; [congruence |].
          destruct y as [y |]; [| exact (IHr _ _ _ _ R)]. destruct (nan_of y); [exact (IHr _ _ _ _ R) |].
          destruct (GroupModel.find_value T eqb y m) as [s |].
          - destruct (s =? split); [exact (IHr _ _ _ _ R) |].
            destruct (unique_row T eqb nan_of sort split row (GroupModel.touch T eqb y split m) (Some v)) as [[u2 m2] n2] eqn:R2.
            specialize (IHr _ _ _ _ R2). congruence.
          - destruct (unique_row T eqb nan_of sort split row ((y, split) :: m) (Some v)) as [[u2 m2] n2] eqn:R2.
            specialize (IHr _ _ _ _ R2). congruence. }
        pose proof (Nn _ _ _ _ _ R) as Ev. cbn [map snd]. split; [exact A |]. split.
        -- intros ->. rewrite <- (B eq_refl). congruence.
        -- intros ->. destruct (C eq_refl) as [C1 C2]. cbn [filter]. rewrite Nv. cbn [negb]. split.
           ++ rewrite <- C1. congruence.
           ++ rewrite C2, Ev. reflexivity.
    + assert (S2' : nan = None <-> existsb nan_of (v :: seen) = false) by (cbn; rewrite Nv; exact S2).
      assert (Push : forall m1 u1 m2 n2, (forall v', find_value v' m1 = if eqb v v' then Some split else find_value v' m) ->
                at_most split m1 -> unique_row T eqb nan_of sort split row m1 nan = (u1, m2, n2) ->
                existsb (fun w => eqb w v) seen = false -> u = v :: u1 -> m' = m2 -> nan' = n2 ->
                let all := map snd (if existsb (fun w => eqb w v) seen then first_pos (v :: seen) row (S pos)
                                    else (pos, v) :: first_pos (v :: seen) row (S pos)) in
                at_most split m' /\ (sort = false -> u = all) /\
                (sort = true -> u = filter (fun v => negb (nan_of v)) all /\
                   match nan with Some _ => filter nan_of all = [] | None => filter nan_of all = opt_list nan' end)).
      { intros m1 u1 m2 n2 F A1 R Ns -> -> ->. rewrite Ns.
        destruct (IH (v :: seen) m1 nan (S pos) u1 m2 n2) as [A [B C]]; [| exact R |].
        { split; [| split; [exact S2' | exact A1]]. intros v' N'. rewrite F. cbn. destruct (eqb v v'); [cbn; tauto |].
          cbn. exact (S1 v' N'). }
        cbn [map snd filter]. rewrite Nv. cbn [negb]. split; [exact A |]. split.
        - intros Es. rewrite (B Es). reflexivity.
        - intros Es. destruct (C Es) as [C1 C2]. split; [rewrite C1; reflexivity | exact C2]. }
      pose proof (S1 v Nv) as Sv.
      destruct (find_value v m) as [s |] eqn:Fv.
      * destruct (Nat.eqb_spec s split) as [-> | D].
        -- assert (Es : existsb (fun w => eqb w v) seen = true) by (apply Sv; reflexivity). rewrite Es.
           apply (IH (v :: seen) m nan (S pos) u m' nan'); [| exact E].
           split; [| split; [exact S2' | exact S3]]. intros v' N'. cbn.
           destruct (eqb v v') eqn:Q; [| exact (S1 v' N')]. cbn.
           apply existsb_exists in Es. destruct Es as [w [I W]].
           split; [reflexivity |]. intros _. apply (S1 v' N'). apply existsb_exists. exists w. split; [exact I |].
           exact (proj2 PE _ _ _ W Q).
        -- destruct (unique_row T eqb nan_of sort split row (touch v split m) nan) as [[u1 m1] n1] eqn:R.
           apply (Push _ u1 m1 n1 (fun v' => find_touch split v v' m s Fv) (touch_at_most v split m S3) R); try congruence.
           apply not_true_is_false. intros X. apply Sv in X. congruence.
      * destruct (unique_row T eqb nan_of sort split row ((v, split) :: m) nan) as [[u1 m1] n1] eqn:R.
        apply (Push ((v, split) :: m) u1 m1 n1); try congruence.
        -- intros v'. reflexivity.
        -- intros w s [X | I]; [assert (split = s) by congruence; lia | exact (S3 w s I)].
        -- apply not_true_is_false. intros X. apply Sv in X. discriminate.
Qed.

Lemma sorted_snoc {A} (R : A -> A -> Prop) l : forall x, StronglySorted R l -> Forall (fun y => R y x) l -> StronglySorted R (l ++ [x]).
Proof.
  intros x Q F. induction Q as [| y l Q IH Fy]; cbn; [repeat constructor |].
  inversion F as [| ? ? F1 F2]; subst. constructor; [exact (IH F2) |]. apply Forall_app. split; [exact Fy | constructor; auto].
Qed.

Lemma rows_unique sort : (sort = true -> total_order_on T eqb ltb (fun v => nan_of v = false)) ->
  forall rows split m, (forall w s, In (w, s) m -> s < split) ->
  Forall2 (row_unique T eqb ltb (fun v => nan_of v = true) sort) rows (unique_rows T eqb ltb nan_of sort split rows m).
Proof.
  intros TO. induction rows as [| row rows IH]; intros split m A; cbn [unique_rows]; [constructor |].
  destruct (unique_row T eqb nan_of sort split row m None) as [[u m'] nan'] eqn:R.
  destruct (unique_row_ok sort split row [] m None 0 u m' nan') as [A' [B C]]; [| exact R |].
  { split; [| split].
    - intros v _. cbn. split; [| discriminate]. intros E. apply find_in in E. destruct E as [w I]. apply A in I. lia.
    - cbn. tauto.
    - intros w s I. apply A in I. lia. }
  constructor.
  - unfold row_unique. destruct sort; [| rewrite (B eq_refl); apply first_pos_occurrences].
    destruct (C eq_refl) as [C1 C2]. specialize (TO eq_refl).
    set (all := map snd (first_pos [] row 0)) in *.
    pose proof (first_pos_distinct row [] 0) as Dist. fold all in Dist.
    assert (Pu : Permutation (sort_list T ltb u ++ opt_list nan') all).
    { rewrite (sort_perm _ ltb u), C1, <- C2. apply filter_split. }
    change (match nan' with Some v => [v] | None => [] end) with (opt_list nan').
    split; [| exists all; split; [apply first_pos_occurrences | exact Pu]].
    assert (Nu : Forall (fun v => nan_of v = false) u).
    { rewrite C1. apply Forall_forall. intros v I. apply filter_In in I. destruct (nan_of v); [destruct I; discriminate | reflexivity]. }
    assert (Su : StronglySorted (fun a b => ltb a b = true) (sort_list T ltb u)).
    { apply (sort_ss T ltb (fun v => nan_of v = false)); [apply TO | exact Nu |].
      assert (Du : ForallOrdPairs (fun a b => samev a b = false) u) by (rewrite C1; apply fop_filter; exact Dist).
      clear -Du Nu TO. induction Du as [| x l F Q IH]; constructor.
      - inversion Nu as [| ? ? N1 N2]; subst. rewrite Forall_forall in *. intros y I. specialize (F y I). unfold samev in F.
        apply orb_false_iff in F. destruct TO as [_ [_ [_ Tt]]]. destruct (Tt x y N1 (N2 y I)) as [X | X]; [destruct F; congruence | exact X].
      - inversion Nu; subst. apply IH. assumption. }
    assert (Nu' : Forall (fun v => nan_of v = false) (sort_list T ltb u)).
    { apply (Permutation_Forall (Permutation_sym (sort_perm T ltb u))). exact Nu. }
    unfold ascending.
    assert (Su' : StronglySorted (fun a b => ltb a b = true /\ ~ nan_of a = true /\ ~ nan_of b = true \/ ~ nan_of a = true /\ nan_of b = true) (sort_list T ltb u)).
    { clear -Su Nu'. induction Su as [| x l Q IH F]; constructor; inversion Nu' as [| ? ? N1 N2]; subst; [exact (IH N2) |].
      rewrite Forall_forall in *. intros y I. left. rewrite N1, (N2 y I). repeat split; try discriminate. exact (F y I). }
    destruct nan' as [o |]; cbn [opt_list]; [| rewrite app_nil_r; exact Su'].
    apply sorted_snoc; [exact Su' |]. rewrite Forall_forall in *. intros y I. right. rewrite (Nu' y I). split; [discriminate |].
    assert (Io : In o (filter nan_of all)) by (rewrite C2; left; reflexivity). apply filter_In in Io. tauto.
  - apply IH. intros w s I. apply A' in I. lia.
Qed.
End Unique.
