(** Bags as a user sees them: each operation does what BagSpec.v says. *)
From Coq Require Import String NArith ZArith List Bool Arith Lia Permutation.
From Verif Require Import ObjectIdModel ObjectIdProofs SchemaModel ItemModel DictModel DictSpec DictProofs
  SourceModel SourceSpec SourceProofs BagModel CollProofs BagProofs LayerProofs ContainerProofs
  MergeModel MergeSourceProofs MergeFold MergeBigProofs MergeLayerProofs BagSpec MergeImplProofs UpdateProofs ReadProofs BagKeysProofs.
Import ListNotations.
Local Open Scope nat_scope.
Notation chain := BagModel.chain.

(** ** Lists of bags *)
Lemma map_put_bag {A} (f : bag -> A) bs b x : map f (put_bag bs b x) =
  firstn b (map f bs) ++ match skipn b (map f bs) with [] => [] | _ :: r => f x :: r end.
Proof.
  unfold put_bag. rewrite map_app, firstn_map, skipn_map. f_equal. now destruct (skipn b bs).
Qed.
Lemma put_bag_same bs b x : nth_error bs b = Some x -> put_bag bs b x = bs.
Proof.
  unfold put_bag. revert b. induction bs as [|y bs IH]; intros [|b] E; cbn in *; try easy.
  - now injection E as ->.
  - f_equal. now apply IH.
Qed.
Lemma nth_snoc {A} (l : list A) x b y : nth_error (l ++ [x]) b = Some y -> (b < length l /\ nth_error l b = Some y) \/ (b = length l /\ y = x).
Proof.
  intros E. destruct (Nat.lt_ge_cases b (length l)) as [L|G].
  - rewrite nth_error_app1 in E by auto. auto.
  - rewrite nth_error_app2 in E by auto. destruct (b - length l) as [|n] eqn:D; [|destruct n; easy]. right. split; [lia|]. now injection E as <-.
Qed.

Section State.
Variable asize : ObjectId -> N.
Hypothesis asize_ok : forall a, (asize a <= capacity a)%N.
Notation valid := (valid asize).
Notation layer_ok := (layer_ok asize).
Notation heap_ok := (heap_ok asize).
Notation same_content := (same_content asize).
Notation same_bag := (same_bag asize).
Notation same_bags := (same_bags asize).
Notation merged := (merged asize).
Notation conflict := (conflict asize).
Notation same_refl := (same_refl asize).

Lemma bag_refl x : same_bag x x.
Proof. split; [apply same_refl|auto]. Qed.
Lemma bags_refl s : same_bags s s.
Proof. induction s; constructor; auto using bag_refl. Qed.
Lemma bag_trans x y z : same_bag x y -> same_bag y z -> same_bag x z.
Proof. intros (A & B & C) (A' & B' & C'). split; [eapply same_trans; eauto|split; congruence]. Qed.
Lemma bag_sym x y : same_bag x y -> same_bag y x.
Proof. intros (A & B & C). split; [now apply same_sym|auto]. Qed.
Lemma bags_trans s t u : same_bags s t -> same_bags t u -> same_bags s u.
Proof.
  intros F. revert u. induction F as [|x y s t Fx F IH]; intros u G; inversion G; subst; [constructor|].
  constructor; [eapply bag_trans; eauto|]. now apply IH.
Qed.
Lemma bags_sym s t : same_bags s t -> same_bags t s.
Proof. intros F. induction F; constructor; auto using bag_sym. Qed.
Lemma bags_app s t s' t' : same_bags s s' -> same_bags t t' -> same_bags (s ++ t) (s' ++ t').
Proof. intros. now apply Forall2_app. Qed.
Lemma bags_snoc s s' x x' : same_bags s s' -> same_bag x x' -> same_bags (s ++ [x]) (s' ++ [x']).
Proof. intros. apply bags_app; auto. constructor; auto. Qed.
Lemma bags_nth s s' b x : same_bags s s' -> nth_error s b = Some x -> exists x', nth_error s' b = Some x' /\ same_bag x x'.
Proof.
  intros F. revert b. induction F as [|y y' s s' Fy F IH]; intros [|b] E; cbn in *; try easy; [|auto].
  injection E as <-. eauto.
Qed.
Lemma bags_set s s' b x x' : same_bags s s' -> same_bag x x' -> same_bags (set_bag s b x) (set_bag s' b x').
Proof.
  intros F X. unfold set_bag. revert b. induction F as [|y y' s s' Fy F IH]; intros [|b]; cbn; try constructor; auto.
  apply IH.
Qed.
Lemma set_bag_nth s b x : nth_error s b = Some x -> set_bag s b x = s.
Proof.
  unfold set_bag. revert b. induction s as [|y s IH]; intros [|b] E; cbn in *; try easy.
  - now injection E as ->.
  - f_equal. now apply IH.
Qed.

(** *** Contents that are the same *)
Lemma overlay_same c1 c2 d1 d2 : same_content c1 c2 -> same_content d1 d2 -> same_content (overlay c1 d1) (overlay c2 d2).
Proof.
  intros (A & B & C) (A' & B' & C'). split; [|split]; intros; cbn; [rewrite A, A'|rewrite B, B'|rewrite C, C']; auto.
Qed.
Lemma overlay_empty c : same_content (overlay c empty_content) c.
Proof.
  split; [|split]; intros; cbn.
  - now destruct (c_attr c attr o).
  - now destruct (c_list c o).
  - now destruct (c_dict c o k).
Qed.
Lemma full_from_same s s' : same_bags s s' -> forall d b, same_content (full_from s d b) (full_from s' d b).
Proof.
  intros F d. induction d as [|d IH]; intros b; cbn; [apply same_refl|].
  destruct (nth_error s b) as [x|] eqn:E.
  - destruct (bags_nth s s' b x F E) as (x' & -> & (D & _ & Fa)). rewrite Fa. apply overlay_same; auto.
    generalize (falls x). induction l as [|f fs IHl]; cbn; [apply same_refl|]. apply overlay_same; auto.
  - destruct (nth_error s' b) as [x'|] eqn:E'; [|apply same_refl].
    destruct (bags_nth s' s b x' (bags_sym _ _ F) E') as (x & E2 & _). congruence.
Qed.
Lemma full_same s s' b : same_bags s s' -> same_content (full s b) (full s' b).
Proof. intros F. now apply full_from_same. Qed.
Lemma full_plain s b x : nth_error s b = Some x -> falls x = [] -> same_content (full s b) (data x).
Proof. intros E F. unfold full. cbn. rewrite E, F. cbn. apply overlay_empty. Qed.
Lemma merged_cong dp sp t o a t' o' a' : same_content t t' -> same_content o o' -> same_content a a' -> merged dp sp t o a -> merged dp sp t' o' a'.
Proof.
  intros (T1 & T2 & T3) (O1 & O2 & O3) (A1 & A2 & A3) (M1 & M2 & M3). split; [|split]; intros.
  - rewrite T1, O1, A1; auto.
  - rewrite T2, O2, A2; auto.
  - rewrite T3, O3, A3; auto.
Qed.
Lemma conflict_cong dp sp t o t' o' : same_content t t' -> same_content o o' -> conflict dp sp t o -> conflict dp sp t' o'.
Proof.
  intros (T1 & T2 & T3) (O1 & O2 & O3) [(P & attr & x & V & C)|[(P & x & V & C)|(x & k & V & P & C)]].
  - left. split; auto. exists attr, x. split; auto. rewrite T1, O1; auto.
  - right. left. split; auto. exists x. split; auto. rewrite T2, O2; auto.
  - right. right. exists x, k. split; auto. split; auto. rewrite T3, O3; auto.
Qed.
Lemma update_cong t o u t' o' u' : same_content t t' -> same_content o o' -> same_content u u' -> is_update asize t o u -> is_update asize t' o' u'.
Proof.
  intros (T1 & T2 & T3) (O1 & O2 & O3) (A1 & A2 & A3) (M1 & M2 & M3). split; [|split]; intros.
  - rewrite T1, O1, A1; auto.
  - rewrite T2, O2, A2; auto.
  - rewrite T3, O3, A3; auto.
Qed.

(** *** Heaps *)
Lemma ch_content_ext h h' ch : ch_ok h ch -> ext h h' -> same_content (ch_content h ch) (ch_content h' ch).
Proof. intros G X. split; [|split]; intros; auto. cbn. now apply ext_content. Qed.
Lemma layer_ch_ok h a l r : layer_ok h a l -> ch_ok h r -> ch_ok h ((a, l) :: r).
Proof.
  intros (_ & _ & B & _) G x lx k c [E|I] F; [|eapply G; eauto]. assert (lx = l) by congruence. subst. apply (B k c F).
Qed.
Lemma put_content h a l l' : heap_ok h -> nth_error h a = Some l -> frozen l = false -> layer_ok h a l' -> parent l' = parent l ->
  same_content (ch_content h ((a, l') :: ups h l)) (content_at (put h a l') a).
Proof.
  intros H E F L' P. assert (H' := put_heap_ok asize h a l l' H E F L'). assert (X := ext_put h a l l' E F).
  unfold content_at. rewrite (chain_unfold asize (put h a l') a l' H') by (eapply nth_put_same; eauto).
  rewrite (ext_ups asize h (put h a l') a l' H X (heap_ok_down asize _ H') L').
  replace (ups h l') with (ups h l) by (unfold ups; now rewrite P). apply ch_content_ext; auto.
  apply layer_ch_ok; auto. apply (ups_ch_ok asize h a l); auto.
Qed.
Lemma app_content h l : heap_ok h -> layer_ok h (length h) l ->
  same_content (ch_content h ((length h, l) :: ups h l)) (content_at (h ++ [l]) (length h)).
Proof.
  intros H L. assert (H' := app_heap_ok asize h l H L). assert (X := ext_app h [l]).
  unfold content_at. rewrite (chain_unfold asize (h ++ [l]) (length h) l H') by apply nth_last.
  rewrite (ext_ups asize h (h ++ [l]) (length h) l H X (heap_ok_down asize _ H') L). apply ch_content_ext; auto.
  apply layer_ch_ok; auto. apply (ups_ch_ok asize h (length h) l); auto.
Qed.
Definition fork_of (a : nat) (l : layer) : layer := mkLayer false (if is_pristine l then parent l else Some a) [] [] [] [].
Lemma fork_content h a l : heap_ok h -> nth_error h a = Some l -> frozen l = true ->
  layer_ok h (length h) (fork_of a l) /\ same_content (content_at h a) (content_at (h ++ [fork_of a l]) (length h)).
Proof.
  intros H E F. assert (L : layer_ok h (length h) (fork_of a l)) by (apply fork_layer_ok; auto; eapply nth_lt; eauto).
  split; auto. eapply same_trans; [|apply app_content; auto].
  destruct (new_layer_chain asize h a l (length h) (fork_of a l) H E eq_refl eq_refl) as (A & B & C).
  split; [|split]; intros; cbn; [apply A|apply B|apply C].
Qed.
Definition untouched (h h' : heap) (y : nat) : Prop :=
  exists l l', nth_error h y = Some l /\ nth_error h' y = Some l' /\ data_eq l l' /\ frozen l' = frozen l.
Lemma untouched_keeps h h' y : untouched h h' y -> keeps h h' y.
Proof. intros (l & l' & A & B & C & _). exists l, l'. auto. Qed.
Lemma untouched_same h h' y l : nth_error h y = Some l -> nth_error h' y = Some l -> untouched h h' y.
Proof. intros A B. exists l, l. split; auto. split; auto. unfold data_eq. auto 10. Qed.

(** a layer with nothing in it and no parent *)
Definition is_empty (l : layer) : Prop := parent l = None /\ is_pristine l = true.
Lemma data_eq_empty l l' : data_eq l l' -> is_empty l -> is_empty l'.
Proof.
  intros (A & B & C & D & E) [P Q]. split; [congruence|]. unfold is_pristine in *. now rewrite <- B, <- C, <- D, <- E.
Qed.

(** ** The states that are reached *)
Record inv (T : ObjectId -> Prop) (st : state) : Prop := {
  i_heap : heap_ok (layers st);
  i_impl : forall b x, nth_error (bags st) b = Some x ->
    exists l, nth_error (layers st) (impl x) = Some l /\ frozen l = negb (bag_mutable x) || forked x;
  i_inj : forall b c x y, nth_error (bags st) b = Some x -> nth_error (bags st) c = Some y -> impl x = impl y -> b = c;
  i_falls : forall b x f, nth_error (bags st) b = Some x -> In f (fallbacks x) ->
    f < b /\ exists y, nth_error (bags st) f = Some y /\ bag_mutable y = false;
  i_mut : forall b x, nth_error (bags st) b = Some x -> bag_mutable x = true -> fallbacks x = [];
  i_keys : forall a l, nth_error (layers st) a = Some l -> keys_in T l;
  i_plain : forall b x, nth_error (bags st) b = Some x -> fallbacks x <> [] -> exists l, nth_error (layers st) (impl x) = Some l /\ is_empty l
}.
Definition abs_bag (h : heap) (x : bag) : abag := mkAbag (content_at h (impl x)) (bag_mutable x) (fallbacks x).
Definition abs (st : state) : list abag := map (abs_bag (layers st)) (bags st).
Lemma abs_nth st b : nth_error (abs st) b = option_map (abs_bag (layers st)) (nth_error (bags st) b).
Proof. unfold abs. apply nth_error_map. Qed.
Lemma impl_lt T st b x : inv T st -> nth_error (bags st) b = Some x -> impl x < length (layers st).
Proof. intros I E. destruct (i_impl T st I b x E) as (l & El & _). eapply nth_lt; eauto. Qed.

Lemma abs_same h h' bs : heap_ok h -> heap_ok h' -> ext h h' -> (forall x, In x bs -> keeps h h' (impl x)) ->
  same_bags (map (abs_bag h) bs) (map (abs_bag h') bs).
Proof.
  intros H H' X. induction bs as [|x bs IH]; intros K; cbn; constructor.
  - split; cbn; auto. apply keeps_content; auto. apply K. now left.
  - apply IH. intros y I. apply K. now right.
Qed.

(** one bag is changed *)
Lemma put_bag_inv T T' st b x h' nb l' : inv T st -> nth_error (bags st) b = Some x ->
  heap_ok h' -> ext (layers st) h' -> (forall a l, nth_error h' a = Some l -> keys_in T' l) ->
  (forall y, y <> impl x -> y < length (layers st) -> untouched (layers st) h' y) ->
  (impl nb = impl x \/ length (layers st) <= impl nb) ->
  nth_error h' (impl nb) = Some l' -> frozen l' = negb (bag_mutable nb) || forked nb ->
  fallbacks nb = fallbacks x -> (bag_mutable nb = true -> bag_mutable x = true) -> (fallbacks nb <> [] -> is_empty l') ->
  inv T' (mkState h' (put_bag (bags st) b nb)) /\
  same_bags (set_bag (abs st) b (abs_bag h' nb)) (abs (mkState h' (put_bag (bags st) b nb))).
Proof.
  intros I E H' X K U In' El' Fl' Fb Mu Em.
  assert (Oth : forall c y, c <> b -> nth_error (bags st) c = Some y -> impl y <> impl x /\ untouched (layers st) h' (impl y)).
  { intros c y N Ec. assert (impl y <> impl x) by (intros Q; apply N; eapply (i_inj T st I); eauto).
    split; auto. apply U; auto. eapply impl_lt; eauto. }
  split.
  - constructor; cbn [layers bags]; auto.
    + intros c y Ec. rewrite nth_put_bag, E in Ec. destruct (Nat.eqb_spec c b) as [->|N].
      * injection Ec as <-. eauto.
      * destruct (Oth c y N Ec) as (_ & l & l1 & A & B & _ & D). destruct (i_impl T st I c y Ec) as (l2 & A2 & F2).
        exists l1. split; auto. congruence.
    + intros c d y z Ec Ed Q. rewrite nth_put_bag, E in Ec. rewrite nth_put_bag, E in Ed.
      assert (Q2 : forall c y, c <> b -> nth_error (bags st) c = Some y -> impl y <> impl nb).
      { intros c0 y0 N0 E0 Q0. destruct (Oth c0 y0 N0 E0) as (N1 & _). assert (impl y0 < length (layers st)) by (eapply impl_lt; eauto).
        destruct In'; [congruence|lia]. }
      destruct (Nat.eqb_spec c b) as [->|Nc], (Nat.eqb_spec d b) as [->|Nd]; auto.
      * assert (y = nb) by congruence. subst y. elim (Q2 d z Nd Ed). auto.
      * assert (z = nb) by congruence. subst z. elim (Q2 c y Nc Ec). auto.
      * eapply (i_inj T st I); eauto.
    + intros c y f Ec If. rewrite nth_put_bag, E in Ec.
      assert (Y : f < c /\ exists z, nth_error (bags st) f = Some z /\ bag_mutable z = false).
      { destruct (Nat.eqb_spec c b) as [->|N]; [assert (y = nb) by congruence; subst; rewrite Fb in If|]; eapply (i_falls T st I); eauto. }
      destruct Y as (Lf & z & Ez & Mz). split; auto. rewrite nth_put_bag, E. destruct (Nat.eqb_spec f b) as [->|]; [|eauto].
      exists nb. split; auto. destruct (bag_mutable nb) eqn:M; auto. assert (bag_mutable x = true) by auto. congruence.
    + intros c y Ec M. rewrite nth_put_bag, E in Ec. destruct (Nat.eqb_spec c b) as [->|N]; [|eapply (i_mut T st I); eauto].
      assert (y = nb) by congruence. subst. rewrite Fb. eapply (i_mut T st I); eauto.
    + intros c y Ec Nf. rewrite nth_put_bag, E in Ec. destruct (Nat.eqb_spec c b) as [->|N].
      * assert (y = nb) by congruence. subst. exists l'. split; auto.
      * destruct (i_plain T st I c y Ec Nf) as (l2 & A2 & P2). destruct (Oth c y N Ec) as (_ & l & l1 & A & B & D & _).
        exists l1. split; auto. apply (data_eq_empty l); auto. congruence.
  - unfold abs. cbn [layers bags]. rewrite map_put_bag. fold (set_bag (map (abs_bag h') (bags st)) b (abs_bag h' nb)).
    assert (G : forall i bs, (forall c y, nth_error bs c = Some y -> nth_error (bags st) (i + c) = Some y) ->
      same_bags (set_bag (map (abs_bag (layers st)) bs) (b - i) (abs_bag h' nb)) (set_bag (map (abs_bag h') bs) (b - i) (abs_bag h' nb)) \/ b < i).
    { intros i bs. revert i. induction bs as [|y bs IH]; intros i Sub.
      - left. unfold set_bag. destruct (b - i); constructor.
      - destruct (Nat.lt_ge_cases b i) as [L|G]; auto. left. destruct (b - i) as [|n] eqn:D.
        + unfold set_bag. cbn. constructor; [apply bag_refl|]. apply abs_same; auto; [apply (i_heap T st I)|].
          intros z Iz. apply In_nth_error in Iz as (c & Ec). apply untouched_keeps. apply (Oth (i + S c)); [lia|]. apply Sub. exact Ec.
        + unfold set_bag. cbn. constructor.
          * split; cbn; auto. apply keeps_content; auto; [apply (i_heap T st I)|]. apply untouched_keeps. apply (Oth (i + 0)); [lia|]. now apply Sub.
          * destruct (IH (S i)) as [X1|X1]; [intros c z Ec; rewrite Nat.add_succ_comm; apply Sub; exact Ec| |lia].
            replace (b - S i) with n in X1 by lia. exact X1. }
    destruct (G 0 (bags st)) as [X1|X1]; [auto| |lia]. rewrite Nat.sub_0_r in X1. exact X1.
Qed.
(** a bag is added *)
Lemma add_bag_inv T st h' nb l' : inv T st -> heap_ok h' -> ext (layers st) h' -> (forall a l, nth_error h' a = Some l -> keys_in T l) ->
  (forall y, y < length (layers st) -> untouched (layers st) h' y) ->
  length (layers st) <= impl nb -> nth_error h' (impl nb) = Some l' -> frozen l' = negb (bag_mutable nb) || forked nb ->
  (forall f, In f (fallbacks nb) -> exists y, nth_error (bags st) f = Some y /\ bag_mutable y = false) ->
  (bag_mutable nb = true -> fallbacks nb = []) -> (fallbacks nb <> [] -> is_empty l') ->
  inv T (mkState h' (bags st ++ [nb])) /\ same_bags (abs st ++ [abs_bag h' nb]) (abs (mkState h' (bags st ++ [nb]))).
Proof.
  intros I H' X K U Li El' Fl' Fb Mu Em. split.
  - constructor; cbn [layers bags]; auto.
    + intros c y Ec. apply nth_snoc in Ec as [[Lc Ec]|[-> ->]]; [|eauto].
      destruct (i_impl T st I c y Ec) as (l2 & A2 & F2). destruct (U (impl y)) as (l & l1 & A & B & _ & D); [eapply impl_lt; eauto|].
      exists l1. split; auto. congruence.
    + intros c d y z Ec Ed Q. apply nth_snoc in Ec as [[Lc Ec]|[-> ->]]; apply nth_snoc in Ed as [[Ld Ed]|[-> ->]]; auto.
      * eapply (i_inj T st I); eauto.
      * assert (impl y < length (layers st)) by (eapply impl_lt; eauto). lia.
      * assert (impl z < length (layers st)) by (eapply impl_lt; eauto). lia.
    + intros c y f Ec If. apply nth_snoc in Ec as [[Lc Ec]|[-> ->]].
      * destruct (i_falls T st I c y f Ec If) as (Lf & z & Ez & Mz). split; auto. exists z. split; auto. now apply nth_app.
      * destruct (Fb f If) as (z & Ez & Mz). split; [eapply nth_lt; eauto|]. exists z. split; auto. now apply nth_app.
    + intros c y Ec M. apply nth_snoc in Ec as [[Lc Ec]|[-> ->]]; auto. eapply (i_mut T st I); eauto.
    + intros c y Ec Nf. apply nth_snoc in Ec as [[Lc Ec]|[-> ->]]; [|exists l'; split; auto].
      destruct (i_plain T st I c y Ec Nf) as (l2 & A2 & P2). destruct (U (impl y)) as (l & l1 & A & B & D & _); [eapply impl_lt; eauto|].
      exists l1. split; auto. apply (data_eq_empty l); auto. congruence.
  - unfold abs. cbn [layers bags]. rewrite map_app. apply bags_snoc; [|apply bag_refl].
    apply abs_same; auto; [apply (i_heap T st I)|]. intros x Ix. apply In_nth_error in Ix as (c & Ec). apply untouched_keeps. apply U. eapply impl_lt; eauto.
Qed.
End State.
