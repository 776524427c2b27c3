(** All operations on bags, and histories of them. *)
From Coq Require Import String NArith ZArith List Bool Arith Lia Permutation.
From Verif Require Import ObjectIdModel ObjectIdProofs SchemaModel ItemModel DictModel DictSpec DictProofs
  SourceModel SourceSpec SourceProofs BagModel CollProofs BagProofs LayerProofs ContainerProofs
  MergeModel MergeSourceProofs MergeFold MergeBigProofs MergeLayerProofs BagSpec MergeImplProofs UpdateProofs ReadProofs BagKeysProofs
  BagStateProofs BagStepProofs BagOpsProofs.
Import ListNotations.
Local Open Scope nat_scope.
Notation chain := BagModel.chain.

Section Run.
Variable asize : ObjectId -> N.
Hypothesis asize_ok : forall a, (asize a <= capacity a)%N.
Variable iter : dmap -> dmap.
Hypothesis any_order : forall m, Permutation (iter m) m.
Notation valid := (valid asize).
Notation layer_ok := (layer_ok asize).
Notation heap_ok := (heap_ok asize).
Notation same_content := (same_content asize).
Notation same_bag := (same_bag asize).
Notation same_bags := (same_bags asize).
Notation merged := (merged asize).
Notation conflict := (conflict asize).
Notation inv := (inv asize).
Notation same_trans := (same_trans asize).
Notation same_sym := (same_sym asize).
Notation same_refl := (same_refl asize).
Notation bags_trans := (bags_trans asize).
Notation bags_refl := (bags_refl asize).

(** ** Fallbacks *)
Definition own (s : list abag) (f : nat) : content := match nth_error s f with Some x => data x | None => empty_content end.
Section Projection.
Context {A : Type} (get : content -> option A).
Hypothesis get_overlay : forall c d, get (overlay c d) = first_of (get c) (get d).
Hypothesis get_empty : get empty_content = None.
Lemma full_expand st d b : get (full_from (abs st) d b) = first_hit (fun f => get (own (abs st) f)) (expand_from (bags st) d b).
Proof.
  revert b. induction d as [|d IH]; intros b; cbn [full_from expand_from first_hit]; auto.
  unfold own at 1. rewrite abs_nth. destruct (nth_error (bags st) b) as [x|]; cbn [option_map].
  - rewrite get_overlay. cbn [abs_bag data falls]. unfold first_of, or_else. destruct (get (content_at (layers st) (impl x))); auto.
    induction (fallbacks x) as [|f fs IHf]; cbn [map fold_right flat_map]; auto.
    rewrite get_overlay, first_hit_app, IHf, IH. reflexivity.
  - cbn. now rewrite get_empty.
Qed.
Lemma fold_overlay s fs c : get (fold_left (fun c f => overlay c (own s f)) fs c) = or_else (get c) (first_hit (fun f => get (own s f)) fs).
Proof.
  revert c. induction fs as [|f fs IH]; intros c; cbn [fold_left first_hit]; [now destruct (get c)|].
  rewrite IH, get_overlay. now destruct (get c).
Qed.
Lemma flatten_full T st b x : inv T st -> nth_error (bags st) b = Some x ->
  get (fold_left (fun c f => overlay c (own (abs st) f)) (flatten_fallbacks st b) (own (abs st) b)) = get (full (abs st) b).
Proof.
  intros I E. rewrite fold_overlay. unfold full. rewrite full_expand.
  assert (F := flatten_hit st b (fun f => get (own (abs st) f))). cbn [first_hit] in F. apply F.
  - intros f y g Ef Ig. exact (proj1 (i_falls _ T st I f y g Ef Ig)).
  - eapply nth_lt; eauto.
Qed.
End Projection.
Lemma flatten_content T st b x : inv T st -> nth_error (bags st) b = Some x ->
  same_content (full (abs st) b) (fold_left (fun c f => overlay c (own (abs st) f)) (flatten_fallbacks st b) (own (abs st) b)).
Proof.
  intros I E. split; [|split]; intros.
  - exact (flatten_full (fun c => c_attr c attr o) (fun _ _ => eq_refl) eq_refl T st b x I E).
  - exact (flatten_full (fun c => c_list c o) (fun _ _ => eq_refl) eq_refl T st b x I E).
  - exact (flatten_full (fun c => c_dict c o k) (fun _ _ => eq_refl) eq_refl T st b x I E).
Qed.
Lemma visit_in (P : nat -> Prop) bs : (forall f x g, nth_error bs f = Some x -> In g (fallbacks x) -> P g) ->
  forall fuel stack seen, (forall f, In f stack -> P f) -> forall f, In f (visit bs fuel stack seen) -> P f.
Proof.
  intros Pf fuel. induction fuel as [|fuel IH]; intros stack seen Ps f I; cbn in I; [destruct stack; easy|].
  destruct stack as [|g stack]; [easy|]. destruct (existsb (Nat.eqb g) seen).
  - eapply IH; [|exact I]. intros. apply Ps. now right.
  - destruct I as [<-|I]; [apply Ps; now left|]. eapply IH; [|exact I]. intros y Iy. apply in_app_or in Iy as [Iy|Iy].
    + destruct (nth_error bs g) as [x|] eqn:E; [eauto|easy].
    + apply Ps. now right.
Qed.
Lemma flatten_in T st b f : inv T st -> In f (flatten_fallbacks st b) -> exists y, nth_error (bags st) f = Some y /\ bag_mutable y = false.
Proof.
  intros I Fi. unfold flatten_fallbacks in Fi. destruct (nth_error (bags st) b) as [x|] eqn:E; [|easy].
  eapply (visit_in (fun f => exists y, nth_error (bags st) f = Some y /\ bag_mutable y = false)); [| |exact Fi].
  - intros g y k Eg Ik. exact (proj2 (i_falls _ T st I g y k Eg Ik)).
  - intros g Ig. exact (proj2 (i_falls _ T st I b x g E Ig)).
Qed.

Lemma keep_overlay c d a : merged KeepOriginal KeepOriginal c d a -> same_content (overlay c d) a.
Proof.
  assert (X : forall A (x y z : option A), outcome KeepOriginal x y z -> z = first_of x y).
  { intros A x y z [->|[? _]]; [|easy]. now destruct x, y. }
  intros (M1 & M2 & M3). split; [|split]; intros; cbn; apply X.
  - now apply M1.
  - now apply M2.
  - assert (P : policy_for KeepOriginal KeepOriginal o = KeepOriginal) by (unfold policy_for; now destruct (is_explicit_schema _)).
    rewrite <- P at 1. now apply M3.
Qed.
Lemma keep_no_conflict c d : ~ conflict KeepOriginal KeepOriginal c d.
Proof.
  intros [(P & _)|[(P & _)|(o & k & _ & P & _)]]; try easy. unfold policy_for in P. now destruct (is_explicit_schema _).
Qed.

Definition sub_heap (h h2 : heap) : Prop := forall y ly, nth_error h y = Some ly -> nth_error h2 y = Some ly.
Lemma sub_ext h h2 : sub_heap h h2 -> ext h h2.
Proof. intros S x l E _. auto. Qed.
Lemma sub_keeps h h2 y l : sub_heap h h2 -> nth_error h y = Some l -> keeps h h2 y.
Proof. intros S E. exists l, l. split; auto. split; auto. unfold data_eq. auto 10. Qed.
Lemma to_fork_ok T st b x : inv T st -> nth_error (bags st) b = Some x -> bag_mutable x = false ->
  let a := length (layers st) in
  exists h2 l2, merge_fallbacks_to_fork iter st b = Some (h2, a) /\ heap_ok h2 /\ sub_heap (layers st) h2 /\
    nth_error h2 a = Some l2 /\ frozen l2 = false /\ (forall y ly, nth_error h2 y = Some ly -> keys_in T ly) /\
    same_content (full (abs st) b) (content_at h2 a).
Proof.
  intros I E M a. destruct (i_impl _ T st I b x E) as (l & El & Fl). rewrite M in Fl. cbn in Fl. assert (H := i_heap _ T st I).
  unfold merge_fallbacks_to_fork, impl_fork. rewrite E, El. fold (fork_of (impl x) l).
  destruct (fork_content asize (layers st) (impl x) l H El Fl) as [Lf Cf].
  assert (G : forall fs h1 l1 c1, (forall f, In f fs -> exists y, nth_error (bags st) f = Some y) ->
    heap_ok h1 -> sub_heap (layers st) h1 -> nth_error h1 a = Some l1 -> frozen l1 = false -> (forall y ly, nth_error h1 y = Some ly -> keys_in T ly) ->
    same_content c1 (content_at h1 a) ->
    exists h2 l2, fold_opt (fun h f => match nth_error (bags st) f with
        | None => None
        | Some y => match merge_impl iter h KeepOriginal KeepOriginal a (impl y) with Some (h, false) => Some h | _ => None end
        end) fs h1 = Some h2 /\ heap_ok h2 /\ sub_heap (layers st) h2 /\ nth_error h2 a = Some l2 /\ frozen l2 = false /\
      (forall y ly, nth_error h2 y = Some ly -> keys_in T ly) /\
      same_content (fold_left (fun c f => overlay c (own (abs st) f)) fs c1) (content_at h2 a)).
  { induction fs as [|f fs IH]; intros h1 l1 c1 Ex H1 S1 E1 F1 K1 C1; cbn [fold_opt fold_left].
    - exists h1, l1. auto 10.
    - destruct (Ex f (or_introl eq_refl)) as (y & Ey). rewrite Ey. destruct (i_impl _ T st I f y Ey) as (ly & Ely & _).
      destruct (merge_impl_ok asize asize_ok iter any_order h1 KeepOriginal KeepOriginal a (impl y) l1 ly H1 E1 F1 (S1 _ _ Ely)) as (l1' & err & Em & L' & F' & P' & R).
      rewrite Em. destruct err; [elim (keep_no_conflict _ _ R)|].
      assert (Fb : same_content (own (abs st) f) (content_at h1 (impl y))).
      { unfold own. rewrite abs_nth, Ey. cbn. apply keeps_content; auto; [now apply sub_ext|eapply sub_keeps; eauto]. }
      apply (IH _ l1').
      + intros g Ig. apply Ex. now right.
      + eapply put_heap_ok; eauto.
      + intros z lz Ez. rewrite nth_put. destruct (Nat.eqb_spec z a) as [->|]; [|auto]. exfalso. assert (a < length (layers st)) by (eapply nth_lt; eauto). unfold a in *. lia.
      + eapply nth_put_same; eauto.
      + congruence.
      + eapply merge_impl_keys; [exact K1|exact Em].
      + eapply same_trans; [|eapply put_content; eauto]. eapply same_trans; [|apply keep_overlay; exact R].
        apply overlay_same; auto. }
  destruct (G (flatten_fallbacks st b) (layers st ++ [fork_of (impl x) l]) (fork_of (impl x) l) (own (abs st) b)) as (h2 & l2 & Ef & H2 & S2 & E2 & F2 & K2 & C2).
  - intros f If. destruct (flatten_in T st b f I If) as (y & Ey & _). eauto.
  - now apply app_heap_ok.
  - intros y ly Ey. now apply nth_app.
  - apply nth_last.
  - reflexivity.
  - apply keys_snoc; [apply (i_keys _ T st I)|now apply keys_nil].
  - unfold own. rewrite abs_nth, E. exact Cf.
  - exists h2, l2. fold a. rewrite Ef. cbn [option_map]. split; auto. split; auto. split; auto. split; auto. split; auto. split; auto.
    eapply same_trans; [eapply flatten_content; eauto|exact C2].
Qed.

(** ** The other bag of a merge or an update: itself, or with its fallbacks merged *)
Definition source_of (st : state) (y : bag) (other : nat) : option (heap * nat) :=
  match fallbacks y with
  | [] => Some (layers st, impl y)
  | _ => merge_fallbacks_to_fork iter st other
  end.
Lemma source_ok T st other y : inv T st -> nth_error (bags st) other = Some y ->
  exists h2 c l2, source_of st y other = Some (h2, c) /\ heap_ok h2 /\ sub_heap (layers st) h2 /\ nth_error h2 c = Some l2 /\
    (forall z lz, nth_error h2 z = Some lz -> keys_in T lz) /\ same_content (full (abs st) other) (content_at h2 c).
Proof.
  intros I E. unfold source_of. destruct (fallbacks y) as [|f fs] eqn:F.
  - destruct (i_impl _ T st I other y E) as (l & El & _). exists (layers st), (impl y), l. split; auto. split; [apply (i_heap _ T st I)|].
    split; [intros z lz; auto|]. split; auto. split; [apply (i_keys _ T st I)|].
    apply (full_plain asize (abs st) other (abs_bag (layers st) y)); auto. now rewrite abs_nth, E.
  - assert (M : bag_mutable y = false) by (destruct (bag_mutable y) eqn:M; auto; assert (X := i_mut _ T st I other y E M); congruence).
    destruct (to_fork_ok T st other y I E M) as (h2 & l2 & A & B & C & D & _ & G & K). exists h2, (length (layers st)), l2. auto 10.
Qed.

Lemma merge_step T st b other ow ad asch : inv T st ->
  let '(st', ok) := merge_inplace iter st b other ow ad asch in
  inv T st' /\ step_spec asize (abs st) (BMerge b other ow ad asch) (abs st') ok.
Proof.
  intros I. unfold merge_inplace. cbn [step_spec]. rewrite !abs_nth.
  assert (Fails : inv T st /\ false = false /\ same_bags (abs st) (abs st)) by (split; auto; split; auto; apply bags_refl).
  destruct (nth_error (bags st) b) as [x|] eqn:E; cbn [option_map].
  2: { now rewrite (mutable_impl_none asize T st b I) by congruence. }
  cbn [abs_bag writable data falls]. destruct (bag_mutable x) eqn:Mx.
  2: { rewrite (mutable_impl_none asize T st b I) by congruence. destruct (nth_error (bags st) other); auto. }
  destruct (mutable_impl_ok asize T st b x I E Mx) as (st1 & a & l & -> & I1 & S1 & Eb & El & Fl & Oth).
  assert (Ca : same_content (content_at (layers st) (impl x)) (content_at (layers st1) a)).
  { destruct (bags_nth asize _ _ b (abs_bag (layers st) x) S1) as (y & Ey & (Sy & _)); [now rewrite abs_nth, E|].
    rewrite abs_nth, Eb in Ey. cbn in Ey. injection Ey as <-. exact Sy. }
  rewrite (i_mut _ T st I b x E Mx).
  assert (Eo : match nth_error (bags st) other with Some _ => exists y, nth_error (bags st1) other = Some y | None => nth_error (bags st1) other = None end).
  { destruct (Nat.eq_dec other b) as [->|N]; [rewrite E; eauto|]. rewrite (Oth other N). destruct (nth_error (bags st) other); eauto. }
  destruct (nth_error (bags st) other) as [y0|] eqn:Eot; cbn [option_map]; [|rewrite Eo; auto].
  destruct Eo as (y & Ey). rewrite Ey. fold (source_of st1 y other).
  destruct (source_ok T st1 other y I1 Ey) as (h2 & c & lc & -> & H2 & Sub & Ec & K2 & Cc).
  destruct (merge_impl_ok asize asize_ok iter any_order h2 (policy_of ow ad) (policy_of ow asch) a c l lc H2 (Sub _ _ El) Fl Ec) as (l' & err & Em & L' & F' & P' & R).
  rewrite Em.
  destruct (write_ok asize T T st1 b a [] h2 l l' I1 Eb El H2 Sub L') as [X1 X2]; auto; [congruence|eapply merge_impl_keys; eauto|].
  split; auto. exists (ch_content h2 ((a, l') :: ups h2 l)). split.
  - eapply bags_trans; [|exact X2]. apply bags_set; auto. apply bag_refl.
  - assert (Co : same_content (content_at h2 c) (full (abs st) other)).
    { apply same_sym. eapply same_trans; [apply full_same; exact S1|exact Cc]. }
    assert (Ct : same_content (content_at h2 a) (content_at (layers st) (impl x))).
    { apply same_sym. eapply same_trans; [exact Ca|]. apply keeps_content; auto; [apply (i_heap _ T st1 I1)|now apply sub_ext|eapply sub_keeps; eauto]. }
    destruct err; cbn [negb].
    + eapply conflict_cong; eauto.
    + eapply merged_cong; eauto. apply same_refl.
Qed.

Lemma update_step T st b other : inv T st ->
  let '(st', ok) := or_same st (overwriting_update iter st b other) in
  inv T st' /\ step_spec asize (abs st) (BUpdate b other) (abs st') ok.
Proof.
  intros I. unfold overwriting_update. cbn [step_spec]. rewrite !abs_nth.
  assert (Fails : inv T st /\ false = false /\ same_bags (abs st) (abs st)) by (split; auto; split; auto; apply bags_refl).
  destruct (nth_error (bags st) b) as [x|] eqn:E; cbn [option_map or_same]; auto. cbn [abs_bag].
  destruct (nth_error (bags st) other) as [y|] eqn:Ey; cbn [option_map or_same]; [|destruct (fallbacks x); auto].
  destruct (fallbacks x) as [|f fs]; [|cbn [or_same]; auto]. fold (source_of st y other).
  destruct (source_ok T st other y I Ey) as (h2 & c & lc & -> & H2 & Sub & Ec & K2 & Cc).
  destruct (i_impl _ T st I b x E) as (l & El & _).
  destruct (update_impl_ok asize asize_ok iter any_order h2 (impl x) c l lc H2 (Sub _ _ El) Ec) as (u & Eu & Lu & Pu & Fu & R).
  rewrite Eu. cbn [or_same].
  assert (Ku := update_impl_keys iter T h2 (impl x) c (h2 ++ [u]) (length h2) K2 Eu).
  assert (Lh : length (layers st) <= length h2).
  { destruct (Nat.le_gt_cases (length (layers st)) (length h2)) as [L|G]; auto. exfalso.
    destruct (nth_error (layers st) (length h2)) as [lz|] eqn:Ez; [|apply nth_error_None in Ez; lia].
    apply Sub in Ez. apply nth_lt in Ez. lia. }
  assert (Hu : heap_ok (h2 ++ [u])) by now apply app_heap_ok.
  destruct (add_bag_inv asize T st (freeze (h2 ++ [u]) (length h2)) (mkBag (length h2) false false []) (mkLayer true (parent u) (small u) (big u) (lists u) (dicts u)) I) as [X1 X2]; auto; try easy.
  - now apply freeze_heap_ok.
  - eapply ext_trans; [apply sub_ext; exact Sub|]. eapply ext_trans; [apply ext_app|apply ext_freeze].
  - now apply freeze_keys.
  - intros z Lz. destruct (nth_error (layers st) z) as [lz|] eqn:Ez; [|apply nth_error_None in Ez; lia].
    apply (untouched_same _ _ _ lz); auto. rewrite nth_freeze. destruct (Nat.eqb_spec z (length h2)); [lia|]. apply nth_app. auto.
  - cbn [impl]. rewrite nth_freeze, Nat.eqb_refl, nth_last. reflexivity.
  - split; auto. exists (ch_content h2 [(length h2, u)]). split.
    + eapply update_cong; [| |apply same_refl|exact R].
      * apply same_sym. apply keeps_content; auto; [apply (i_heap _ T st I)|now apply sub_ext|eapply sub_keeps; eauto].
      * now apply same_sym.
    + split; auto. eapply bags_trans; [|exact X2]. apply bags_snoc; [apply bags_refl|]. split; cbn [data writable falls abs_bag impl bag_mutable fallbacks]; auto.
      assert (Ac := app_content asize h2 u H2 Lu). unfold ups in Ac. rewrite Pu in Ac. eapply same_trans; [exact Ac|].
      apply keeps_content; auto; [now apply freeze_heap_ok|apply ext_freeze|eapply freeze_keeps; apply nth_last].
Qed.
Lemma merge_fallbacks_step T st b : inv T st ->
  let '(st', ok) := or_same st (merge_fallbacks iter st b) in
  inv T st' /\ step_spec asize (abs st) (BMergeFallbacks b) (abs st') ok.
Proof.
  intros I. unfold merge_fallbacks. cbn [step_spec]. rewrite !abs_nth.
  destruct (nth_error (bags st) b) as [x|] eqn:E; cbn [option_map or_same].
  2: { split; auto. split; auto. apply bags_refl. }
  destruct (fallbacks x) as [|f fs] eqn:F.
  - destruct (fork_ok asize T st b x false I E) as (st' & -> & I' & S'). cbn [or_same]. split; auto. split; auto.
    eapply bags_trans; [|exact S']. apply bags_snoc; [apply bags_refl|]. split; cbn [data writable falls negb]; auto.
    apply (full_plain asize (abs st) b (abs_bag (layers st) x)); auto. now rewrite abs_nth, E.
  - assert (M : bag_mutable x = false) by (destruct (bag_mutable x) eqn:M; auto; assert (X := i_mut _ T st I b x E M); congruence).
    destruct (to_fork_ok T st b x I E M) as (h2 & l2 & Ef & H2 & Sub & E2 & F2 & K2 & C2). rewrite Ef. cbn [option_map or_same].
    destruct (add_bag_inv asize T st h2 (mkBag (length (layers st)) true false []) l2 I H2) as [X1 X2]; auto; try easy.
    + now apply sub_ext.
    + intros z Lz. destruct (nth_error (layers st) z) as [lz|] eqn:Ez; [|apply nth_error_None in Ez; lia].
      apply (untouched_same _ _ _ lz); auto.
    + split; auto. split; auto. eapply bags_trans; [|exact X2]. apply bags_snoc; [apply bags_refl|]. split; cbn; auto.
Qed.

Theorem step_ok T st op : inv T st -> op_ok asize op -> (forall b alloc fields, op = BCreate b alloc fields -> ~ T alloc) ->
  let '(st', ok) := step iter st op in
  inv (op_keys T op) st' /\ step_spec asize (abs st) op (abs st') ok.
Proof.
  intros I O Fr.
  assert (Mo : forall st', inv T st' -> inv (op_keys T op) st') by (intros st' I'; eapply inv_more; [|exact I']; intros a Ta; now left).
  assert (Sub : forall a, T a -> op_keys T op a) by (intros a Ta; now left).
  assert (Fails : inv T st /\ false = false /\ same_bags (abs st) (abs st)) by (split; auto; split; auto; apply bags_refl).
  destruct op; cbn [step].
  - destruct (new_bag_ok asize T st mutable [] I) as [X1 X2]; auto; try easy.
    split; auto. cbn [step_spec]. auto.
  - unfold immutable_with_fallbacks. cbn [step_spec].
    assert (Eq : forallb (fun f => match nth_error (abs st) f with Some x => negb (writable x) | None => false end) fbs =
      forallb (fun b => match nth_error (bags st) b with Some x => negb (bag_mutable x) | None => false end) fbs).
    { clear. induction fbs as [|f fbs IH]; cbn; auto. rewrite IH, abs_nth. now destruct (nth_error (bags st) f). }
    rewrite Eq. destruct (forallb (fun b => match nth_error (bags st) b with Some x => negb (bag_mutable x) | None => false end) fbs) eqn:Fb; cbn [or_same]; [|destruct Fails; auto].
    destruct (new_bag_ok asize T st false fbs I) as [X1 X2]; auto; try easy.
    rewrite forallb_forall in Fb. intros f If. specialize (Fb f If). cbn beta in Fb. revert Fb. destruct (nth_error (bags st) f) as [y|]; [|easy].
    intros Fb. exists y. split; auto. now destruct (bag_mutable y).
  - unfold fork. cbn [step_spec]. rewrite abs_nth. destruct (nth_error (bags st) b) as [x|] eqn:E; cbn [option_map or_same abs_bag]; [|destruct Fails; auto].
    destruct (fallbacks x); [|cbn [or_same]; destruct Fails; auto].
    destruct (fork_ok asize T st b x immutable I E) as (st' & -> & I' & S'). cbn [or_same]. auto.
  - unfold freeze_bag. cbn [step_spec]. rewrite abs_nth. destruct (nth_error (bags st) b) as [x|] eqn:E; cbn [option_map or_same]; [|destruct Fails; auto].
    cbn [abs_bag writable data]. destruct (bag_mutable x); cbn [option_map or_same fst]; [|destruct Fails as (A & _ & B); auto].
    destruct (fork_ok asize T st b x true I E) as (st' & -> & I' & S'). cbn [option_map or_same fst]. auto.
  - unfold make_immutable. cbn [step_spec]. rewrite abs_nth. destruct (nth_error (bags st) b) as [x|] eqn:E; cbn [option_map or_same]; [|destruct Fails; auto].
    destruct (freeze_bag_ok asize T st b x (mkBag (impl x) false (forked x) (fallbacks x)) I E) as [X1 X2]; auto.
    cbn. easy.
  - assert (X := write_step asize T _ st b _ _ I Sub (set_attr_eff asize asize_ok T b o attr v O)).
    destruct (write_bag st b _) as [st' ok]. exact X.
  - assert (X := write_step asize T _ st b _ _ I Sub (set_attrs_eff asize asize_ok T b objs ids has_small attr vs O)).
    destruct (write_bag st b _) as [st' ok]. exact X.
  - assert (X := write_step asize T _ st b _ _ I Sub (create_eff asize asize_ok T b alloc fields O (Fr b alloc fields eq_refl))).
    destruct (write_bag st b _) as [st' ok]. exact X.
  - assert (X := write_step asize T _ st b _ _ I Sub (set_full_eff asize asize_ok T b alloc attr s O)).
    destruct (write_bag st b _) as [st' ok]. exact X.
  - assert (X := write_step asize T _ st b _ _ I Sub (edit_list_eff asize T b o update_size f O)).
    destruct (write_bag st b _) as [st' ok]. exact X.
  - destruct O as [W Nd]. assert (X := write_step asize T _ st b _ _ I Sub (edit_dict_eff asize iter any_order T b o op W Nd)).
    destruct (write_bag st b _) as [st' ok]. exact X.
  - assert (X := merge_step T st b other overwrite allow_data allow_schema I). destruct (merge_inplace iter st b other overwrite allow_data allow_schema) as [st' ok].
    destruct X. auto.
  - assert (X := merge_fallbacks_step T st b I). destruct (or_same st _) as [st' ok]. destruct X. auto.
  - assert (X := update_step T st b other I). destruct (or_same st _) as [st' ok]. destruct X. auto.
Qed.

(** ** Histories *)
Lemma run_snoc ops op st : run iter (ops ++ [op]) st = fst (step iter (run iter ops st) op).
Proof. unfold run. now rewrite fold_left_app. Qed.
Theorem history_inv ops : history asize ops -> inv (fun a => Exists (touches a) ops) (run iter ops init).
Proof.
  intros Hi. induction Hi as [|ops op Hi IH O F].
  - constructor; cbn; try easy; intros; try now destruct b. 
    + intros a l E. now destruct a.
    + now destruct a.
  - rewrite run_snoc. assert (X := step_ok _ _ op IH O).
    assert (Fr : forall b alloc fields, op = BCreate b alloc fields -> ~ Exists (touches alloc) ops).
    { intros b alloc fields -> Ex. cbn in F. rewrite Exists_exists in Ex. destruct Ex as (op' & I' & T'). rewrite Forall_forall in F. exact (F op' I' T'). }
    specialize (X Fr). destruct (step iter (run iter ops init) op) as [st' ok]. destruct X as [X _]. cbn [fst].
    eapply inv_more; [|exact X]. intros a [Ta|Ta]; apply Exists_app; [left; auto|right; constructor; auto].
Qed.
Theorem history_step ops op : history asize (ops ++ [op]) ->
  step_spec asize (abs (run iter ops init)) op (abs (run iter (ops ++ [op]) init)) (snd (step iter (run iter ops init) op)).
Proof.
  intros Hi. inversion Hi as [E|ops' op' Hi' O F E]; [now destruct ops|]. apply app_inj_tail in E as [-> ->].
  rewrite run_snoc. assert (X := step_ok _ _ op (history_inv ops Hi') O).
  assert (Fr : forall b alloc fields, op = BCreate b alloc fields -> ~ Exists (touches alloc) ops).
  { intros b alloc fields -> Ex. cbn in F. rewrite Exists_exists in Ex. destruct Ex as (op' & I' & T'). rewrite Forall_forall in F. exact (F op' I' T'). }
  specialize (X Fr). destruct (step iter (run iter ops init) op) as [st' ok]. apply X.
Qed.
End Run.
