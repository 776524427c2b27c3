(** Each operation on bags does what BagSpec.v says. *)
From Coq Require Import String NArith ZArith List Bool Arith Lia Permutation.
From Verif Require Import ObjectIdModel ObjectIdProofs SchemaModel ItemModel DictModel DictSpec DictProofs
  SourceModel SourceSpec SourceProofs BagModel CollProofs BagProofs LayerProofs ContainerProofs
  MergeModel MergeSourceProofs MergeFold MergeBigProofs MergeLayerProofs BagSpec MergeImplProofs UpdateProofs ReadProofs BagKeysProofs BagStateProofs.
Import ListNotations.
Local Open Scope nat_scope.
Notation chain := BagModel.chain.

Section Steps.
Variable asize : ObjectId -> N.
Hypothesis asize_ok : forall a, (asize a <= capacity a)%N.
Variable iter : dmap -> dmap.
Hypothesis any_order : forall m, Permutation (iter m) m.
Notation valid := (valid asize).
Notation layer_ok := (layer_ok asize).
Notation heap_ok := (heap_ok asize).
Notation same_content := (same_content asize).
Notation same_bag := (same_bag asize).
Notation same_bags := (same_bags asize).
Notation merged := (merged asize).
Notation conflict := (conflict asize).
Notation inv := (inv asize).
Notation same_trans := (same_trans asize).
Notation same_sym := (same_sym asize).
Notation bags_trans := (bags_trans asize).

Lemma new_content h mut : heap_ok h -> same_content empty_content (content_at (h ++ [mkLayer mut None [] [] [] []]) (length h)).
Proof.
  intros H. assert (L : layer_ok h (length h) (mkLayer mut None [] [] [] [])) by (split; [easy|cbn; split; [easy|split; [easy|split; easy]]]).
  eapply same_trans; [|apply app_content; auto]. split; [|split]; intros; cbn; auto.
  - unfold attr_in. cbn. now destruct (is_small_alloc o).
Qed.
Lemma app_untouched h x y : y < length h -> untouched h (h ++ x) y.
Proof.
  intros L. destruct (nth_error h y) as [l|] eqn:E; [|apply nth_error_None in E; lia].
  apply (untouched_same _ _ _ l); auto. now apply nth_app.
Qed.
Lemma keys_snoc T h l : (forall a l, nth_error h a = Some l -> keys_in T l) -> keys_in T l -> forall a l', nth_error (h ++ [l]) a = Some l' -> keys_in T l'.
Proof. intros K Kl a l' E. apply nth_snoc in E as [[_ E]|[_ ->]]; eauto. Qed.
Lemma keys_nil T l : is_pristine l = true -> keys_in T l.
Proof.
  unfold is_pristine. destruct (small l); [|easy]. destruct (big l) eqn:B; [|easy]. destruct (lists l) eqn:L; [|easy]. destruct (dicts l) eqn:D; [|easy].
  intros _. split; [intros k F; rewrite B in F; now elim F|]. split; [rewrite L|rewrite D]; cbn; discriminate.
Qed.

Lemma new_bag_ok T st mut fbs : inv T st -> (mut = true -> fbs = []) ->
  (forall f, In f fbs -> exists y, nth_error (bags st) f = Some y /\ bag_mutable y = false) ->
  inv T (new_bag st mut fbs) /\ same_bags (abs st ++ [mkAbag empty_content mut fbs]) (abs (new_bag st mut fbs)).
Proof.
  intros I M F. set (l := mkLayer (negb mut) None [] [] [] []).
  assert (L : layer_ok (layers st) (length (layers st)) l) by (split; [easy|cbn; split; [easy|split; [easy|split; easy]]]).
  assert (H := i_heap _ T st I).
  assert (X := add_bag_inv asize T st (layers st ++ [l]) (mkBag (length (layers st)) mut false fbs) l I (app_heap_ok asize _ l H L) (ext_app _ _)
    (keys_snoc T _ l (i_keys _ T st I) (keys_nil T l eq_refl)) (app_untouched _ _) (Nat.le_refl _) (nth_last _ _)).
  destruct X as [X1 X2]; auto; [cbn; now destruct mut|intros _; split; reflexivity|]. split; auto. eapply bags_trans; [|exact X2].
  apply bags_snoc; [apply bags_refl|]. split; cbn; auto. now apply new_content.
Qed.

(** the impl of a bag is frozen *)
Lemma freeze_untouched h a y : y <> a -> y < length h -> untouched h (freeze h a) y.
Proof.
  intros N L. destruct (nth_error h y) as [l|] eqn:E; [|apply nth_error_None in E; lia].
  apply (untouched_same _ _ _ l); auto. rewrite nth_freeze. destruct (Nat.eqb_spec y a); congruence.
Qed.
Lemma freeze_keys T h a : (forall a l, nth_error h a = Some l -> keys_in T l) -> forall y l, nth_error (freeze h a) y = Some l -> keys_in T l.
Proof.
  intros K y l E. rewrite nth_freeze in E. destruct (Nat.eqb_spec y a) as [->|]; [|eauto].
  destruct (nth_error h a) as [l0|] eqn:E0; [|easy]. injection E as <-. exact (K a l0 E0).
Qed.
Lemma freeze_keeps h a y l : nth_error h y = Some l -> keeps h (freeze h a) y.
Proof.
  intros E. unfold keeps. rewrite nth_freeze. destruct (Nat.eqb_spec y a) as [->|].
  - rewrite E. do 2 eexists. split; [reflexivity|]. split; [reflexivity|]. unfold data_eq. cbn. auto 10.
  - exists l, l. split; auto. split; auto. unfold data_eq. auto 10.
Qed.
Lemma freeze_bag_ok T st b x nb : inv T st -> nth_error (bags st) b = Some x ->
  impl nb = impl x -> fallbacks nb = fallbacks x -> (bag_mutable nb = true -> bag_mutable x = true) -> negb (bag_mutable nb) || forked nb = true ->
  let st' := mkState (freeze (layers st) (impl x)) (put_bag (bags st) b nb) in
  inv T st' /\ same_bags (set_bag (abs st) b (mkAbag (content_at (layers st) (impl x)) (bag_mutable nb) (fallbacks x))) (abs st').
Proof.
  intros I E Ei Ef Em Fr. destruct (i_impl _ T st I b x E) as (l & El & Fl). assert (H := i_heap _ T st I).
  destruct (put_bag_inv asize T T st b x (freeze (layers st) (impl x)) nb (mkLayer true (parent l) (small l) (big l) (lists l) (dicts l)) I E) as [X1 X2]; auto.
  - now apply freeze_heap_ok.
  - apply ext_freeze.
  - apply freeze_keys. apply (i_keys _ T st I).
  - intros y N L. now apply freeze_untouched.
  - rewrite Ei, nth_freeze, Nat.eqb_refl, El. reflexivity.
  - intros Nf. rewrite Ef in Nf. destruct (i_plain _ T st I b x E Nf) as (l0 & E0 & P0). assert (l0 = l) by congruence. subst l0. exact P0.
  - split; auto. eapply bags_trans; [|exact X2]. apply bags_set; [apply bags_refl|]. unfold abs_bag. rewrite Ei, Ef. split; cbn; auto.
    apply keeps_content; auto; [now apply freeze_heap_ok|apply ext_freeze|eapply freeze_keeps; eauto].
Qed.

(** a fork of a bag whose impl is frozen is added *)
Lemma add_fork_ok T st b x l (imm : bool) : inv T st -> nth_error (bags st) b = Some x -> nth_error (layers st) (impl x) = Some l -> frozen l = true ->
  let fl := fork_of (impl x) l in
  let h := layers st ++ [fl] in
  let st' := mkState (if imm then freeze h (length (layers st)) else h) (bags st ++ [mkBag (length (layers st)) (negb imm) false []]) in
  inv T st' /\ same_bags (abs st ++ [mkAbag (content_at (layers st) (impl x)) (negb imm) []]) (abs st').
Proof.
  intros I E El Fl fl h st'. assert (H := i_heap _ T st I). destruct (fork_content asize (layers st) (impl x) l H El Fl) as [Lf Cf].
  assert (Hh : heap_ok h) by now apply app_heap_ok.
  assert (Kh : forall a l, nth_error h a = Some l -> keys_in T l) by (apply keys_snoc; [apply (i_keys _ T st I)|now apply keys_nil]).
  destruct imm.
  - destruct (add_bag_inv asize T st (freeze h (length (layers st))) (mkBag (length (layers st)) false false []) (mkLayer true (parent fl) (small fl) (big fl) (lists fl) (dicts fl)) I) as [X1 X2]; auto; try easy.
    + now apply freeze_heap_ok.
    + eapply ext_trans; [apply ext_app|apply ext_freeze].
    + now apply freeze_keys.
    + intros y L. destruct (nth_error (layers st) y) as [ly|] eqn:Ey; [|apply nth_error_None in Ey; lia].
      apply (untouched_same _ _ _ ly); auto. rewrite nth_freeze. destruct (Nat.eqb_spec y (length (layers st))); [lia|]. now apply nth_app.
    + cbn [impl]. rewrite nth_freeze, Nat.eqb_refl. unfold h. now rewrite nth_last.
    + split; auto. eapply bags_trans; [|exact X2]. apply bags_snoc; [apply bags_refl|]. split; cbn; auto.
      eapply same_trans; [exact Cf|]. apply keeps_content; auto; [now apply freeze_heap_ok|apply ext_freeze|].
      eapply freeze_keeps. apply nth_last.
  - destruct (add_bag_inv asize T st h (mkBag (length (layers st)) true false []) fl I) as [X1 X2]; auto; try easy.
    + apply ext_app.
    + intros y L. now apply app_untouched.
    + cbn [impl]. apply nth_last.
    + split; auto. eapply bags_trans; [|exact X2]. apply bags_snoc; [apply bags_refl|]. split; cbn; auto.
Qed.
Lemma freeze_app h x a : a < length h -> freeze (h ++ [x]) a = freeze h a ++ [x].
Proof.
  intros L. unfold freeze. rewrite nth_error_app1 by auto. destruct (nth_error h a) as [l|]; auto.
  unfold put. rewrite firstn_app, skipn_app. replace (a - length h) with 0 by lia. cbn. rewrite app_nil_r, <- app_assoc. f_equal.
  destruct (skipn a h) eqn:S; auto. exfalso. assert (X := skipn_length a h). rewrite S in X. cbn in X. lia.
Qed.
Lemma freeze_length h a : length (freeze h a) = length h.
Proof. unfold freeze. destruct (nth_error h a); auto. apply put_length. Qed.
Lemma fork_ok T st b x imm : inv T st -> nth_error (bags st) b = Some x ->
  exists st', fallback_free_fork st b imm = Some st' /\ inv T st' /\
    same_bags (abs st ++ [mkAbag (content_at (layers st) (impl x)) (negb imm) []]) (abs st').
Proof.
  intros I E. destruct (i_impl _ T st I b x E) as (l & El & Fl). assert (Ll := nth_lt _ _ _ El). assert (H := i_heap _ T st I).
  unfold fallback_free_fork, impl_fork. rewrite E, El.
  set (x' := if bag_mutable x then mkBag (impl x) true true (fallbacks x) else x).
  assert (Ex : impl x' = impl x /\ fallbacks x' = fallbacks x /\ bag_mutable x' = bag_mutable x /\ negb (bag_mutable x') || forked x' = true).
  { unfold x'. destruct (bag_mutable x) eqn:M; cbn; auto. rewrite M. auto. }
  destruct Ex as (E1 & E2 & E3 & E4).
  destruct (freeze_bag_ok T st b x x' I E E1 E2) as [I1 S1]; auto; [congruence|].
  set (st1 := mkState (freeze (layers st) (impl x)) (put_bag (bags st) b x')) in *.
  set (l1 := mkLayer true (parent l) (small l) (big l) (lists l) (dicts l)).
  assert (El1 : nth_error (layers st1) (impl x') = Some l1) by (cbn; now rewrite E1, nth_freeze, Nat.eqb_refl, El).
  assert (Eb : nth_error (bags st1) b = Some x') by (cbn; now rewrite nth_put_bag, Nat.eqb_refl, E).
  assert (X := add_fork_ok T st1 b x' l1 imm I1 Eb El1 eq_refl). cbn zeta in X.
  assert (Ff : fork_of (impl x') l1 = mkLayer false (if is_pristine l then parent l else Some (impl x)) [] [] [] []) by (unfold fork_of; now rewrite E1).
  rewrite Ff in X. set (fl := mkLayer false (if is_pristine l then parent l else Some (impl x)) [] [] [] []) in *.
  assert (Lr : length (layers st1) = length (layers st)) by (cbn; apply freeze_length).
  assert (Es : freeze (layers st ++ [fl]) (impl x) = layers st1 ++ [fl]) by (now apply freeze_app).
  eexists. split; [reflexivity|]. cbn [negb]. change (mkLayer false (if is_pristine l then parent l else Some (impl x)) [] [] [] []) with fl.
  rewrite Es, <- Lr. destruct X as [X1 X2]. split; [exact X1|]. eapply bags_trans; [|exact X2]. apply bags_snoc.
  - eapply bags_trans; [|exact S1]. rewrite set_bag_nth; [apply bags_refl|]. rewrite abs_nth, E. cbn. unfold abs_bag. now rewrite E3.
  - split; cbn [data writable falls]; auto. rewrite E1. apply keeps_content; auto; [apply (i_heap _ T st1 I1)|apply ext_freeze|eapply freeze_keeps; eauto].
Qed.

(** GetMutableImpl *)
Lemma mutable_impl_ok T st b x : inv T st -> nth_error (bags st) b = Some x -> bag_mutable x = true ->
  exists st' a l, mutable_impl st b = Some (st', a) /\ inv T st' /\ same_bags (abs st) (abs st') /\
    nth_error (bags st') b = Some (mkBag a true false []) /\ nth_error (layers st') a = Some l /\ frozen l = false /\
    (forall c, c <> b -> nth_error (bags st') c = nth_error (bags st) c).
Proof.
  intros I E M. destruct (i_impl _ T st I b x E) as (l & El & Fl). assert (Ll := nth_lt _ _ _ El). assert (H := i_heap _ T st I).
  assert (Fx := i_mut _ T st I b x E M). unfold mutable_impl. rewrite E, M. cbn [negb]. destruct (forked x) eqn:Fo.
  - unfold impl_fork. rewrite nth_freeze, Nat.eqb_refl, El. rewrite M in Fl. cbn in Fl.
    assert (Eh : freeze (layers st) (impl x) = layers st).
    { unfold freeze. rewrite El. replace (mkLayer true (parent l) (small l) (big l) (lists l) (dicts l)) with l by (destruct l; cbn in *; congruence).
      now apply put_same. }
    rewrite Eh. cbn [is_pristine small big lists dicts parent]. change (match small l with [] => _ | _ => _ end) with (is_pristine l).
    fold (fork_of (impl x) l). destruct (fork_content asize (layers st) (impl x) l H El Fl) as [Lf Cf].
    destruct (put_bag_inv asize T T st b x (layers st ++ [fork_of (impl x) l]) (mkBag (length (layers st)) true false (fallbacks x)) (fork_of (impl x) l) I E) as [X1 X2]; auto.
    + now apply app_heap_ok.
    + apply ext_app.
    + apply keys_snoc; [apply (i_keys _ T st I)|now apply keys_nil].
    + intros y _ L. now apply app_untouched.
    + cbn [impl]. apply nth_last.
    + cbn [fallbacks]. congruence.
    + do 3 eexists. split; [reflexivity|]. split; [exact X1|]. split; [|split; [|split; [apply nth_last|]]].
      * eapply bags_trans; [|exact X2]. rewrite <- (set_bag_nth (abs st) b (abs_bag (layers st) x)) at 1 by (rewrite abs_nth, E; reflexivity).
        apply bags_set; [apply bags_refl|]. split; cbn; auto.
      * cbn [bags]. rewrite nth_put_bag, Nat.eqb_refl, E, Fx. reflexivity.
      * split; [reflexivity|]. intros c N. cbn [bags]. rewrite nth_put_bag. destruct (Nat.eqb_spec c b); congruence.
  - exists st, (impl x), l. split; auto. split; auto. split; [apply bags_refl|].
    split; [rewrite E; f_equal; destruct x; cbn in *; congruence|]. split; auto. split; auto. rewrite Fl, M. reflexivity.
Qed.
Lemma mutable_impl_none T st b : inv T st -> (forall x, nth_error (bags st) b = Some x -> bag_mutable x = false) -> mutable_impl st b = None.
Proof. intros I N. unfold mutable_impl. destruct (nth_error (bags st) b) as [x|]; auto. now rewrite (N x eq_refl). Qed.

(** a write to the impl of a bag, possibly after something was added to the heap *)
Lemma write_ok T T' st b a fs h2 l l' : inv T st -> nth_error (bags st) b = Some (mkBag a true false fs) -> nth_error (layers st) a = Some l ->
  heap_ok h2 -> (forall y ly, nth_error (layers st) y = Some ly -> nth_error h2 y = Some ly) ->
  layer_ok h2 a l' -> frozen l' = false -> parent l' = parent l ->
  (forall y ly, nth_error (put h2 a l') y = Some ly -> keys_in T' ly) ->
  let st' := mkState (put h2 a l') (bags st) in
  inv T' st' /\ same_bags (set_bag (abs st) b (mkAbag (ch_content h2 ((a, l') :: ups h2 l)) true fs)) (abs st').
Proof.
  intros I E El H2 Sub L' F' P' K' st'. destruct (i_impl _ T st I b _ E) as (l0 & El0 & Fl0). cbn in El0, Fl0.
  assert (l0 = l) by congruence. subst l0. assert (E2 := Sub a l El).
  assert (H' := put_heap_ok asize h2 a l l' H2 E2 Fl0 L').
  destruct (put_bag_inv asize T T' st b _ (put h2 a l') (mkBag a true false fs) l' I E) as [X1 X2]; auto.
  - intros y ly Ey Fy. rewrite nth_put. destruct (Nat.eqb_spec y a) as [->|]; [congruence|auto].
  - intros y N L. cbn [impl] in N. destruct (nth_error (layers st) y) as [ly|] eqn:Ey; [|apply nth_error_None in Ey; lia].
    apply (untouched_same _ _ _ ly); auto. rewrite nth_put_other; auto.
  - cbn [impl]. eapply nth_put_same; eauto.
  - intros Nf. elim Nf. exact (i_mut _ T st I b _ E eq_refl).
  - rewrite put_bag_same in X1, X2 by auto. split; auto. eapply bags_trans; [|exact X2].
    apply bags_set; [apply bags_refl|]. split; cbn; auto. now apply put_content.
Qed.
End Steps.
