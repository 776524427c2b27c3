(** Slicing with several arguments, and the operators that use it. *)
From Coq Require Import NArith ZArith List Bool Arith Lia Permutation.
From Verif Require Import ObjectIdModel SchemaModel ItemModel SliceModel SliceSpec SliceProofs SliceBuildProofs
  SliceOpsModel SliceOpsSpec SliceOpsProofs SliceOrProofs SliceGatherProofs SliceShapeProofs SubsliceModel SubsliceSpec SubsliceProofs.
Import ListNotations.
Local Open Scope nat_scope.

Lemma as_ints_length : forall l z, as_ints l = Some z -> length z = length l.
Proof.
  induction l as [|[v|] l IH]; intros z H; cbn in H.
  - injection H as <-. reflexivity.
  - destruct (as_int v); [|discriminate]. cbn in H. destruct (as_ints l); [|discriminate].
    cbn in H. injection H as <-. cbn. now rewrite (IH l0).
  - destruct (as_ints l); [|discriminate]. cbn in H. injection H as <-. cbn. now rewrite (IH l0).
Qed.
Lemma to_ints_cases : forall c l, (exists z, to_ints c l = Done z /\ length z = length l) \/ to_ints c l = Fails ECast.
Proof.
  intros [|] l; unfold to_ints; auto. destruct (as_ints l) as [z|] eqn:E; auto. left. exists z.
  split; auto. now apply as_ints_length.
Qed.

(** The chosen positions are the lists that are left. *)
Definition represents (F : list tree) (c : chosen) (ls : lists) : Prop :=
  fst c = fst ls /\ snd ls = map (option_map (fun i => nth i F (Leaf None))) (snd c) /\
  (forall i, In (Some i) (snd c) -> i < length F) /\ fits 1 (fst c) (length (snd c)).
Definition corresponds (F : list tree) (r : outcome chosen) (x : outcome lists) : Prop :=
  match x with
  | Done ls => exists c, r = Done c /\ represents F c ls
  | Fails e => r = Fails e
  | Undefined => False
  end.

Lemma aligned_fits : forall l c, aligned l = Some c -> (forall s, In s l -> exists n, fits 1 s n) ->
  exists k, fits 1 c k /\ forall s n, In s l -> fits 1 s n -> fits n (skipn (length s) c) k.
Proof.
  intros l c H A. destruct (A c) as (k & K); [now apply aligned_in|]. exists k. split; auto.
  intros s n I S. destruct (aligned_prefix _ _ _ H I) as (r & R). eapply prefix_fits; eauto.
Qed.
Lemma seq_nth_all : forall {A} (d : A) l, map (fun i => nth i l d) (seq 0 (length l)) = l.
Proof.
  intros A d l. transitivity (firstn (length l) (skipn 0 l)).
  - symmetry. apply part_nth. lia.
  - cbn. apply firstn_all.
Qed.
Lemma bounds_ok : forall x sh k, (forall y, x = Some y -> fits (length (x_items y)) (skipn (length (x_shape y)) sh) k) ->
  (exists z, opt_ints x sh = Done z /\ (forall l, z = Some l -> length l = k) /\
     bounds x sh k = Done (map (bound_at z) (seq 0 k))) \/
  (opt_ints x sh = Fails ECast /\ bounds x sh k = Fails ECast).
Proof.
  intros [x|] sh k H; cbn [opt_ints bounds].
  - specialize (H x eq_refl). rewrite (broadcast_stretched _ _ _ k) by auto.
    destruct (to_ints_cases (x_castable x) (stretched (x_items x) (x_shape x) sh)) as [(z & E & L)|E]; rewrite E; cbn [bind_out]; [left|right; auto].
    exists (Some z). split; auto. assert (LK : length z = k) by (rewrite L; now apply stretched_length).
    split; [intros l EL; congruence|]. f_equal. subst k. cbn [bound_at].
    rewrite <- (map_map (fun i => nth i z None) Some). now rewrite seq_nth_all.
  - left. exists None. split; auto. split; [discriminate|]. f_equal. cbn [bound_at].
    generalize 0 as o. induction k as [|k IH]; intros o; cbn; auto. f_equal. apply IH.
    intros y E; discriminate.
Qed.

Lemma step_ok : forall (e : edge) F a c ls, length F = list_sum e -> represents (map Node (chunks e F)) c ls -> arg_ok a ->
  corresponds F (step (e, a) c) (taken ls a).
Proof.
  intros e F a [csh cl] [lsh ll] FE (R1 & R2 & R3 & R4) A. cbn [fst snd] in *. subst lsh ll.
  rewrite map_length, chunks_length in R3.
  unfold step. cbn [fst snd]. destruct a as [x|start stop].
  - unfold single, taken. cbn [fst snd]. rewrite common_aligned. cbn in A. unfold index_ok in A.
    destruct (aligned [csh; x_shape x]) as [sh|] eqn:AL; [|reflexivity]. cbn [bind_out].
    destruct (aligned_fits _ _ AL) as (k & K & KS).
    { intros s [<-|[<-|[]]]; eauto. }
    pose proof (KS csh _ (or_introl eq_refl) R4) as K1. pose proof (KS (x_shape x) _ (or_intror (or_introl eq_refl)) A) as K2.
    rewrite (broadcast_stretched cl _ _ k), (broadcast_stretched (x_items x) _ _ k) by auto.
    destruct (to_ints_cases (x_castable x) (stretched (x_items x) (x_shape x) sh)) as [(z & E & L)|E]; rewrite E; cbn [bind_out]; [|reflexivity].
    rewrite stretched_map.
    pose proof (stretched_length _ _ _ _ K1) as L1. pose proof (stretched_length _ _ _ _ K2) as L2.
    destruct (single_ok e F FE (stretched cl csh sh) z) as (l & E1 & LL & B & I); [congruence|..].
    { intros i Hi. apply R3. eapply stretched_in; eauto. }
    rewrite E1. cbn [of_opt bind_out corresponds]. eexists. split; [reflexivity|].
    unfold represents. cbn [fst snd]. split; auto. split; [exact I|]. split; auto. rewrite LL, L1. exact K.
  - unfold range, taken. cbn [fst snd]. rewrite common_aligned. destruct A as [A1 A2].
    destruct (aligned (csh :: opt_shape start ++ opt_shape stop)) as [sh|] eqn:AL; [|reflexivity]. cbn [bind_out].
    destruct (aligned_fits _ _ AL) as (k & K & KS).
    { intros s [<-|Hs]; eauto. apply in_app_or in Hs.
      destruct Hs as [Hs|Hs]; [destruct start as [x|]|destruct stop as [x|]]; try contradiction;
        destruct Hs as [<-|[]]; eexists; [now apply A1|now apply A2]. }
    pose proof (KS csh _ (or_introl eq_refl) R4) as K1.
    rewrite (broadcast_stretched cl _ _ k) by auto. rewrite stretched_map.
    pose proof (stretched_length _ _ _ _ K1) as L1. rewrite map_length, L1.
    destruct (bounds_ok start sh k) as [(za & EA & LA & BA)|[EA BA]].
    { intros y ->. apply KS; [right; now left|now apply A1]. }
    2:{ rewrite EA, BA. reflexivity. }
    rewrite EA, BA. cbn [bind_out].
    destruct (bounds_ok stop sh k) as [(zb & EB & LB & BB)|[EB BB]].
    { intros y ->. apply KS; [right; apply in_or_app; right; now left|now apply A2]. }
    2:{ rewrite EB, BB. reflexivity. }
    rewrite EB, BB. cbn [bind_out].
    destruct (range_steps_ok e F FE za zb k (stretched cl csh sh) 0 [] []) as (rs & E & LR & B & I); auto.
    { intros i Hi. apply R3. eapply stretched_in; eauto. }
    rewrite L1 in *. rewrite E. cbn [of_opt bind_out app]. rewrite I.
    pose proof (edge_of_sums (map (@length nat) rs) 0) as ED. rewrite list_sum_map_concat in ED. cbn [Nat.add] in ED.
    change (length (@nil nat)) with 0. rewrite ED.
    assert (FT : fits 1 (sh ++ [map (@length nat) rs]) (length (concat rs))).
    { apply fits_app. exists k. split; auto. cbn [fits]. rewrite map_length. split; auto. symmetry. apply list_sum_map_concat. }
    assert (FE' : from_edges (sh ++ [map (@length nat) rs]) = Done (sh ++ [map (@length nat) rs])).
    { unfold from_edges. match goal with |- (if ?b then _ else _) = _ => replace b with true; [reflexivity|] end.
      symmetry. exact (shape_from_fits _ _ _ FT). }
    match goal with |- context [from_edges ?x] => replace (from_edges x) with (@Done shape x) by (symmetry; exact FE') end.
    cbn [bind_out corresponds].
    eexists. split; [reflexivity|]. unfold represents. cbn [fst snd]. split; [|split; [|split]].
    + f_equal. f_equal. rewrite map_map. apply map_ext. intros r. now rewrite map_length.
    + rewrite !map_map. rewrite <- concat_map. rewrite map_map. apply map_ext. intros i. reflexivity.
    + intros i Hi. apply in_map_iff in Hi. destruct Hi as (j & Ej & Hj). injection Ej as <-. auto.
    + rewrite map_length. exact FT.
Qed.

Lemma steps_ok : forall sh args l c ls n, length sh = length args -> fits n sh (length l) ->
  represents (forest sh l) c ls -> Forall arg_ok args ->
  corresponds (map Leaf l) (steps (combine sh args) c) (all_taken ls args).
Proof.
  induction sh as [|e sh IH]; intros [|a args] l c ls n L F R A; try discriminate.
  - cbn. exists c. auto.
  - inversion A as [|? ? A1 A2]; subst. destruct F as [F1 F2]. cbn [combine steps all_taken].
    assert (FL : length (forest sh l) = list_sum e) by (apply forest_length; auto).
    pose proof (step_ok e (forest sh l) a c ls FL R A1) as S.
    destruct (taken ls a) as [ls'|x|]; cbn [corresponds] in S; [|rewrite S; reflexivity|contradiction].
    destruct S as (c' & -> & R'). cbn [bind_out]. eapply IH; eauto.
Qed.

Section Ops.
Variable visit : list (kind * storage) -> list (kind * storage).
Hypothesis visits : forall l, Permutation (visit l) l.

Lemma at_ints_ok : forall ds sh idx, good_slice ds -> fits 1 sh (length idx) ->
  same_outcome (at_ints visit ds sh idx) (Done (sh, map (item_at_index (items ds)) idx)).
Proof.
  intros ds sh idx G F. destruct (at_ok visit visits ds idx G) as (s & E & GS & S & I).
  cbn. unfold at_ints. rewrite E. cbn. rewrite map_length. exists s. repeat split; try apply GS; auto.
Qed.
Lemma items_length : forall ds, length (items ds) = s_size ds.
Proof. intros ds. unfold items. now rewrite map_length, seq_length. Qed.
Lemma item_at_nat : forall l i, i < length l -> item_at_index l (Some (Z.of_nat i)) = nth i l None.
Proof.
  intros l i L. cbn [item_at_index]. rewrite (proj2 (Z.leb_le 0 _)) by lia. rewrite (proj2 (Z.ltb_lt _ _)) by lia.
  cbn [andb]. now rewrite Nat2Z.id.
Qed.
Lemma sliced_items : forall l idx, (forall i, In (Some i) idx -> i < length (map Leaf l)) ->
  map (item_at_index l) (map (option_map Z.of_nat) idx) =
  map item_in (map (option_map (fun i => nth i (map Leaf l) (Leaf None))) idx).
Proof.
  intros l idx B. rewrite !map_map. apply map_ext_in. intros [i|] Hi; [|reflexivity].
  specialize (B i Hi). rewrite map_length in B. cbn [option_map item_in].
  rewrite item_at_nat by auto. now rewrite map_nth.
Qed.
Lemma firstn_fits : forall sh k r, fits 1 sh k -> exists n, fits 1 (firstn r sh) n /\ fits n (skipn r sh) k.
Proof. intros sh k r F. rewrite <- (firstn_skipn r sh) in F. apply fits_app in F. exact F. Qed.

Lemma slow_ok : forall ds sh args, good_slice ds -> fits 1 sh (s_size ds) -> Forall arg_ok args ->
  args <> [] -> length args <= length sh ->
  same_outcome (subslice_slow visit ds sh args) (sliced (items ds) sh args).
Proof.
  intros ds sh args G F A NE L. unfold subslice_slow, sliced. rewrite (proj2 (Nat.ltb_ge _ _)) by auto.
  assert (0 < length args) by (destruct args; [congruence|cbn; lia]).
  set (r := length sh - length args). destruct (firstn_fits sh _ r F) as (n & N1 & N2).
  destruct (nth_error sh r) as [e|] eqn:E; [|apply nth_error_None in E; lia].
  assert (EN : parent_size e = n).
  { destruct (nth_error_split _ _ E) as (a & b & -> & LA). rewrite <- LA in N2. rewrite skipn_app, skipn_all, Nat.sub_diag in N2.
    cbn in N2. apply N2. }
  rewrite EN.
  assert (R : represents (forest (skipn r sh) (items ds)) (firstn r sh, map Some (seq 0 n))
                (firstn r sh, map Some (forest (skipn r sh) (items ds)))).
  { pose proof (forest_length (skipn r sh) n (items ds)) as FL. rewrite items_length in FL. specialize (FL N2).
    unfold represents. cbn [fst snd]. split; auto. split; [|split].
    - rewrite map_map. cbn [option_map]. rewrite <- (map_map (fun i => nth i (forest (skipn r sh) (items ds)) (Leaf None)) Some).
      rewrite <- FL. now rewrite seq_nth_all.
    - intros i Hi. apply in_map_iff in Hi. destruct Hi as (j & Ej & Hj). injection Ej as <-. apply in_seq in Hj. lia.
    - now rewrite map_length, seq_length. }
  rewrite <- (items_length ds) in N2.
  pose proof (steps_ok (skipn r sh) args (items ds) _ _ n ltac:(rewrite skipn_length; unfold r; lia) N2 R A) as S.
  destruct (all_taken _ args) as [ls|x|]; cbn [corresponds] in S; [|rewrite S; reflexivity|contradiction].
  destruct S as ([csh cl] & -> & R1 & R2 & R3 & R4). cbn [bind_out fst snd] in *.
  rewrite R2, <- R1. rewrite <- sliced_items by auto. apply at_ints_ok; auto. now rewrite map_length.
Qed.

(** The fast path: a flat slice, and a slice of indices *)
Lemma concat_one : forall {A} (l : list A) e, length e = 1 -> list_sum e = length l -> chunks e l = [l].
Proof.
  intros A l [|n [|? ?]] E S; try discriminate. cbn in *. rewrite firstn_all2 by lia. reflexivity.
Qed.
Lemma stretch_root : forall {A} (x : A) sh k, fits 1 sh k -> stretched [x] [] sh = repeat x k.
Proof.
  intros A x sh k F. unfold stretched. cbn [length skipn].
  assert (H : forall sh n, fits n sh k -> fold_left below_it sh (repeat x n) = repeat x k).
  { clear. induction sh as [|e sh IH]; intros n F; cbn in *; [now subst|]. destruct F as [F1 F2]. subst n.
    rewrite below_repeat. now apply IH. }
  exact (H sh 1 F).
Qed.
Lemma stretched_same : forall {A} (l : list A) sh, stretched l sh sh = l.
Proof. intros A l sh. unfold stretched. now rewrite skipn_all. Qed.
Lemma aligned_root : forall s, aligned [[]; s] = Some s.
Proof.
  intros s. pose proof (common_aligned [] [s]) as C. unfold common_shape, highest in C. cbn [fold_left] in C.
  assert (H : (if length (@nil edge) <? length s then s else []) = s) by (destruct s; reflexivity).
  rewrite H in C. assert (B : forallb (fun x => broadcastable x s) [[]; s] = true).
  { cbn [forallb]. rewrite !andb_true_iff. split; [|split; [|reflexivity]]; apply broadcastable_spec; [exists s|exists []]; rewrite ?app_nil_r; auto. }
  cbv zeta in C. match type of C with (if ?b then _ else _) = _ => replace b with true in C by (symmetry; exact B) end.
  assert (X : forall o : option shape, @Done shape s = match o with Some c => Done c | None => Fails EBroadcast end -> o = Some s)
    by (intros [c|] Q; [inversion Q; reflexivity|discriminate]).
  exact (X _ C).
Qed.
Lemma nth_child_items : forall l z, item_in (nth_child (map Leaf l) z) = item_at_index l (Some z).
Proof.
  intros l z. unfold nth_child. cbn [item_at_index]. rewrite map_length.
  assert (H : forall k, k < length l -> item_in (nth_error (map Leaf l) k) = nth k l None).
  { intros k K. rewrite (nth_error_nth' _ (Leaf None)) by (rewrite map_length; auto). cbn. now rewrite map_nth. }
  destruct ((0 <=? z)%Z && (z <? Z.of_nat (length l))%Z) eqn:C1.
  - apply andb_prop in C1. destruct C1 as [C1 C2]. apply Z.leb_le in C1. apply Z.ltb_lt in C2. apply H. lia.
  - destruct ((- Z.of_nat (length l) <=? z)%Z && (z <? 0)%Z) eqn:C2; [|reflexivity].
    apply andb_prop in C2. destruct C2 as [C2 C3]. apply Z.leb_le in C2. apply Z.ltb_lt in C3. apply H. lia.
Qed.
Lemma fast_ok : forall ds e x, good_slice ds -> fits 1 [e] (s_size ds) -> index_ok x ->
  same_outcome (bind_out (to_ints (x_castable x) (x_items x)) (at_ints visit ds (x_shape x)))
    (sliced (items ds) [e] [Single x]).
Proof.
  intros ds e x G F A. cbn in F. destruct F as [F1 F2]. unfold sliced. cbn [length Nat.ltb Nat.leb Nat.sub firstn skipn].
  cbn [all_taken taken fst snd]. rewrite aligned_root, stretched_same.
  destruct (to_ints_cases (x_castable x) (x_items x)) as [(z & E & L)|E]; rewrite E; cbn [bind_out]; [|reflexivity].
  assert (FO : forest [e] (items ds) = [Node (map Leaf (items ds))]).
  { unfold forest, group. cbn [fold_right]. rewrite concat_one; auto. rewrite map_length, items_length. auto. }
  rewrite FO. cbn [map]. rewrite (stretch_root _ _ _ A).
  assert (I : map item_in (map2 child_of (repeat (Some (Node (map Leaf (items ds)))) (length (x_items x))) z)
              = map (item_at_index (items ds)) z).
  { rewrite <- L. clear. induction z as [|[z|] l IH]; cbn [length repeat map2 map]; auto.
    - rewrite IH. cbn [child_of children]. now rewrite nth_child_items.
    - now rewrite IH. }
  cbn [fst snd]. rewrite I. apply at_ints_ok; auto. rewrite L. exact A.
Qed.

Lemma forest_items : forall ds, map item_in (map Some (forest [] (items ds))) = items ds.
Proof. intros ds. unfold forest. cbn [fold_right]. rewrite !map_map. cbn. apply map_id. Qed.
Lemma subslice_ok : forall ds sh args, good_slice ds -> fits 1 sh (s_size ds) -> Forall arg_ok args ->
  same_outcome (subslice visit ds sh args) (sliced (items ds) sh args).
Proof.
  intros ds sh args G F A. destruct args as [|a args].
  - unfold subslice, sliced. cbn [length]. rewrite Nat.sub_0_r, firstn_all, skipn_all. cbn [Nat.ltb Nat.leb all_taken bind_out fst snd].
    rewrite forest_items. exists ds. rewrite items_length. repeat split; try apply G; auto.
  - assert (SLOW : same_outcome (if length sh <? length (a :: args) then Fails EMany else subslice_slow visit ds sh (a :: args))
                     (sliced (items ds) sh (a :: args))).
    { destruct (length sh <? length (a :: args)) eqn:C; [unfold sliced; rewrite C; reflexivity|].
      apply Nat.ltb_ge in C. apply slow_ok; auto. discriminate. }
    unfold subslice. destruct sh as [|e [|e' sh]]; auto. destruct a as [x|]; auto. destruct args; auto.
    inversion A; subst. now apply fast_ok.
Qed.
End Ops.
