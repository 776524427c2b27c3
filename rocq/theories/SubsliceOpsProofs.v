(** The operators subslice, take and expand_to. *)
From Coq Require Import NArith ZArith List Bool Arith Lia Permutation.
From Verif Require Import ObjectIdModel SchemaModel ItemModel SliceModel SliceSpec SliceProofs SliceBuildProofs
  SliceOpsModel SliceOpsSpec SliceOpsProofs SliceOrProofs SliceGatherProofs SliceShapeProofs SliceReadProofs
  SubsliceModel SubsliceSpec SubsliceProofs SubsliceRunProofs.
Import ListNotations.
Local Open Scope nat_scope.

(** ** Ranges without bounds *)
Lemma aligned_one : forall s, aligned [s] = Some s.
Proof.
  intros s. unfold aligned. cbn [find forallb].
  assert (H : is_prefix s s = true) by (apply is_prefix_spec; exists []; now rewrite app_nil_r). rewrite H. reflexivity.
Qed.
Lemma ranges_full : forall ts, map3 range_of (map Some ts) (repeat None (length ts)) (repeat None (length ts)) = map children ts.
Proof.
  induction ts as [|t ts IH]; [reflexivity|]. cbn [length repeat map map3]. rewrite IH. f_equal.
  unfold range_of. rewrite Nat.sub_0_r. cbn [skipn]. apply firstn_all.
Qed.
Lemma taken_full : forall up ts, taken (up, map Some ts) full =
  Done (up ++ [map (@length tree) (map children ts)], map Some (concat (map children ts))).
Proof.
  intros up ts. unfold full, taken. cbn [fst snd opt_shape app]. rewrite aligned_one, stretched_same.
  cbn [bounds bind_out]. rewrite map_length, ranges_full. reflexivity.
Qed.
Lemma chunks_lengths : forall {A} e (l : list A), length l = list_sum e -> map (@length A) (chunks e l) = e.
Proof.
  intros A e. induction e as [|n e IH]; intros l L; [reflexivity|]. change (list_sum (n :: e)) with (n + list_sum e) in L.
  cbn [chunks map]. rewrite firstn_length, IH by (rewrite skipn_length; lia). f_equal. lia.
Qed.
Lemma chunks_concat : forall {A} e (l : list A), length l = list_sum e -> concat (chunks e l) = l.
Proof.
  intros A e. induction e as [|n e IH]; intros l L; [destruct l; [reflexivity|discriminate]|].
  change (list_sum (n :: e)) with (n + list_sum e) in L.
  cbn [chunks concat]. rewrite IH by (rewrite skipn_length; lia). apply firstn_skipn.
Qed.
Lemma taken_group : forall up e F, length F = list_sum e -> taken (up, map Some (group e F)) full = Done (up ++ [e], map Some F).
Proof.
  intros up e F L. rewrite taken_full. unfold group. rewrite !map_map. cbn [children]. rewrite map_id.
  rewrite chunks_concat by auto. now rewrite chunks_lengths.
Qed.
Lemma all_taken_app : forall a b ls, all_taken ls (a ++ b) = bind_out (all_taken ls a) (fun ls => all_taken ls b).
Proof.
  induction a as [|x a IH]; intros b ls; [reflexivity|]. cbn [app all_taken].
  destruct (taken ls x) as [ls'| |]; cbn [bind_out]; auto.
Qed.
Lemma taken_below : forall es up n rest l, fits n (es ++ rest) (length l) ->
  all_taken (up, map Some (forest (es ++ rest) l)) (repeat full (length es)) = Done (up ++ es, map Some (forest rest l)).
Proof.
  induction es as [|e es IH]; intros up n rest l F.
  - cbn. now rewrite app_nil_r.
  - destruct F as [F1 F2]. cbn [length repeat all_taken app]. change (forest (e :: es ++ rest) l) with (group e (forest (es ++ rest) l)).
    rewrite taken_group by (apply forest_length; auto). cbn [bind_out].
    rewrite (IH _ _ _ _ F2). rewrite <- app_assoc. reflexivity.
Qed.
(** ranges without bounds for the first dimensions change nothing *)
Lemma sliced_full : forall l sh args, fits 1 sh (length l) -> length args <= length sh ->
  sliced l sh (repeat full (length sh - length args) ++ args) = sliced l sh args.
Proof.
  intros l sh args F L. unfold sliced. rewrite app_length, repeat_length.
  replace (length sh - length args + length args) with (length sh) by lia.
  rewrite (proj2 (Nat.ltb_ge _ _)) by lia. rewrite (proj2 (Nat.ltb_ge _ _)) by lia.
  rewrite Nat.sub_diag. cbn [firstn skipn]. set (r := length sh - length args). rewrite all_taken_app.
  assert (LR : length (firstn r sh) = r) by (rewrite firstn_length; unfold r; lia).
  pose proof (taken_below (firstn r sh) [] 1 (skipn r sh) l) as T. rewrite firstn_skipn, LR in T.
  match goal with |- context [bind_out (all_taken ?a (repeat full r)) _] =>
    replace (all_taken a (repeat full r)) with (@Done lists (firstn r sh, map Some (forest (skipn r sh) l))) by (symmetry; exact (T F)) end.
  reflexivity.
Qed.
Lemma sliced_all : forall l sh, fits 1 sh (length l) -> sliced l sh (repeat full (length sh)) = Done (sh, l).
Proof.
  intros l sh F. pose proof (sliced_full l sh [] F (Nat.le_0_l _)) as S. cbn [length] in S. rewrite Nat.sub_0_r, app_nil_r in S.
  rewrite S. unfold sliced. cbn [length all_taken]. rewrite Nat.sub_0_r, firstn_all, skipn_all.
  rewrite (proj2 (Nat.ltb_ge _ _)) by lia. cbn [bind_out fst snd]. unfold forest. cbn [fold_right].
  f_equal. f_equal. rewrite !map_map. apply map_id.
Qed.

(** ** The arguments of kd.subslice *)
Lemma split_args : forall l, args_of l = fst (split_ellipsis l) ++ match snd (split_ellipsis l) with Some r => args_of r | None => [] end.
Proof.
  induction l as [|[a|] l IH]; cbn [args_of split_ellipsis fst snd app]; auto. now rewrite IH.
Qed.
Lemma no_ellipsis : forall l i p, ellipses l = 0 -> last_ellipsis i l p = p.
Proof.
  induction l as [|[a|] l IH]; intros i p E; cbn in *; auto. discriminate.
Qed.
Lemma ellipsis_position : forall l i p, ellipses l <= 1 ->
  last_ellipsis i l p = match snd (split_ellipsis l) with Some _ => Some (i + length (fst (split_ellipsis l))) | None => p end.
Proof.
  induction l as [|[a|] l IH]; intros i p E; cbn [last_ellipsis split_ellipsis fst snd length]; auto.
  - rewrite IH by exact E. destruct (snd (split_ellipsis l)); auto. f_equal. lia.
  - rewrite no_ellipsis; [f_equal; lia|]. unfold ellipses in *. cbn in E. lia.
Qed.
Lemma filled_count : forall rank l, ellipses l <= 1 -> (rank <? length (args_of l)) = (rank <? length (filled rank l)).
Proof.
  intros rank l E. unfold filled. pose proof (split_args l) as S. destruct (split_ellipsis l) as [b [r|]]; cbn [fst snd] in S; rewrite S;
    rewrite ?app_length, ?repeat_length; cbn [length]; apply eq_true_iff_eq; rewrite !Nat.ltb_lt; lia.
Qed.

(** ** Trees of the same depth *)
Fixpoint deep (k : nat) (t : tree) : Prop :=
  match k, t with
  | O, Leaf _ => True
  | S k, Node l => Forall (deep k) l
  | _, _ => False
  end.
Lemma chunks_forall : forall {A} (P : A -> Prop) e l, Forall P l -> Forall (Forall P) (chunks e l).
Proof.
  intros A P e l H. apply Forall_forall. intros g Hg. apply Forall_forall. intros x Hx.
  rewrite Forall_forall in H. apply H. eapply chunks_in; eauto.
Qed.
Lemma forest_deep : forall sh l, Forall (deep (length sh)) (forest sh l).
Proof.
  induction sh as [|e sh IH]; intros l.
  - unfold forest. cbn. apply Forall_map, Forall_forall. intros x _. exact I.
  - change (forest (e :: sh) l) with (group e (forest sh l)). unfold group. apply Forall_map.
    eapply Forall_impl; [|apply chunks_forall, IH]. intros g Hg. exact Hg.
Qed.
Lemma concat_chunks : forall {A} (rs : list (list A)), chunks (map (@length A) rs) (concat rs) = rs.
Proof.
  intros A rs. induction rs as [|r rs IH]; [reflexivity|]. cbn [map concat chunks].
  rewrite firstn_app, Nat.sub_diag, firstn_all, skipn_app, skipn_all, Nat.sub_diag. cbn. now rewrite app_nil_r, IH.
Qed.
Lemma all_taken_deep : forall k ts up, Forall (deep k) ts ->
  exists es l, all_taken (up, map Some ts) (repeat full k) = Done (up ++ es, map Some (map Leaf l)) /\
    length es = k /\ fits (length ts) es (length l) /\ forest es l = ts.
Proof.
  induction k as [|k IH]; intros ts up D.
  - assert (X : exists l, ts = map Leaf l).
    { induction D as [|t ts T D IHD]; [exists []; reflexivity|]. destruct IHD as (l & ->). destruct t as [x|]; [|contradiction].
      exists (x :: l). reflexivity. }
    destruct X as (l & ->). exists [], l. cbn. rewrite app_nil_r, map_length. auto.
  - cbn [repeat all_taken]. rewrite taken_full. cbn [bind_out].
    assert (N : ts = map Node (map children ts) /\ Forall (deep k) (concat (map children ts))).
    { clear IH. induction D as [|t ts T D IHD]; [split; [reflexivity|constructor]|]. destruct t as [|ch]; [contradiction|].
      destruct IHD as [E1 E2]. cbn [map children concat]. split; [f_equal; exact E1|]. apply Forall_app. split; auto. }
    destruct N as [N1 N2]. set (rs := map children ts) in *.
    destruct (IH (concat rs) (up ++ [map (@length tree) rs]) N2) as (es & l & E & L & F & G).
    exists (map (@length tree) rs :: es), l. split; [refine (eq_trans E _); now rewrite <- app_assoc|].
    split; [cbn; now rewrite L|]. split.
    + cbn [fits]. rewrite map_length. split; [rewrite N1 at 1; rewrite map_length; reflexivity|]. rewrite list_sum_map_concat. exact F.
    + change (forest (map (@length tree) rs :: es) l) with (group (map (@length tree) rs) (forest es l)).
      rewrite G. unfold group. rewrite concat_chunks. auto.
Qed.

Section Ops.
Variable visit : list (kind * storage) -> list (kind * storage).
Hypothesis visits : forall l, Permutation (visit l) l.

Lemma args_of_ok : forall l, Forall parg_ok l -> Forall arg_ok (args_of l).
Proof. induction l as [|[a|] l IH]; intros H; inversion H; subst; cbn; auto. Qed.
Lemma full_ok : arg_ok full.
Proof. split; discriminate. Qed.

Lemma kd_subslice_ok : forall ds sh l, good_slice ds -> fits 1 sh (s_size ds) -> Forall parg_ok l -> ellipses l <= 1 ->
  same_outcome (kd_subslice visit ds sh l) (sliced (items ds) sh (filled (length sh) l)).
Proof.
  intros ds sh l G F A E. unfold kd_subslice, extract_args. rewrite filled_count by auto.
  destruct (length sh <? length (filled (length sh) l)) eqn:C.
  { unfold sliced. rewrite C. reflexivity. }
  rewrite <- filled_count in C by auto. apply Nat.ltb_ge in C.
  pose proof (args_of_ok l A) as AO. pose proof (split_args l) as SA.
  assert (FI : fits 1 sh (length (items ds))) by (now rewrite items_length).
  rewrite ellipsis_position by auto. unfold filled. destruct (split_ellipsis l) as [b [r|]]; cbn [fst snd] in SA |- *.
  - destruct (length b) as [|p] eqn:LB; cbn [Nat.add bind_out].
    + destruct b; [|discriminate]. cbn [app] in SA |- *. rewrite SA in *. rewrite sliced_full by auto. apply subslice_ok; auto.
    + rewrite SA. rewrite <- LB. rewrite firstn_app, Nat.sub_diag, firstn_all, skipn_app, skipn_all, Nat.sub_diag. cbn [firstn skipn app].
      rewrite app_nil_r. apply subslice_ok; auto. rewrite SA in AO. apply Forall_app in AO. destruct AO as [AO1 AO2].
      apply Forall_app. split; auto. apply Forall_app. split; auto. apply Forall_forall. intros x Hx. apply repeat_spec in Hx. subst x. exact full_ok.
  - rewrite app_nil_r in SA. rewrite SA in *. cbn [bind_out]. rewrite sliced_full by auto. apply subslice_ok; auto.
Qed.

Lemma subslice_all_ok : forall ds sh, good_slice ds -> fits 1 sh (s_size ds) ->
  exists s, subslice visit ds sh (repeat full (length sh)) = Done (s, sh) /\ good_slice s /\ items s = items ds.
Proof.
  intros ds sh G F. pose proof (subslice_ok visit visits ds sh (repeat full (length sh)) G F) as S.
  rewrite sliced_all in S by (now rewrite items_length). destruct S as (s & E & GS & _ & I & _).
  - apply Forall_forall. intros x Hx. apply repeat_spec in Hx. subst x. exact full_ok.
  - exists s. auto.
Qed.

Lemma take_ok : forall ds sh x, good_slice ds -> fits 1 sh (s_size ds) -> index_ok x ->
  (sh = [] -> take visit ds sh x = Fails ERank) /\
  (sh <> [] -> same_outcome (take visit ds sh x) (sliced (items ds) sh [Single x])).
Proof.
  intros ds sh x G F X. unfold take. split; [intros ->; reflexivity|]. intros NE.
  destruct (length sh =? 0) eqn:L0; [apply Nat.eqb_eq, length_zero_iff_nil in L0; contradiction|]. apply Nat.eqb_neq in L0.
  pose proof (subslice_ok visit visits ds sh [Single x] G F ltac:(constructor; auto)) as S.
  destruct (broadcastable (firstn (length sh - 1) sh) (x_shape x)) eqn:B1; cbn [negb andb]; auto.
  destruct (broadcastable (x_shape x) (firstn (length sh - 1) sh)) eqn:B2; cbn [negb andb]; auto.
  unfold sliced in *. cbn [length] in *. rewrite (proj2 (Nat.ltb_ge _ _)) by lia. cbn [all_taken taken fst snd].
  match goal with |- context [aligned ?l] => destruct (aligned l) as [c|] eqn:AL; [|reflexivity] end.
  pose proof (aligned_in _ _ AL) as [IN|[IN|[]]]; exfalso.
  - destruct (aligned_prefix _ _ (x_shape x) AL) as (r & R); [right; now left|]. rewrite <- IN in R.
    assert (broadcastable (x_shape x) (firstn (length sh - 1) sh) = true) by (apply broadcastable_spec; eauto). congruence.
  - destruct (aligned_prefix _ _ (firstn (length sh - 1) sh) AL) as (r & R); [now left|]. rewrite <- IN in R.
    assert (broadcastable (firstn (length sh - 1) sh) (x_shape x) = true) by (apply broadcastable_spec; eauto). congruence.
Qed.

(** ** Broadcasting *)
Lemma broadcast_slice_ok : forall ds sh to_ k, good_slice ds -> fits 1 sh (s_size ds) -> fits 1 to_ k ->
  (~ (exists r, to_ = sh ++ r) -> broadcast_slice visit ds sh to_ = Fails EBroadcast) /\
  ((exists r, to_ = sh ++ r) -> exists s, broadcast_slice visit ds sh to_ = Done s /\ good_slice s /\ s_size s = k /\
     items s = stretched (items ds) sh to_).
Proof.
  intros ds sh to_ k G F T. unfold broadcast_slice. split.
  - intros N. destruct (broadcastable sh to_) eqn:B; [|reflexivity]. apply broadcastable_spec in B. contradiction.
  - intros (r & R). assert (B : broadcastable sh to_ = true) by (apply broadcastable_spec; eauto). rewrite B. cbn [negb].
    pose proof (prefix_fits _ _ _ _ _ R F T) as K.
    destruct (length sh =? length to_) eqn:L; [apply Nat.eqb_eq in L|].
    + assert (r = []) by (destruct r; auto; rewrite R, app_length in L; cbn in L; lia). subst r. rewrite app_nil_r in R. subst to_.
      exists ds. split; auto. split; auto. split; [eapply fits_unique; eauto|]. now rewrite stretched_same.
    + destruct (edge_fold (skipn (length sh) to_) (repeat 1 (s_size ds)) k) as [E1 E2]; [now rewrite sum_ones|].
      rewrite repeat_length in E1. fold (broadcast_edge sh to_ (s_size ds)) in E1, E2.
      destruct (expand_ok visit visits ds (broadcast_edge sh to_ (s_size ds)) G E1) as (s & E & GS & S & I).
      exists s. split; auto. split; auto. split; [rewrite S; exact E2|]. rewrite I.
      change (expanded (items ds)) with (below_it (items ds)). rewrite <- expand_below.
      rewrite <- (items_length ds). apply (broadcast_stretched _ _ _ k). now rewrite items_length.
Qed.

(** ** expand_to for a target with missing items *)
Lemma masked_has : forall l t, map2 masked l (map has_item t) = map2 masked l t.
Proof. induction l as [|x l IH]; intros [|y t]; cbn; auto. rewrite IH. destruct y; reflexivity. Qed.
Lemma has_is_mask : forall t, is_mask (map has_item t).
Proof. intros t. apply Forall_forall. intros m Hm. apply in_map_iff in Hm. destruct Hm as ([v|] & <- & _); cbn; auto. Qed.
Lemma masked_by : forall ds target, good_slice ds -> slice_wf target -> s_size ds = s_size target ->
  exists s, presence_and visit ds (has target) = Done s /\ good_slice s /\ s_size s = s_size ds /\
    items s = map2 masked (items ds) (items target).
Proof.
  intros ds target G W S. destruct (has_ok target W) as (HG & HS & HI).
  destruct (presence_and_ok visit visits ds (has target) G (proj1 HG)) as (_ & _ & H).
  destruct H as (s & E & GS & SS & I); [congruence|rewrite HI; apply has_is_mask|].
  exists s. split; auto. split; auto. split; auto. rewrite I, HI. apply masked_has.
Qed.
Definition zero : value := val KInt64 0%Z.
Lemma masked_zeros : forall t, map2 masked (repeat (Some zero) (length t)) t = map (masked (Some zero)) t.
Proof. induction t as [|x t IH]; cbn; auto. now rewrite IH. Qed.
Lemma zeros_ints : forall t, as_ints (map (masked (Some zero)) t) = Some (map (fun x => match x with Some _ => Some 0%Z | None => None end) t).
Proof. induction t as [|[v|] t IH]; cbn; auto; now rewrite IH. Qed.
Lemma ranges_zero : forall ts t, length ts = length t ->
  map3 range_of (map Some ts) (map Some (map (fun x : option value => match x with Some _ => Some 0%Z | None => None end) t)) (repeat None (length ts)) =
  map2 (fun t x => match x with Some _ => children t | None => [] end) ts t.
Proof.
  induction ts as [|x ts IH]; intros [|y t] L; try discriminate; [reflexivity|]. cbn [length repeat map map3 map2].
  rewrite IH by (cbn in L; lia). f_equal. destruct y as [v|]; unfold range_of; cbn [option_map]; auto.
  assert (P : position (length (children x)) 0 = 0) by (unfold position; rewrite (proj2 (Z.ltb_ge 0 0)) by lia; lia).
  rewrite P, Nat.sub_0_r. cbn [skipn]. apply firstn_all.
Qed.
Lemma stretched_forall : forall {A} (P : A -> Prop) l from to_, Forall P l -> Forall P (stretched l from to_).
Proof. intros A P l from to_ H. rewrite Forall_forall in *. intros x Hx. apply H. eapply stretched_in; eauto. Qed.
Lemma aligned_two : forall a b, length a <= length b -> aligned [a; b] = if is_prefix a b then Some b else None.
Proof.
  intros a b L. destruct (is_prefix a b) eqn:P.
  - unfold aligned. cbn [find forallb]. assert (PB : is_prefix b b = true) by (apply is_prefix_spec; exists []; now rewrite app_nil_r).
    assert (PA : is_prefix a a = true) by (apply is_prefix_spec; exists []; now rewrite app_nil_r).
    rewrite P, PA, PB. cbn [andb]. destruct (is_prefix b a) eqn:Q; [|reflexivity]. cbn [andb]. f_equal.
    symmetry. apply prefix_same_length; auto.
  - destruct (aligned [a; b]) as [c|] eqn:AL; [exfalso|reflexivity].
    pose proof (aligned_in _ _ AL) as [IN|[IN|[]]].
    + destruct (aligned_prefix _ _ b AL) as (r & R); [right; now left|]. subst c.
      assert (r = []) by (destruct r; auto; rewrite R, app_length in L; cbn in L; lia). subst r. rewrite app_nil_r in R. subst b.
      assert (is_prefix a a = true) by (apply is_prefix_spec; exists []; now rewrite app_nil_r). congruence.
    + destruct (aligned_prefix _ _ a AL) as (r & R); [now left|]. subst c.
      assert (is_prefix a b = true) by (apply is_prefix_spec; eauto). congruence.
Qed.
Lemma masked_children : forall k ts t, length ts = length t -> Forall (deep (S k)) ts ->
  map Node (map2 (fun t (x : option value) => match x with Some _ => children t | None => [] end) ts t) = map2 list_or_empty ts t /\
  Forall (deep k) (concat (map2 (fun t (x : option value) => match x with Some _ => children t | None => [] end) ts t)).
Proof.
  intros k ts. induction ts as [|x ts IH]; intros [|y t] L D; try discriminate; [split; [reflexivity|constructor]|].
  inversion D as [|? ? D1 D2]; subst. destruct x as [|ch]; [contradiction|].
  destruct (IH t) as [E1 E2]; [cbn in L; lia|auto|]. cbn [map2 map concat]. rewrite E1. split.
  - destruct y; reflexivity.
  - apply Forall_app. split; auto. destruct y; [exact D1|constructor].
Qed.

Lemma map2_len : forall {A B C} (f : A -> B -> C) l m, length l = length m -> length (map2 f l m) = length l.
Proof. intros A B C f l. induction l as [|x l IH]; intros [|y m] L; try discriminate; cbn in *; auto. Qed.
Lemma expand_zero_ok : forall ds sh target tsh, good_slice ds -> fits 1 sh (s_size ds) ->
  slice_wf target -> fits 1 tsh (s_size target) ->
  (~ (exists r, tsh = sh ++ r) -> expand_to_present visit ds sh target tsh 0 = Fails EBroadcast) /\
  ((exists r, tsh = sh ++ r) -> exists s, expand_to_present visit ds sh target tsh 0 = Done (s, tsh) /\ good_slice s /\
     s_size s = s_size target /\ items s = map2 masked (stretched (items ds) sh tsh) (items target)).
Proof.
  intros ds sh target tsh G F W T. unfold expand_to_present. cbn [Z.eqb].
  destruct (broadcast_slice_ok ds sh tsh _ G F T) as [B1 B2]. split.
  - intros N. rewrite (B1 N). reflexivity.
  - intros P. destruct (B2 P) as (b & E & GB & SB & IB). rewrite E. cbn [bind_out].
    destruct (masked_by b target GB W SB) as (s & E' & GS & SS & IS). rewrite E'. cbn [bind_out].
    exists s. split; auto. split; auto. split; [congruence|]. now rewrite IS, IB.
Qed.
Lemma expand_ndim_ok : forall ds sh target tsh ndim, (ndim < 0 \/ Z.of_nat (length sh) < ndim)%Z ->
  expand_to_present visit ds sh target tsh ndim = Fails ENdim.
Proof.
  intros ds sh target tsh ndim H. unfold expand_to_present.
  rewrite (proj2 (Z.eqb_neq ndim 0)) by lia.
  assert (X : ((ndim <? 0) || (Z.of_nat (length sh) <? ndim))%Z = true) by (rewrite orb_true_iff, !Z.ltb_lt; lia).
  now rewrite X.
Qed.
Lemma expand_lists_ok : forall ds sh target tsh ndim, good_slice ds -> fits 1 sh (s_size ds) ->
  slice_wf target -> fits 1 tsh (s_size target) -> 0 < ndim -> ndim <= length sh ->
  let up := firstn (length sh - ndim) sh in
  (~ (exists r, tsh = up ++ r) -> expand_to_present visit ds sh target tsh (Z.of_nat ndim) = Fails EBroadcast) /\
  ((exists r, tsh = up ++ r) -> exists s below, expand_to_present visit ds sh target tsh (Z.of_nat ndim) = Done (s, tsh ++ below) /\
     good_slice s /\ length below = ndim /\ fits (s_size target) below (s_size s) /\
     forest below (items s) =
       map2 list_or_empty (stretched (forest (skipn (length sh - ndim) sh) (items ds)) up tsh) (items target)).
Proof.
  intros ds sh target tsh ndim G F W T N1 N2 up. unfold expand_to_present.
  rewrite (proj2 (Z.eqb_neq (Z.of_nat ndim) 0)) by lia. rewrite (proj2 (Z.ltb_ge (Z.of_nat ndim) 0)) by lia.
  rewrite (proj2 (Z.ltb_ge (Z.of_nat (length sh)) (Z.of_nat ndim))) by lia. cbn [orb].
  assert (LU : length up = length sh - ndim) by (unfold up; rewrite firstn_length; lia).
  destruct (Z.of_nat (length tsh) <? Z.of_nat (length sh) - Z.of_nat ndim)%Z eqn:C; [apply Z.ltb_lt in C|apply Z.ltb_ge in C].
  { split; [reflexivity|]. intros (r & R). apply (f_equal (@length edge)) in R. rewrite app_length in R. lia. }
  destruct (create_const_ok (s_size target) (Some zero)) as (ZG & ZS & ZI).
  change (create_const (s_size target) (Some zero)) with (create (const_arr zero (s_size target))) in ZG, ZS, ZI.
  change (val KInt64 0%Z) with zero.
  destruct (masked_by _ target ZG W ZS) as (z & E & GZ & SZ & IZ). rewrite E. cbn [bind_out].
  assert (AZ : as_items z = map (masked (Some zero)) (items target)).
  { destruct GZ as (WZ & _). rewrite (proj1 (proj2 (proj2 (readers_ok z WZ)))), IZ, ZI.
    rewrite <- (items_length target) at 1. apply masked_zeros. }
  rewrite Nat2Z.id, AZ. set (x := mkIndex tsh (map (masked (Some zero)) (items target)) true).
  assert (XOK : index_ok x) by (unfold index_ok, x; cbn; now rewrite map_length, items_length).
  pose proof (subslice_ok visit visits ds sh (Range (Some x) None :: repeat full (ndim - 1)) G F) as S.
  assert (AO : Forall arg_ok (Range (Some x) None :: repeat full (ndim - 1))).
  { constructor; [split; intros y Q; [injection Q as <-; exact XOK|discriminate]|].
    apply Forall_forall. intros y Hy. apply repeat_spec in Hy. subst y. exact full_ok. }
  specialize (S AO). unfold sliced in S. cbn [length] in S. rewrite repeat_length in S.
  replace (Datatypes.S (ndim - 1)) with ndim in S by lia. rewrite (proj2 (Nat.ltb_ge _ _)) in S by lia.
  set (r := length sh - ndim) in *. fold up in S.
  destruct (firstn_fits sh _ r F) as (n & FN1 & FN2). fold up in FN1.
  set (ts := forest (skipn r sh) (items ds)) in *.
  assert (LT : length ts = n) by (apply forest_length; now rewrite items_length).
  assert (TK : taken (up, map Some ts) (Range (Some x) None) =
    if is_prefix up tsh then
      let rs := map2 (fun t x => match x with Some _ => children t | None => [] end) (stretched ts up tsh) (items target) in
      Done (tsh ++ [map (@length tree) rs], map Some (concat rs))
    else Fails EBroadcast).
  { unfold taken. cbn [fst snd opt_shape app x_shape x]. rewrite aligned_two by lia.
    destruct (is_prefix up tsh) eqn:P; [|reflexivity]. unfold bounds. cbn [x_shape x_items x_castable x].
    rewrite stretched_same. unfold to_ints. rewrite zeros_ints. cbn [bind_out]. rewrite stretched_map, map_length.
    apply is_prefix_spec in P. destruct P as (q & Q).
    pose proof (prefix_fits _ _ _ _ _ Q FN1 T) as FP. rewrite <- LT in FP. pose proof (stretched_length _ _ _ _ FP) as SL.
    rewrite ranges_zero by (rewrite SL; symmetry; apply items_length). reflexivity. }
  cbn [all_taken] in S. rewrite TK in S.
  destruct (is_prefix up tsh) eqn:P.
  2:{ cbn [bind_out same_outcome] in S. rewrite S. split; [reflexivity|]. intros Q. apply is_prefix_spec in Q. congruence. }
  apply is_prefix_spec in P. split; [contradiction|]. intros _. destruct P as (q & Q).
  pose proof (prefix_fits _ _ _ _ _ Q FN1 T) as FP. rewrite <- LT in FP. pose proof (stretched_length _ _ _ _ FP) as SL.
  cbv zeta in S. cbn [bind_out] in S.
  set (rs := map2 (fun t x => match x with Some _ => children t | None => [] end) (stretched ts up tsh) (items target)) in *.
  destruct (masked_children (ndim - 1) (stretched ts up tsh) (items target)) as [M1 M2].
  { rewrite SL. symmetry. apply items_length. }
  { apply stretched_forall. replace (Datatypes.S (ndim - 1)) with (length (skipn r sh)) by (rewrite skipn_length; unfold r; lia).
    apply forest_deep. }
  fold rs in M1, M2. destruct (all_taken_deep (ndim - 1) (concat rs) (tsh ++ [map (@length tree) rs]) M2) as (es & l & AT & LE & FE & FO).
  match type of S with context [all_taken ?a (repeat full (ndim - 1))] =>
    replace (all_taken a (repeat full (ndim - 1)))
      with (@Done lists ((tsh ++ [map (@length tree) rs]) ++ es, map Some (map Leaf l))) in S by (symmetry; exact AT) end.
  cbn [bind_out fst snd same_outcome] in S. rewrite map_length, map_length, map_length in S.
  destruct S as (s & ES & GS & SS & IS & FS). rewrite ES. exists s, (map (@length tree) rs :: es).
  rewrite <- app_assoc. split; [reflexivity|]. split; auto. split; [cbn; lia|].
  assert (IL : items s = l) by (rewrite IS, !map_map; apply map_id).
  assert (LRS : length rs = s_size target).
  { unfold rs. rewrite map2_len by (now rewrite SL, items_length). exact SL. }
  split.
  - cbn [fits]. rewrite map_length. split; [exact LRS|]. rewrite list_sum_map_concat, SS. exact FE.
  - change (forest (map (@length tree) rs :: es) (items s)) with (group (map (@length tree) rs) (forest es (items s))).
    rewrite IL, FO. unfold group. rewrite concat_chunks. exact M1.
Qed.
End Ops.
