(** Property C48: operators on slices return what they should at each position. *)
From Coq Require Import NArith ZArith List Bool Arith Lia Permutation.
From Verif Require Import ObjectIdModel SchemaModel ItemModel SliceModel SliceSpec SliceProofs SliceBuildProofs
  SliceOpsModel SliceOpsSpec SliceOpsProofs SliceOrProofs SliceGatherProofs SliceShapeProofs.
From Verif Require BagModel SliceReadProofs.
Import ListNotations.
Local Open Scope nat_scope.

(** ** Presence *)
Theorem C48_has : forall s, slice_wf s ->
  good_slice (has s) /\ s_size (has s) = s_size s /\ items (has s) = map has_item (items s).
Proof. exact has_ok. Qed.

Section Operators.
(** the order in which hash maps are visited *)
Variable visit : list (kind * storage) -> list (kind * storage).
Hypothesis visits : forall m, Permutation (visit m) m.

Theorem C48_presence_and : forall ds mask, good_slice ds -> slice_wf mask ->
  (s_size ds <> s_size mask -> presence_and visit ds mask = Fails ESizes) /\
  (s_size ds = s_size mask -> ~ is_mask (items mask) -> presence_and visit ds mask = Fails EMask) /\
  (s_size ds = s_size mask -> is_mask (items mask) ->
   exists s, presence_and visit ds mask = Done s /\ good_slice s /\ s_size s = s_size ds /\
     items s = map2 masked (items ds) (items mask)).
Proof. exact (presence_and_ok visit visits). Qed.

Theorem C48_presence_and_item : forall ds flag, good_slice ds ->
  (~ is_mask [flag] -> presence_and_item ds flag = Fails EMask) /\
  (is_mask [flag] -> exists s, presence_and_item ds flag = Done s /\ good_slice s /\ s_size s = s_size ds /\
     items s = map (fun x => masked x flag) (items ds)).
Proof. exact presence_and_item_ok. Qed.

(** [disjoint]: no position may have a value in both slices *)
Theorem C48_presence_or : forall disjoint l r, good_slice l -> good_slice r ->
  (s_size l <> s_size r -> presence_or visit disjoint l r = Fails ESizes) /\
  (s_size l = s_size r -> disjoint = true -> overlap (items l) (items r) ->
   presence_or visit disjoint l r = Fails EOverlap) /\
  (s_size l = s_size r -> (disjoint = true -> ~ overlap (items l) (items r)) ->
   exists s, presence_or visit disjoint l r = Done s /\ good_slice s /\ s_size s = s_size l /\
     items s = map2 either (items l) (items r)).
Proof. exact (presence_or_ok visit visits). Qed.

Theorem C48_presence_or_item : forall disjoint l x, good_slice l ->
  (disjoint = true -> overlap (items l) (repeat x (s_size l)) ->
   presence_or_item visit disjoint l x = Fails EOverlap) /\
  ((disjoint = true -> ~ overlap (items l) (repeat x (s_size l))) ->
   exists s, presence_or_item visit disjoint l x = Done s /\ good_slice s /\ s_size s = s_size l /\
     items s = map (fun y => either y x) (items l)).
Proof. exact (presence_or_item_ok visit visits). Qed.

Theorem C48_coalesce_with_filtered : forall filter l r, slice_wf filter -> good_slice l -> good_slice r ->
  (s_size r <> s_size filter \/ s_size l <> s_size r -> coalesce_with_filtered visit filter l r = Fails ESizes) /\
  (s_size r = s_size filter -> s_size l = s_size r ->
   exists s, coalesce_with_filtered visit filter l r = Done s /\ good_slice s /\ s_size s = s_size l /\
     items s = map2 either (items l) (map2 masked (items r) (items filter))).
Proof. exact (coalesce_ok visit visits). Qed.

(** ** Positions and groups *)
Theorem C48_at : forall ds idx, good_slice ds ->
  exists s, at_ visit ds idx = Done s /\ good_slice s /\ s_size s = length idx /\
    items s = map (item_at_index (items ds)) idx.
Proof. exact (at_ok visit visits). Qed.

Theorem C48_expand : forall ds e, good_slice ds -> length e = s_size ds ->
  exists s, expand visit ds e = Done s /\ good_slice s /\ s_size s = child_size e /\ items s = expanded (items ds) e.
Proof. exact (expand_ok visit visits). Qed.
Theorem C48_expand_item : forall x e, good_slice (expand_item x e) /\
  s_size (expand_item x e) = child_size e /\ items (expand_item x e) = repeat x (child_size e).
Proof. exact expand_item_ok. Qed.

Theorem C48_collapse : forall eqb ds e, good_slice ds -> child_size e = s_size ds ->
  exists s, collapse visit eqb ds e = Done s /\ good_slice s /\ s_size s = length e /\
    forall p v, p < length e ->
      (nth p (items s) None = Some v <-> collapses eqb (nth p (chunks e (items ds)) []) v).
Proof.
  intros eqb ds e G L. destruct (collapse_ok visit visits eqb ds e G L) as (s & E & GS & S' & I).
  exists s. split; auto. split; auto. split; auto. intros p v Hp. rewrite I.
  rewrite (nth_indep _ None (collapse_group eqb [])) by (rewrite map_length, chunks_length; auto).
  rewrite map_nth. apply collapse_group_spec.
Qed.
(** what is expanded and collapsed again is the same, unless a group is empty *)
Theorem C48_collapse_expanded : forall eqb ds e, good_slice ds -> length e = s_size ds ->
  (forall v, eqb v v = true) ->
  exists s t, expand visit ds e = Done s /\ collapse visit eqb s e = Done t /\
    items t = map2 (fun x n => if n =? 0 then None else x) (items ds) e.
Proof.
  intros eqb ds e G L RE. destruct (expand_ok visit visits ds e G L) as (s & E & GS & S' & I).
  destruct (collapse_ok visit visits eqb s e GS) as (t & Et & _ & _ & It); auto. exists s, t. split; auto. split; auto.
  rewrite It, I. assert (Q : length e = length (items ds)) by now rewrite items_length. revert Q.
  generalize (items ds) as l. clear - RE. induction e as [|n e IH]; intros [|x l] Q; auto; try discriminate.
  rewrite expanded_cons. cbn [chunks map map2].
  rewrite firstn_app, skipn_app, repeat_length, Nat.sub_diag. cbn [firstn skipn]. rewrite app_nil_r.
  rewrite firstn_all2, skipn_all2 by now rewrite repeat_length. cbn [app]. f_equal.
  - destruct n as [|n]; [reflexivity|]. cbn [Nat.eqb]. destruct x as [v|].
    + apply collapse_group_spec. exists [], (repeat (Some v) n). split; [reflexivity|]. split; [intros x []|].
      intros w Hw. apply repeat_spec in Hw. assert (w = v) by congruence. subst. apply RE.
    + destruct (collapse_group eqb (repeat None (S n))) as [v|] eqn:C; auto. apply collapse_group_spec in C.
      destruct C as (g1 & g2 & C & _). assert (X : In (Some v) (repeat None (S n))).
      { rewrite C. apply in_app_iff. right. now left. }
      apply repeat_spec in X. discriminate.
  - apply IH. cbn in Q. lia.
Qed.

(** ** Shapes *)
(** The filter has the first dimensions of the slice; the elements of its last
    dimension [e] at which it is missing are removed with all that is below them. *)
Theorem C48_select : forall ds sh filter fsh, good_slice ds -> slice_wf filter ->
  fits 1 sh (s_size ds) -> fits 1 fsh (s_size filter) ->
  (length fsh = 0 \/ length sh < length fsh -> select visit ds sh filter fsh = Fails ERank) /\
  (0 < length fsh <= length sh -> ~ (exists below, sh = fsh ++ below) -> select visit ds sh filter fsh = Fails EBroadcast) /\
  (0 < length fsh -> (exists below, sh = fsh ++ below) -> ~ is_mask (items filter) -> select visit ds sh filter fsh = Fails EMask) /\
  (forall up e below, fsh = up ++ [e] -> sh = up ++ e :: below -> is_mask (items filter) ->
   exists s sh', select visit ds sh filter fsh = Done (s, sh') /\ good_slice s /\ fits 1 sh' (s_size s) /\
     length sh' = length sh /\ firstn (length up) sh' = up /\
     forest sh' (items s) =
       fold_right group (map Node (map2 kept (chunks e (items filter)) (chunks e (forest below (items ds))))) up /\
     (below = [] -> sh' = up ++ [map (fun g => length (List.filter present_item g)) (chunks e (items filter))] /\
        items s = kept (items filter) (items ds))).
Proof. exact (select_ok visit visits). Qed.

Theorem C48_inverse_select : forall ds sh filter up e, good_slice ds -> slice_wf filter ->
  fits 1 sh (s_size ds) -> fits 1 (up ++ [e]) (s_size filter) ->
  let counts := map (fun g => length (List.filter present_item g)) (chunks e (items filter)) in
  (~ is_mask (items filter) -> inverse_select visit ds sh filter (up ++ [e]) = Fails EMask) /\
  (is_mask (items filter) -> sh <> up ++ [counts] -> inverse_select visit ds sh filter (up ++ [e]) = Fails EShape) /\
  (is_mask (items filter) -> sh = up ++ [counts] ->
   exists s, inverse_select visit ds sh filter (up ++ [e]) = Done s /\ good_slice s /\ s_size s = s_size filter /\
     items s = spread (items filter) (items ds)).
Proof. exact (inverse_select_ok visit visits). Qed.

(** items that are selected and put back are where they were *)
Theorem C48_select_put_back : forall ds sh filter, good_slice ds -> slice_wf filter -> sh <> [] ->
  fits 1 sh (s_size ds) -> fits 1 sh (s_size filter) -> is_mask (items filter) ->
  exists s sh' t, select visit ds sh filter sh = Done (s, sh') /\ inverse_select visit s sh' filter sh = Done t /\
    good_slice t /\ items t = map2 masked (items ds) (items filter).
Proof. exact (put_back visit visits). Qed.
Theorem C48_put_back_selected : forall ds sh filter up e, good_slice ds -> slice_wf filter ->
  fits 1 sh (s_size ds) -> fits 1 (up ++ [e]) (s_size filter) -> is_mask (items filter) ->
  sh = up ++ [map (fun g => length (List.filter present_item g)) (chunks e (items filter))] ->
  exists s t, inverse_select visit ds sh filter (up ++ [e]) = Done s /\
    select visit s (up ++ [e]) filter (up ++ [e]) = Done (t, sh) /\ good_slice t /\ items t = items ds.
Proof. exact (take_out visit visits). Qed.

Theorem C48_reverse : forall ds, slice_wf ds ->
  reverse visit ds [] = Done ds /\
  forall up e, child_size e = s_size ds ->
  exists s, reverse visit ds (up ++ [e]) = Done s /\ slice_wf s /\ s_size s = s_size ds /\
    items s = concat (map (@rev (option value)) (chunks e (items ds))) /\
    (good_slice ds -> (forall o, ~ In (Some (val KObjectId o)) (items ds)) -> good_slice s) /\
    exists t, reverse visit s (up ++ [e]) = Done t /\ items t = items ds.
Proof.
  intros ds W. split. { unfold reverse. cbn [rev]. destruct (is_empty_unknown ds); reflexivity. }
  intros up e L. destruct (reverse_ok visit visits ds up e W L) as (s & E & Ws & S' & I & _).
  exists s. split; auto. split; auto. split; auto. split; auto. split.
  - intros G NO. destruct (reverse_good visit visits ds up e G L NO) as (s' & E' & G'). congruence.
  - destruct (reverse_twice visit visits ds up e W L) as (s' & t & E1 & E2 & _ & I2). exists t. split; auto.
    assert (s' = s) by congruence. subst. exact E2.
Qed.

(** Finding: the operators keep the allocations of objects, which is where attributes
    are looked up, but the reversed slice knows none: its attributes are all missing,
    whatever is in the bags. *)
Definition objects_of (s : slice) : list (option ObjectId) :=
  map (fun x : option value => match x with Some (existT _ KObjectId o) => Some o | _ => None end) (items s).
Theorem C48_reverse_keeps_allocations_refuted :
  exists ds up e, good_slice ds /\ child_size e = s_size ds /\ fits 1 (up ++ [e]) (s_size ds) /\
  exists s, reverse visit ds (up ++ [e]) = Done s /\ ~ allocs_wf s /\
    (exists o, In (Some o) (objects_of s)) /\
    forall bags attr layers with_removed,
      BagModel.get_attrs layers attr (al_big (s_allocs s)) (al_small (s_allocs s)) (objects_of s) bags with_removed =
      map (fun _ => None) (objects_of s).
Proof.
  set (o := mkOid 9 10 0 3). destruct (create_const_ok 2 (Some (val KObjectId o))) as (G & S' & I).
  set (ds := create_const 2 (Some (val KObjectId o))) in *.
  assert (L : child_size [2] = s_size ds) by (rewrite S'; reflexivity).
  exists ds, [], [2]. split; auto. split; auto. split; [rewrite S'; cbn; auto|].
  destruct (reverse_ok visit visits ds [] [2] (proj1 G) L) as (s & E & Ws & Ss & Is & A).
  assert (IS : items s = [Some (val KObjectId o); Some (val KObjectId o)]).
  { rewrite Is, I. reflexivity. }
  assert (NA : s_allocs s = no_allocs).
  { destruct A as [A|[_ A]]; auto. exfalso. rewrite empty_items in I by auto. rewrite S' in I. discriminate. }
  exists s. split; [exact E|]. split.
  - intros AW. assert (X : item_at s 0 = Some (val KObjectId o)).
    { rewrite <- nth_items by (rewrite Ss, S'; lia). now rewrite IS. }
    specialize (AW 0 o ltac:(rewrite Ss, S'; lia) X). rewrite NA in AW. vm_compute in AW. exact AW.
  - split.
    + exists o. unfold objects_of. rewrite IS. now left.
    + intros bags attr layers w. rewrite NA. apply SliceReadProofs.no_ids_no_values.
Qed.
End Operators.

(** A slice of a number, two objects, a text and a missing item in the shape
    [[a, b], [c, d, e]]: the second group is selected, or the present items. *)
Definition n32 (z : Z) : option value := Some (val KInt32 z).
Definition obj1 : option value := Some (val KObjectId (mkOid 9 10 0 3)).
Definition obj2 : option value := Some (val KObjectId (mkOid 9 10 1 3)).
Definition text : option value := Some (val KText [97%N]).
Definition yes : option value := Some the_unit.
Definition five : list (option value) := [n32 5; obj1; None; text; obj2].
Definition in_order (m : list (kind * storage)) : list (kind * storage) := rev m.
Definition nested : shape := [[2]; [2; 3]].
Definition then_items (r : outcome slice) : list (option value) := match r with Done s => items s | _ => [] end.
Example C48_hypotheses_met :
  (forall m, Permutation (in_order m) m) /\
  (exists ds mask, create_items in_order five = Some ds /\ good_slice ds /\ s_size ds = 5 /\ fits 1 nested 5 /\
     create_items in_order [None; yes] = Some mask /\ slice_wf mask /\ is_mask (items mask) /\ fits 1 [[2]] (s_size mask)) /\
  match create_items in_order five, create_items in_order [None; yes], create_items in_order [yes; yes; yes; None; yes] with
  | Some ds, Some mask, Some mask5 =>
      is_mixed ds = true /\
      (match select in_order ds nested mask [[2]] with
       | Done (s, sh) => items s = [None; text; obj2] /\ sh = [[1]; [3]]
       | _ => False
       end) /\
      then_items (presence_and in_order ds mask5) = [n32 5; obj1; None; None; obj2] /\
      (match select in_order ds nested mask5 nested with
       | Done (s, sh) => items s = [n32 5; obj1; None; obj2] /\ sh = [[2]; [2; 2]] /\
           then_items (inverse_select in_order s sh mask5 nested) = [n32 5; obj1; None; None; obj2]
       | _ => False
       end) /\
      then_items (reverse in_order ds nested) = [obj1; n32 5; obj2; text; None] /\
      then_items (presence_or in_order false ds mask5) = [n32 5; obj1; yes; text; obj2] /\
      presence_or in_order true ds mask5 = Fails EOverlap /\
      then_items (at_ in_order ds [Some (-1)%Z; None; Some 7%Z; Some 0%Z]) = [obj2; None; None; n32 5] /\
      then_items (expand in_order ds [2; 0; 1; 1; 3]) = [n32 5; n32 5; None; text; obj2; obj2; obj2] /\
      then_items (collapse in_order (fun _ _ => false) ds [2; 1; 2]) = [None; None; None] /\
      then_items (collapse in_order (fun _ _ => false) ds [1; 2; 2]) = [n32 5; obj1; None]
  | _, _, _ => False
  end.
Proof.
  assert (V : forall m, Permutation (in_order m) m) by (intros m; apply Permutation_sym, Permutation_rev).
  split; [exact V|]. split.
  - destruct (create_items_ok in_order V five) as (ds & E1 & G1 & S1 & I1).
    destruct (create_items_ok in_order V [None; yes]) as (m & E2 & G2 & S2 & I2).
    exists ds, m. split; [exact E1|]. split; [exact G1|]. split; [exact S1|]. split; [cbn; auto|].
    split; [exact E2|]. split; [apply G2|]. split; [rewrite I2; constructor; [now left|]; constructor; [now right|constructor]|].
    rewrite S2. cbn. auto.
  - vm_compute. repeat split; reflexivity.
Qed.

Print Assumptions C48_has.
Print Assumptions C48_presence_and.
Print Assumptions C48_presence_and_item.
Print Assumptions C48_presence_or.
Print Assumptions C48_presence_or_item.
Print Assumptions C48_coalesce_with_filtered.
Print Assumptions C48_at.
Print Assumptions C48_expand.
Print Assumptions C48_expand_item.
Print Assumptions C48_collapse.
Print Assumptions C48_collapse_expanded.
Print Assumptions C48_select.
Print Assumptions C48_inverse_select.
Print Assumptions C48_select_put_back.
Print Assumptions C48_put_back_selected.
Print Assumptions C48_reverse.
Print Assumptions C48_reverse_keeps_allocations_refuted.
