(** C49: slicing with x.S[...] chooses the items that slicing of nested lists does.
    In this file [items] are the items of a slice by position, a shape is the list of its
    edges, an edge the sizes of its groups, and [forest sh l] the items l as nested lists. *)
From Coq Require Import NArith ZArith List Bool Arith Lia Permutation.
From Verif Require Import ObjectIdModel SchemaModel ItemModel SliceModel SliceSpec SliceOpsModel SliceOpsSpec SliceOpsProofs SliceGatherProofs
  SubsliceModel SubsliceSpec SubsliceProofs SubsliceRunProofs SubsliceOpsProofs.
Import ListNotations.
Local Open Scope nat_scope.

(** Shapes are compatible if one of them starts with all the others *)
Theorem C49_common_shape : forall s l,
  (forall c, common_shape s l = Done c <-> In c (s :: l) /\ forall x, In x (s :: l) -> exists r, c = x ++ r) /\
  ((~ exists c, In c (s :: l) /\ forall x, In x (s :: l) -> exists r, c = x ++ r) -> common_shape s l = Fails EBroadcast).
Proof.
  intros s l. rewrite common_aligned. destruct (aligned (s :: l)) as [c|] eqn:A.
  - split.
    + intros c'. split.
      * intros H. injection H as <-. split; [now apply aligned_in|]. intros x Hx. eapply aligned_prefix; eauto.
      * intros [H1 H2]. destruct (aligned_prefix _ _ _ A H1) as (r & R). destruct (H2 c (aligned_in _ _ A)) as (r' & R').
        f_equal. subst c'. rewrite <- app_assoc in R. apply (f_equal (@length edge)) in R. rewrite !app_length in R.
        destruct r'; [now rewrite app_nil_r|cbn in R; lia].
    + intros N. exfalso. apply N. exists c. split; [now apply aligned_in|]. intros x Hx. eapply aligned_prefix; eauto.
  - split; [|reflexivity]. intros c. split; [discriminate|]. intros [H1 H2]. exfalso.
    apply (find_none _ _ A) in H1. assert (X : forallb (fun s => is_prefix s c) (s :: l) = true).
    { apply forallb_forall. intros x Hx. apply is_prefix_spec. auto. }
    congruence.
Qed.

Section Ops.
(** the order in which hash maps are visited *)
Variable visit : list (kind * storage) -> list (kind * storage).
Hypothesis visits : forall m, Permutation (visit m) m.

(** each item is repeated for all positions below it *)
Theorem C49_broadcast : forall ds sh to_ k, good_slice ds -> fits 1 sh (s_size ds) -> fits 1 to_ k ->
  (~ (exists r, to_ = sh ++ r) -> broadcast_slice visit ds sh to_ = Fails EBroadcast) /\
  ((exists r, to_ = sh ++ r) -> exists s, broadcast_slice visit ds sh to_ = Done s /\ good_slice s /\ s_size s = k /\
     items s = stretched (items ds) sh to_).
Proof. exact (broadcast_slice_ok visit visits). Qed.

(** x.S[a, b, ...] is what x[a][b]... is for nested lists: the same items, the same shape, the
    same errors *)
Theorem C49_subslice : forall ds sh args, good_slice ds -> fits 1 sh (s_size ds) -> Forall arg_ok args ->
  same_outcome (subslice visit ds sh args) (sliced (items ds) sh args).
Proof. exact (subslice_ok visit visits). Qed.

(** an ellipsis stands for the dimensions that are not given *)
Theorem C49_ellipsis : forall ds sh l, good_slice ds -> fits 1 sh (s_size ds) -> Forall parg_ok l -> ellipses l <= 1 ->
  same_outcome (kd_subslice visit ds sh l) (sliced (items ds) sh (filled (length sh) l)).
Proof. exact (kd_subslice_ok visit visits). Qed.

(** with [:, :, ...] nothing changes *)
Theorem C49_everything : forall ds sh, good_slice ds -> fits 1 sh (s_size ds) ->
  exists s, subslice visit ds sh (repeat full (length sh)) = Done (s, sh) /\ good_slice s /\ items s = items ds.
Proof. exact (subslice_all_ok visit visits). Qed.

(** kd.take: one index for each list of the last dimension *)
Theorem C49_take : forall ds sh x, good_slice ds -> fits 1 sh (s_size ds) -> index_ok x ->
  (sh = [] -> take visit ds sh x = Fails ERank) /\
  (sh <> [] -> same_outcome (take visit ds sh x) (sliced (items ds) sh [Single x])).
Proof. exact (take_ok visit visits). Qed.

(** kd.expand_to: the item, or the list of the last dimensions, for each position of the
    target that is present *)
Theorem C49_expand_to_present : forall ds sh target tsh, good_slice ds -> fits 1 sh (s_size ds) ->
  slice_wf target -> fits 1 tsh (s_size target) ->
  (~ (exists r, tsh = sh ++ r) -> expand_to_present visit ds sh target tsh 0 = Fails EBroadcast) /\
  ((exists r, tsh = sh ++ r) -> exists s, expand_to_present visit ds sh target tsh 0 = Done (s, tsh) /\ good_slice s /\
     s_size s = s_size target /\ items s = map2 masked (stretched (items ds) sh tsh) (items target)).
Proof. exact (expand_zero_ok visit visits). Qed.
Theorem C49_expand_lists_to_present : forall ds sh target tsh ndim, good_slice ds -> fits 1 sh (s_size ds) ->
  slice_wf target -> fits 1 tsh (s_size target) -> 0 < ndim -> ndim <= length sh ->
  let up := firstn (length sh - ndim) sh in
  (~ (exists r, tsh = up ++ r) -> expand_to_present visit ds sh target tsh (Z.of_nat ndim) = Fails EBroadcast) /\
  ((exists r, tsh = up ++ r) -> exists s below, expand_to_present visit ds sh target tsh (Z.of_nat ndim) = Done (s, tsh ++ below) /\
     good_slice s /\ length below = ndim /\ fits (s_size target) below (s_size s) /\
     forest below (items s) =
       map2 list_or_empty (stretched (forest (skipn (length sh - ndim) sh) (items ds)) up tsh) (items target)).
Proof. exact (expand_lists_ok visit visits). Qed.
Theorem C49_expand_ndim : forall ds sh target tsh ndim, (ndim < 0 \/ Z.of_nat (length sh) < ndim)%Z ->
  expand_to_present visit ds sh target tsh ndim = Fails ENdim.
Proof. exact (expand_ndim_ok visit). Qed.
End Ops.

(** ** The examples of the documentation of kd.subslice *)
Definition i (z : Z) : option value := Some (val KInt32 z).
Definition no_change : list (kind * storage) -> list (kind * storage) := fun m => m.
(** [[[1, 2], [3]], [[4, 5, 6]], [[7], [8, 9]]] *)
Definition x_items_ : list (option value) := map i [1; 2; 3; 4; 5; 6; 7; 8; 9]%Z.
Definition x_ : slice := create (of_list KInt32 x_items_).
Definition x_sh : shape := [[3]; [2; 1; 2]; [2; 1; 3; 1; 2]].
Definition idx (sh : shape) (l : list (option Z)) : index := mkIndex sh (map (option_map (fun z => val KInt32 z)) l) true.
Definition int (z : Z) : index := idx [] [Some z].
Definition rng (a b : option Z) : parg := Arg (Range (option_map int a) (option_map int b)).
Definition one (z : Z) : parg := Arg (Single (int z)).
Definition result (r : outcome (slice * shape)) : option (list (option value) * shape) :=
  match r with Done (s, sh) => Some (items s, sh) | _ => None end.
Definition ints (l : list Z) (sh : shape) : option (list (option value) * shape) := Some (map i l, sh).
(** a slice with values of several types and a missing one, [[5, obj], [None, 'a', 7.0]] *)
Definition mixed_items : list (option value) :=
  [i 5; Some (val KObjectId (mkOid 9 10 0 3)); None; Some (val KText [97%N]); Some (val KFloat32 1088421888%N)].
Definition mixed_sh : shape := [[2]; [2; 3]].
Example C49_hypotheses_met :
  (forall m, Permutation (no_change m) m) /\
  (good_slice x_ /\ items x_ = x_items_ /\ fits 1 x_sh (s_size x_)) /\
  (exists s, create_items no_change mixed_items = Some s /\ good_slice s /\ fits 1 mixed_sh (s_size s)) /\
  Forall parg_ok [Arg (Single (idx [[2]] [Some 1%Z; Some 2%Z])); Ellipsis; rng (Some 1%Z) None] /\
  (* 1-9 *)
  result (kd_subslice no_change x_ x_sh [one 0]) = ints [1; 3; 4; 7; 8]%Z [[3]; [2; 1; 2]] /\
  result (kd_subslice no_change x_ x_sh [one 0; one 1; one 0]) = ints [3]%Z [] /\
  result (kd_subslice no_change x_ x_sh [rng (Some 0%Z) (Some (-1)%Z)]) =
    ints [1; 4; 5; 8]%Z [[3]; [2; 1; 2]; [1; 0; 2; 0; 1]] /\
  result (kd_subslice no_change x_ x_sh [rng (Some 0%Z) (Some (-1)%Z); rng (Some 0%Z) (Some 1%Z); rng (Some 1%Z) None]) =
    ints [2; 5; 6]%Z [[2]; [1; 1]; [1; 2]] /\
  result (kd_subslice no_change x_ x_sh
            [Arg (Single (idx [[2]] [Some 1%Z; Some 2%Z]));
             Arg (Single (idx [[2]; [2; 2]] [Some 0%Z; Some 0%Z; Some 1%Z; Some 0%Z])); one 0]) =
    ints [4; 4; 8; 7]%Z [[2]; [2; 2]] /\
  result (kd_subslice no_change x_ x_sh [Arg (Single (idx [[2]] [Some 1%Z; Some 2%Z])); Ellipsis]) =
    ints [4; 5; 6; 7; 8; 9]%Z [[2]; [1; 2]; [3; 1; 2]] /\
  result (kd_subslice no_change x_ x_sh [Ellipsis; rng (Some 1%Z) None]) =
    ints [2; 5; 6; 9]%Z [[3]; [2; 1; 2]; [1; 0; 2; 0; 1]] /\
  result (kd_subslice no_change x_ x_sh [one 2; Ellipsis; rng (Some 1%Z) None]) = ints [9]%Z [[2]; [0; 1]] /\
  kd_subslice no_change x_ x_sh [one 1; one 2; one 3; one 4] = Fails EMany /\
  (* shapes that do not fit, and indices that are not integers *)
  kd_subslice no_change x_ x_sh [Arg (Single (idx [[2]] [Some 0%Z; Some 0%Z]))] = Fails EBroadcast /\
  kd_subslice no_change x_ x_sh [Arg (Single (mkIndex [] [Some (val KText [97%N])] true))] = Fails ECast /\
  (* missing indices and bounds *)
  result (kd_subslice no_change x_ x_sh [Arg (Single (idx [[3]] [Some 0%Z; None; Some 5%Z])); rng None None]) =
    ints [1; 2]%Z [[3]; [2; 0; 0]] /\
  result (kd_subslice no_change x_ x_sh [Arg (Range (Some (idx [[3]] [Some 0%Z; None; Some (-7)%Z])) None); one 0]) =
    ints [1; 3; 7; 8]%Z [[3]; [2; 0; 2]] /\
  match create_items no_change mixed_items with
  | Some s =>
      result (take no_change s mixed_sh (idx [[2]; [3; 1]] [Some 1%Z; Some 0%Z; None; Some (-2)%Z])) =
        Some ([Some (val KObjectId (mkOid 9 10 0 3)); i 5; None; Some (val KText [97%N])], [[2]; [3; 1]]) /\
      result (expand_to_present no_change s mixed_sh (create (of_list KUnit [None; Some the_unit; Some the_unit])) [[2]; [1; 2]] 1) =
        Some ([None; Some (val KText [97%N]); Some (val KFloat32 1088421888%N); None; Some (val KText [97%N]); Some (val KFloat32 1088421888%N)],
              [[2]; [1; 2]; [0; 3; 3]])
  | None => False
  end.
Proof.
  split; [intros m; apply Permutation_refl|]. split; [|split; [|split]].
  - destruct (create_good (length x_items_) (of_list KInt32 x_items_)) as (A & B & C).
    { apply of_list_ok. intros v Hv. cbn in Hv. repeat (destruct Hv as [Hv|Hv]; [injection Hv as <-; reflexivity|]). contradiction. }
    split; [exact A|]. split; [reflexivity|]. vm_compute. repeat split.
  - destruct (create_items_ok no_change ltac:(intros m; apply Permutation_refl) mixed_items) as (s & E & GS & S & _).
    exists s. split; auto. split; auto. rewrite S. vm_compute. repeat split.
  - repeat constructor; cbn; try discriminate; intros y E; injection E as <-; reflexivity.
  - vm_compute. repeat split.
Qed.

Print Assumptions C49_common_shape.
Print Assumptions C49_broadcast.
Print Assumptions C49_subslice.
Print Assumptions C49_ellipsis.
Print Assumptions C49_everything.
Print Assumptions C49_take.
Print Assumptions C49_expand_to_present.
Print Assumptions C49_expand_lists_to_present.
Print Assumptions C49_expand_ndim.
