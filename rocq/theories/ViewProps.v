(** * C40, C41 and C42: kv views. *)

From Coq Require Import List Arith Bool ZArith Lia Permutation Sorted.
From Verif Require Import ViewModel ViewSpec ViewOpsProofs ViewLawsProofs
  ViewFlattenProofs ViewGroupProofs ViewMainProofs.
Import ListNotations.
Local Open Scope nat_scope.

(** ** C40: select and inverse_select *)

(** The views of the examples: two lists of three and two items, and a
    filter. *)
Definition ex_view : view :=
  View (PTuple [PTuple [PAtom 1; PNone; PAtom 3];
                PTuple [PAtom 4; PAtom 5]]) 2.
Definition ex_filter : view :=
  View (PTuple [PTuple [PPresent; PPresent; PNone];
                PTuple [PNone; PPresent]]) 2.
Definition ex_outer : view := View (PTuple [PNone; PPresent]) 1.

(** A filter keeps exactly the items whose filter is present, in order.
    Positions above stay as they are, and nothing else in memory changes. *)
Theorem C40_select_keeps_present_items : forall fltr e v h h' r,
  good v -> good fltr -> select fltr e v h = (h', Ok r) ->
  let below := if e then v_depth v else v_depth fltr in
  h' = h /\ v_depth fltr <= v_depth v /\ 0 < below /\
  aligned [v; fltr] /\ v_depth r = v_depth v /\ good r /\
  same_shape (below - 1) (v_obj r) (v_obj v) /\
  (forall p xs, length p = below - 1 ->
     at_ p (v_obj v) = Some (PTuple xs) ->
     exists fs, filters_at fltr p (length xs) fs /\ Forall mask fs /\
                at_ p (v_obj r) = Some (PTuple (kept xs fs))).
Proof. exact select_ok. Qed.

(** A filter of matching shape and with mask values always works. *)
Theorem C40_select_succeeds : forall fltr (e : bool) v h,
  good v -> good fltr -> v_depth fltr <= v_depth v ->
  0 < (if e then v_depth v else v_depth fltr) ->
  aligned [v; fltr] ->
  (forall p b, length p = v_depth fltr -> at_ p (v_obj fltr) = Some b ->
     mask b) ->
  exists r, select fltr e v h = (h, Ok r).
Proof. exact select_total. Qed.

Example C40_select_example : exists r,
  select ex_filter true ex_view [] = ([], Ok r) /\
  v_obj r = PTuple [PTuple [PAtom 1; PNone]; PTuple [PAtom 5]].
Proof. eexists. vm_compute. repeat split; reflexivity. Qed.

Example C40_select_outer_example : exists r,
  select ex_outer false ex_view [] = ([], Ok r) /\
  v_obj r = PTuple [PTuple [PAtom 4; PAtom 5]].
Proof. eexists. vm_compute. repeat split; reflexivity. Qed.

Example C40_select_expanded_example : exists r,
  select ex_outer true ex_view [] = ([], Ok r) /\
  v_obj r = PTuple [PTuple []; PTuple [PAtom 4; PAtom 5]].
Proof. eexists. vm_compute. repeat split; reflexivity. Qed.

(** The hypotheses of C40_select_succeeds hold in the first example. *)
Example C40_hypotheses_met :
  good ex_view /\ good ex_filter /\ aligned [ex_view; ex_filter].
Proof.
  split; [|split].
  - unfold good. cbn. eexists. split; [reflexivity|].
    repeat constructor; eexists; (split; [reflexivity|]);
      repeat constructor.
  - unfold good. cbn. eexists. split; [reflexivity|].
    repeat constructor; eexists; (split; [reflexivity|]);
      repeat constructor.
  - apply (select_ok ex_filter true ex_view [] []
             (View (PTuple [PTuple [PAtom 1; PNone]; PTuple [PAtom 5]]) 2)).
    + unfold good. cbn. eexists. split; [reflexivity|].
      repeat constructor; eexists; (split; [reflexivity|]);
        repeat constructor.
    + unfold good. cbn. eexists. split; [reflexivity|].
      repeat constructor; eexists; (split; [reflexivity|]);
        repeat constructor.
    + reflexivity.
Qed.

(** inverse_select puts the items back where the filter is present, and
    leaves the other places missing. *)
Theorem C40_inverse_select_fills : forall m w h h' r,
  good w -> good m -> inverse_select m w h = (h', Ok r) ->
  h' = h /\ v_depth m = v_depth w /\ 0 < v_depth w /\
  v_depth r = v_depth w /\ good r /\
  same_shape (v_depth w) (v_obj r) (v_obj m) /\
  same_shape (v_depth w - 1) (v_obj r) (v_obj w) /\
  (forall p xs fs, length p = v_depth w - 1 ->
     at_ p (v_obj w) = Some (PTuple xs) ->
     at_ p (v_obj m) = Some (PTuple fs) ->
     exists ys, at_ p (v_obj r) = Some (PTuple ys) /\ filled xs fs ys).
Proof. exact inverse_ok. Qed.

Theorem C40_inverse_select_succeeds : forall m w h,
  good w -> good m -> v_depth m = v_depth w -> 0 < v_depth w ->
  same_shape (v_depth w - 1) (v_obj w) (v_obj m) ->
  (forall p xs fs, length p = v_depth w - 1 ->
     at_ p (v_obj w) = Some (PTuple xs) ->
     at_ p (v_obj m) = Some (PTuple fs) ->
     Forall mask fs /\ length xs = length (filter is_present fs)) ->
  exists r, inverse_select m w h = (h, Ok r).
Proof. exact inverse_total. Qed.

(** Putting back what was selected gives the view masked by the filter. *)
Theorem C40_inverse_select_after_select : forall m e v h h1 r,
  good v -> good m -> v_depth m = v_depth v ->
  select m e v h = (h1, Ok r) ->
  exists r', inverse_select m r h = (h, Ok r') /\
             presence_and v m h = (h, Ok r').
Proof. exact select_then_inverse. Qed.

(** Selecting what was put back gives the view itself. *)
Theorem C40_select_after_inverse_select : forall m e w h h1 r,
  good w -> good m -> inverse_select m w h = (h1, Ok r) ->
  select m e r h = (h, Ok w).
Proof. exact inverse_then_select. Qed.

(** What masking by a filter means. *)
Theorem C40_masking_is_pointwise : forall v m h h' r,
  presence_and v m h = (h', Ok r) ->
  h' = h /\ aligned [v; m] /\
  v_depth r = Nat.max (v_depth v) (v_depth m) /\ good r /\
  (forall p z, length p = v_depth r ->
     (at_ p (v_obj r) = Some z <->
      exists x b, at_ (firstn (v_depth v) p) (v_obj v) = Some x /\
                  at_ (firstn (v_depth m) p) (v_obj m) = Some b /\
                  ((b = PPresent /\ z = x) \/
                   ((b = PNone \/ x = PNone) /\ z = PNone)))).
Proof. exact and_ok. Qed.

Example C40_inverse_example :
  let w := View (PTuple [PTuple [PAtom 1; PNone]; PTuple [PAtom 5]]) 2 in
  exists r, inverse_select ex_filter w [] = ([], Ok r) /\
    v_obj r = PTuple [PTuple [PAtom 1; PNone; PNone];
                      PTuple [PNone; PAtom 5]] /\
    presence_and ex_view ex_filter [] = ([], Ok r) /\
    select ex_filter true r [] = ([], Ok w).
Proof. eexists. vm_compute. repeat split; reflexivity. Qed.

(** ** C41: map, explode, implode, flatten and expand *)

(** map calls the function once for every position of the deepest view, depth
    first, and puts the results at the same positions; the first exception
    ends it.  [call] skips the function if an item is missing and missing
    items are not included. *)
Theorem C41_map_calls_in_order : forall vs v,
  vs <> [] -> Forall good vs -> aligned vs ->
  In v vs -> v_depth v = depth_of vs ->
  exists rows,
    Forall2 (row vs) (positions (depth_of vs) (v_obj v)) rows /\
    forall f inc h,
      match mapM (call f inc) rows h with
      | (h', Raise e) => map_ f 0 (Some inc) vs h = (h', Raise e)
      | (h', Ok ys) =>
          exists r, map_ f 0 (Some inc) vs h = (h', Ok r) /\
            v_depth r = depth_of vs /\ good r /\
            (forall e, e <= depth_of vs ->
               positions e (v_obj r) = positions e (v_obj v)) /\
            leaves (depth_of vs) (v_obj r) = ys
      end.
Proof. exact map_calls. Qed.

(** By default missing items are not included. *)
Theorem C41_map_default : forall f vs,
  map_ f 0 None vs = map_ f 0 (Some false) vs.
Proof. exact map_default. Qed.

(** map rejects views that are not aligned, whatever the function. *)
Theorem C41_map_rejects_unaligned : forall f inc vs h h' r,
  map_ f 0 inc vs h = (h', Ok r) ->
  vs <> [] /\ Forall good vs /\ aligned vs.
Proof. exact map_rejects. Qed.

(** For a function without effects map is pointwise. *)
Theorem C41_map_is_pointwise : forall f inc vs h h' r,
  map_ (pure f) 0 (Some inc) vs h = (h', Ok r) ->
  h' = h /\ Forall good vs /\ aligned vs /\
  v_depth r = depth_of vs /\ good r /\
  (forall p, length p <= depth_of vs ->
     ((exists o, at_ p (v_obj r) = Some o) <-> exists xs, row vs p xs)) /\
  (forall p y, length p = depth_of vs ->
     (at_ p (v_obj r) = Some y <->
      exists xs, row vs p xs /\ applied f inc xs y)).
Proof. exact map_pointwise. Qed.

Theorem C41_map_succeeds : forall f inc vs h,
  vs <> [] -> Forall good vs -> aligned vs ->
  (forall p xs, length p = depth_of vs -> row vs p xs ->
     exists y, applied f inc xs y) ->
  exists r, map_ (pure f) 0 (Some inc) vs h = (h, Ok r).
Proof. exact map_total. Qed.

(** With ndim, the function gets the structures below the outer dimensions,
    of the views expanded to a common shape. *)
Theorem C41_map_with_ndim : forall f n vs h h' r,
  0 < n -> Forall good vs ->
  map_ (pure f) (Z.of_nat n) None vs h = (h', Ok r) ->
  h' = h /\ aligned vs /\ n <= depth_of vs /\
  v_depth r = depth_of vs - n /\ good r /\
  exists ws, Forall2 (aligned_to (depth_of vs)) vs ws /\
    forall p y, length p = depth_of vs - n ->
      (at_ p (v_obj r) = Some y <->
       exists xs, Forall2 (fun w x => at_ p (v_obj w) = Some x) ws xs /\
                  f xs = Ok y).
Proof. exact map_ndim. Qed.

Example C41_map_example : exists r,
  map_ (pure (fun xs => Ok (PTuple xs))) 0 (Some false)
    [ex_view; ex_outer] [] = ([], Ok r) /\
  v_obj r = PTuple [PTuple [PNone; PNone; PNone];
                    PTuple [PTuple [PAtom 4; PPresent];
                            PTuple [PAtom 5; PPresent]]].
Proof. eexists. vm_compute. repeat split; reflexivity. Qed.

Example C41_map_ndim_example : exists r,
  map_ (pure (fun xs => Ok (PTuple xs))) 1 None
    [ex_view; ex_outer] [] = ([], Ok r) /\ v_depth r = 1 /\
  at_ [1] (v_obj r) = Some (PTuple [PTuple [PAtom 4; PAtom 5];
                                    PTuple [PPresent; PPresent]]).
Proof. eexists. vm_compute. repeat split; reflexivity. Qed.

(** align repeats the shallower views. *)
Theorem C41_align_expands : forall vs h h' ws,
  Forall good vs -> align vs h = (h', Ok ws) ->
  h' = h /\ Forall2 (aligned_to (depth_of vs)) vs ws /\
  (forall v w, In v vs -> In w ws -> v_depth v = depth_of vs ->
     same_shape (depth_of vs) (v_obj w) (v_obj v)) /\
  aligned vs.
Proof. exact align_ok. Qed.

Theorem C41_align_succeeds : forall vs h,
  Forall good vs -> aligned vs -> exists ws, align vs h = (h, Ok ws).
Proof. exact align_total. Qed.

(** explode replaces each item by the tuple of its elements. *)
Theorem C41_explode : forall iterate v h h' r,
  good v -> explode iterate 1 v h = (h', Ok r) ->
  h' = h /\ v_depth r = S (v_depth v) /\ good r /\
  same_shape (v_depth v) (v_obj r) (v_obj v) /\
  (forall p x, length p = v_depth v -> at_ p (v_obj v) = Some x ->
     exists xs, elements iterate h x = Some xs /\
                at_ p (v_obj r) = Some (PTuple xs)).
Proof. exact explode_one. Qed.

Theorem C41_explode_succeeds : forall iterate v h,
  good v ->
  (forall p x, length p = v_depth v -> at_ p (v_obj v) = Some x ->
     exists xs, elements iterate h x = Some xs) ->
  exists r, explode iterate 1 v h = (h, Ok r).
Proof. exact explode_succeeds. Qed.

(** Exploding several dimensions is exploding one after the other. *)
Theorem C41_explode_several : forall iterate n m v h,
  explode iterate (Z.of_nat n + Z.of_nat m) v h =
  bind (explode iterate (Z.of_nat n) v) (explode iterate (Z.of_nat m)) h.
Proof. exact explode_more. Qed.

(** explode after implode, and implode after explode. *)
Theorem C41_explode_after_implode : forall iterate n v w h,
  good v -> implode (Z.of_nat n) v = Ok w ->
  explode iterate (Z.of_nat n) w h = (h, Ok v).
Proof. exact explode_implode. Qed.

Theorem C41_implode_after_explode : forall iterate n v h,
  shaped (v_depth v + n) (v_obj v) ->
  exists r, explode iterate (Z.of_nat n) v h = (h, Ok r) /\
            implode (Z.of_nat n) r = Ok v.
Proof. exact implode_explode. Qed.

Theorem C41_implode : forall z v,
  implode z v =
  if (z <? 0)%Z then Ok (View (v_obj v) 0)
  else if (Z.of_nat (v_depth v) <? z)%Z then Raise TooManyDims
  else Ok (View (v_obj v) (v_depth v - Z.to_nat z)).
Proof. exact implode_spec. Qed.

Example C41_explode_example : exists r,
  explode (fun _ => None) 2 (make_view (v_obj ex_view)) [] = ([], Ok r) /\
  r = ex_view /\ implode 2 r = Ok (make_view (v_obj ex_view)).
Proof. eexists. vm_compute. repeat split; reflexivity. Qed.

(** flatten joins a range of dimensions into one, depth first.  It always
    succeeds, and leaves the existing objects alone. *)
Theorem C41_flatten : forall iterate from_dim to_dim v h,
  good v ->
  let d := v_depth v in
  let f := clipped from_dim d in
  let t := last_dim f to_dim d in
  exists h' r, flatten iterate from_dim to_dim v h = (h', Ok r) /\
    heap_grew h h' /\
    v_depth r = d - (t - f) + 1 /\ good r /\
    same_shape f (v_obj r) (v_obj v) /\
    (forall p x, length p = f -> at_ p (v_obj v) = Some x ->
       at_ p (v_obj r) = Some (PTuple (leaves (t - f) x))).
Proof. exact flatten_ok. Qed.

Theorem C41_flatten_all_is_depth_first : forall iterate v h,
  good v ->
  exists h' r, flatten iterate 0 None v h = (h', Ok r) /\
    heap_grew h h' /\
    r = View (PTuple (leaves (v_depth v) (v_obj v))) 1.
Proof. exact flatten_all. Qed.

Example C41_flatten_example : exists h' r,
  flatten (fun _ => None) 0 None ex_view [] = (h', Ok r) /\
  v_obj r = PTuple [PAtom 1; PNone; PAtom 3; PAtom 4; PAtom 5].
Proof. eexists. eexists. vm_compute. repeat split; reflexivity. Qed.

Example C41_flatten_nothing_example : exists h' r,
  flatten (fun _ => None) 1 (Some 1%Z) ex_view [] = (h', Ok r) /\
  v_depth r = 3 /\
  at_ [1] (v_obj r) = Some (PTuple [PTuple [PAtom 4; PAtom 5]]).
Proof. eexists. eexists. vm_compute. repeat split; reflexivity. Qed.

(** expand_to repeats each item once for each position of the other view
    below it. *)
Theorem C41_expand_to_repeats : forall same other ndim v h h' r,
  good v -> good other -> (same = true -> other = v) ->
  expand_to same other ndim v h = (h', Ok r) ->
  exists n, ndim = Z.of_nat n /\
  h' = h /\ n <= v_depth v /\ v_depth v - n <= v_depth other /\
  aligned [View (v_obj v) (v_depth v - n); other] /\
  v_depth r = v_depth other + n /\ good r /\
  same_shape (v_depth other) (v_obj r) (v_obj other) /\
  (forall p q, length p = v_depth other ->
     (exists y, at_ p (v_obj other) = Some y) ->
     at_ (p ++ q) (v_obj r) = at_ (firstn (v_depth v - n) p ++ q) (v_obj v)).
Proof. exact expand_ok. Qed.

Theorem C41_expand_to_succeeds : forall same other n v h,
  good v -> good other -> n <= v_depth v -> v_depth v - n <= v_depth other ->
  aligned [View (v_obj v) (v_depth v - n); other] ->
  exists r, expand_to same other (Z.of_nat n) v h = (h, Ok r).
Proof. exact expand_total. Qed.

Example C41_expand_example : exists r,
  expand_to false ex_view 0 ex_outer [] = ([], Ok r) /\
  v_obj r = PTuple [PTuple [PNone; PNone; PNone];
                    PTuple [PPresent; PPresent]].
Proof. eexists. vm_compute. repeat split; reflexivity. Qed.

(** coalesce takes the other item where an item is missing. *)
Theorem C41_coalesce : forall v w h h' r,
  coalesce v w h = (h', Ok r) ->
  h' = h /\ aligned [v; w] /\
  v_depth r = Nat.max (v_depth v) (v_depth w) /\ good r /\
  (forall p z, length p = v_depth r ->
     (at_ p (v_obj r) = Some z <->
      exists x y, at_ (firstn (v_depth v) p) (v_obj v) = Some x /\
                  at_ (firstn (v_depth w) p) (v_obj w) = Some y /\
                  (x <> PNone /\ z = x \/ x = PNone /\ z = y))).
Proof. exact coalesce_ok. Qed.

Theorem C41_coalesce_succeeds : forall v w h,
  good v -> good w -> aligned [v; w] ->
  exists r, coalesce v w h = (h, Ok r).
Proof. exact coalesce_total. Qed.

(** collapse gives the common value of the items that are not missing, if
    there is one. *)
Theorem C41_collapse : forall iterate py_eq n v h,
  good v -> n <= v_depth v ->
  exists h' r, collapse iterate py_eq (Z.of_nat n) v h = (h', Ok r) /\
    heap_grew h h' /\ v_depth r = v_depth v - n /\ good r /\
    same_shape (v_depth v - n) (v_obj r) (v_obj v) /\
    (forall p x, length p = v_depth v - n -> at_ p (v_obj v) = Some x ->
       at_ p (v_obj r) = Some (common py_eq (leaves n x))).
Proof. exact collapse_ok. Qed.

Example C41_collapse_example : exists h' r,
  collapse (fun _ => None)
    (fun a b => match a, b with
                | PAtom x, PAtom y => Z.eqb x y
                | _, _ => false
                end) 1
    (View (PTuple [PTuple [PAtom 7; PNone; PAtom 7];
                   PTuple [PAtom 4; PAtom 5]; PTuple []]) 2) []
  = (h', Ok r) /\ v_obj r = PTuple [PAtom 7; PNone; PNone].
Proof. eexists. eexists. vm_compute. repeat split; reflexivity. Qed.

(** ** C42: group_by *)

(** Equality of keys is any equivalence.  Without sorting the groups are in
    order of first occurrence; [grouped] is explained in ViewSpec. *)
Theorem C42_group_by : forall py_eq hashable key_less,
  (forall a, py_eq a a = true) ->
  (forall a b, py_eq a b = true -> py_eq b a = true) ->
  (forall a b c,
     py_eq a b = true -> py_eq b c = true -> py_eq a c = true) ->
  forall keys v h h' r,
  good v -> Forall good keys ->
  group_by py_eq hashable key_less false keys v h = (h', Ok r) ->
  h' = h /\ v_depth r = v_depth v + 1 /\ good r /\
  same_shape (v_depth v - 1) (v_obj r) (v_obj v) /\
  (forall p xs, length p = v_depth v - 1 ->
     at_ p (v_obj v) = Some (PTuple xs) ->
     exists kxs, keyed keys p xs kxs /\
       at_ p (v_obj r) =
       Some (PTuple (map (fun g => PTuple (snd g))
                         (grouped (key_eq py_eq) kxs)))).
Proof. exact group_unsorted. Qed.

(** With sorting they are the same groups in increasing order of keys. *)
Theorem C42_group_by_sorted : forall py_eq hashable key_less,
  (forall a, py_eq a a = true) ->
  (forall a b, py_eq a b = true -> py_eq b a = true) ->
  (forall a b c,
     py_eq a b = true -> py_eq b c = true -> py_eq a c = true) ->
  forall keys v h h' r,
  (forall a b c, key_less a b = true -> key_less b c = true ->
     key_less a c = true) ->
  (forall a b, key_eq py_eq a b = false ->
     key_less a b = true \/ key_less b a = true) ->
  good v -> Forall good keys ->
  group_by py_eq hashable key_less true keys v h = (h', Ok r) ->
  h' = h /\ v_depth r = v_depth v + 1 /\ good r /\
  same_shape (v_depth v - 1) (v_obj r) (v_obj v) /\
  (forall p xs, length p = v_depth v - 1 ->
     at_ p (v_obj v) = Some (PTuple xs) ->
     exists kxs gs, keyed keys p xs kxs /\
       Permutation gs (grouped (key_eq py_eq) kxs) /\
       StronglySorted (fun a b => key_less (fst a) (fst b) = true) gs /\
       at_ p (v_obj r) = Some (PTuple (map (fun g => PTuple (snd g)) gs))).
Proof. exact group_sorted. Qed.

(** The groups partition the items whose keys are present; keys are different
    between groups, and the items of a group are all those with its key, in
    their order. *)
Theorem C42_groups_partition : forall py_eq,
  (forall a, py_eq a a = true) ->
  (forall a b, py_eq a b = true -> py_eq b a = true) ->
  (forall a b c,
     py_eq a b = true -> py_eq b c = true -> py_eq a c = true) ->
  forall kxs,
  let gs := grouped (key_eq py_eq) kxs in
  Permutation (concat (map snd gs)) (map snd (present_rows kxs)) /\
  ForallOrdPairs (fun a b => key_eq py_eq (fst a) (fst b) = false) gs /\
  (forall k ys, In (k, ys) gs ->
     ys = map snd (filter (fun kx => key_eq py_eq k (fst kx))
                          (present_rows kxs)) /\ ys <> []) /\
  (forall k x, In (k, x) (present_rows kxs) ->
     exists d ys, In (d, ys) gs /\ key_eq py_eq d k = true /\ In x ys).
Proof. exact grouped_laws. Qed.

(** Views of matching shape with hashable keys can always be grouped. *)
Theorem C42_group_by_succeeds :
  forall py_eq hashable key_less,
  (forall a, py_eq a a = true) ->
  (forall a b, py_eq a b = true -> py_eq b a = true) ->
  (forall a b c,
     py_eq a b = true -> py_eq b c = true -> py_eq a c = true) ->
  forall sort keys v h,
  good v -> Forall good keys -> 0 < v_depth v ->
  Forall (fun k => v_depth k = v_depth v) keys -> aligned (v :: keys) ->
  (forall k p x, In k (v :: keys) -> length p = v_depth v ->
     at_ p (v_obj k) = Some x -> x <> PNone -> hashable x = true) ->
  exists r, group_by py_eq hashable key_less sort keys v h = (h, Ok r).
Proof. exact group_by_total. Qed.
Theorem C42_group_by_needs_same_depth :
  forall py_eq hashable key_less sort keys v h h' r,
  group_by py_eq hashable key_less sort keys v h = (h', Ok r) ->
  0 < v_depth v /\ Forall (fun k => v_depth k = v_depth v) keys.
Proof. exact group_by_cases. Qed.

(** The equality and order of the examples. *)
Definition ex_eq (a b : obj) : bool :=
  match a, b with
  | PNone, PNone | PPresent, PPresent => true
  | PAtom x, PAtom y => Z.eqb x y
  | PRef l, PRef m => Nat.eqb l m
  | PTuple _, PTuple _ => true
  | _, _ => false
  end.

Example C42_hypotheses_met :
  (forall a, ex_eq a a = true) /\
  (forall a b, ex_eq a b = true -> ex_eq b a = true) /\
  (forall a b c, ex_eq a b = true -> ex_eq b c = true -> ex_eq a c = true).
Proof.
  split; [|split].
  - intros []; cbn; auto using Z.eqb_refl, Nat.eqb_refl.
  - intros [] []; cbn; auto; intros H.
    + apply Nat.eqb_eq in H. subst. apply Nat.eqb_refl.
    + apply Z.eqb_eq in H. subst. apply Z.eqb_refl.
  - intros [] [] []; cbn; auto; try discriminate; intros H1 H2.
    + apply Nat.eqb_eq in H1. subst. exact H2.
    + apply Z.eqb_eq in H1. subst. exact H2.
Qed.

Definition ex_less (k l : list obj) : bool :=
  match k, l with
  | PAtom x :: _, PAtom y :: _ => Z.ltb x y
  | _, _ => false
  end.

Definition ex_values : view :=
  View (PTuple [PTuple [PAtom 10; PAtom 20; PAtom 30; PAtom 40]]) 2.
Definition ex_keys : view :=
  View (PTuple [PTuple [PAtom 2; PAtom 1; PNone; PAtom 2]]) 2.

Example C42_group_example : exists r,
  group_by ex_eq (fun _ => true) ex_less false [ex_keys] ex_values []
  = ([], Ok r) /\ v_depth r = 3 /\
  v_obj r = PTuple [PTuple [PTuple [PAtom 10; PAtom 40];
                            PTuple [PAtom 20]]].
Proof. eexists. vm_compute. repeat split; reflexivity. Qed.

Example C42_sorted_example : exists r,
  group_by ex_eq (fun _ => true) ex_less true [ex_keys] ex_values []
  = ([], Ok r) /\
  v_obj r = PTuple [PTuple [PTuple [PAtom 20];
                            PTuple [PAtom 10; PAtom 40]]].
Proof. eexists. vm_compute. repeat split; reflexivity. Qed.

Print Assumptions C40_select_keeps_present_items.
Print Assumptions C40_select_succeeds.
Print Assumptions C40_inverse_select_fills.
Print Assumptions C40_inverse_select_succeeds.
Print Assumptions C40_inverse_select_after_select.
Print Assumptions C40_select_after_inverse_select.
Print Assumptions C40_masking_is_pointwise.
Print Assumptions C41_map_calls_in_order.
Print Assumptions C41_map_default.
Print Assumptions C41_map_rejects_unaligned.
Print Assumptions C41_map_is_pointwise.
Print Assumptions C41_map_succeeds.
Print Assumptions C41_map_with_ndim.
Print Assumptions C41_align_expands.
Print Assumptions C41_align_succeeds.
Print Assumptions C41_explode.
Print Assumptions C41_explode_succeeds.
Print Assumptions C41_explode_several.
Print Assumptions C41_explode_after_implode.
Print Assumptions C41_implode_after_explode.
Print Assumptions C41_implode.
Print Assumptions C41_flatten.
Print Assumptions C41_flatten_all_is_depth_first.
Print Assumptions C41_expand_to_repeats.
Print Assumptions C41_expand_to_succeeds.
Print Assumptions C41_coalesce.
Print Assumptions C41_coalesce_succeeds.
Print Assumptions C41_collapse.
Print Assumptions C42_group_by.
Print Assumptions C42_group_by_sorted.
Print Assumptions C42_groups_partition.
Print Assumptions C42_group_by_succeeds.
Print Assumptions C42_group_by_needs_same_depth.
