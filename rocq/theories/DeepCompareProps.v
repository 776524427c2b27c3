(** C53: the deep comparison of two slices reports nothing exactly if they are equivalent, and
    otherwise the places where they differ. *)
From Coq Require Import String List Bool Arith NArith ZArith Lia Permutation.
From Verif Require Import DeepCompareModel DeepCompareSpec DeepCompareOrderProofs DeepCompareStepProofs DeepCompareTopProofs.
Import ListNotations.
Local Open Scope string_scope.
Local Open Scope nat_scope.
Local Open Scope list_scope.

(** For any order in which the result is searched, a comparison that returns differences returns
    none exactly if the slices are equivalent item by item *)
Theorem C53_no_difference_iff_equivalent :
  forall order fuel p max_count lshape rshape is_item lb l ls rb r rs found,
  (forall es, Permutation es (order es)) -> wf_bag lb -> wf_bag rb -> (is_item = true -> length l = 1) ->
  mismatches order fuel p max_count lshape rshape is_item lb l ls rb r rs = Some (Ok (Differences found)) ->
  (1 <= max_count)%Z ->
  found = [] <-> Forall2 (equivalent p lb rb) (nodes_of l ls) (nodes_of r rs).
Proof.
  intros order fuel p mc lsh rsh is_item lb l ls rb r rs found perm Wl Wr one H M.
  exact (top_iff order fuel p mc lsh rsh is_item lb l ls rb r rs perm Wl Wr one found H M).
Qed.

(** Every reported difference is one, at the end of the path that is reported with it; there are not
    more than asked for *)
Theorem C53_reported_differences_exist :
  forall order fuel p max_count lshape rshape is_item lb l ls rb r rs found,
  (forall es, Permutation es (order es)) -> wf_bag lb -> wf_bag rb -> (is_item = true -> length l = 1) ->
  mismatches order fuel p max_count lshape rshape is_item lb l ls rb r rs = Some (Ok (Differences found)) ->
  (Z.of_nat (length found) <= max_count)%Z /\
  forall path d, In (path, d) found -> difference_at p lb rb is_item l ls r rs path d.
Proof.
  intros order fuel p mc lsh rsh is_item lb l ls rb r rs found perm Wl Wr one H. split.
  - exact (top_count order fuel p mc lsh rsh is_item lb l ls rb r rs one found H).
  - intros path d I. exact (top_sound order fuel p mc lsh rsh is_item lb l ls rb r rs perm Wl Wr one found path d H I).
Qed.

(** If fewer are reported than asked for, every difference is: two items [x], [y] that are reached
    together and differ in a field are reported with that field, possibly by another path to them.
    Of dict keys that are equal as numbers but not the same only one is reported. *)
Theorem C53_existing_differences_are_reported :
  forall order fuel p max_count lshape rshape is_item lb l ls rb r rs found,
  (forall es, Permutation es (order es)) -> wf_bag lb -> wf_bag rb -> (is_item = true -> length l = 1) ->
  mismatches order fuel p max_count lshape rshape is_item lb l ls rb r rs = Some (Ok (Differences found)) ->
  (Z.of_nat (length found) < max_count)%Z ->
  (forall k a b, pair_at is_item l ls r rs k a b -> ~ alike p a b -> exists m, In ([k], DMismatch a b m) found) /\
  (forall k a b fs x y f d, pair_at is_item l ls r rs k a b -> reaches p lb rb a b fs x y -> differs p lb rb x y f d ->
     exists k' a' b' ks' fs' kf f' d', pair_at is_item l ls r rs k' a' b' /\ is_path ks' fs' /\
       reaches p lb rb a' b' fs' x y /\ field_of kf = Some f' /\ same_field f f' /\ differs p lb rb x y f' d' /\
       In (k' :: ks' ++ [kf], d') found).
Proof.
  intros order fuel p mc lsh rsh is_item lb l ls rb r rs found perm Wl Wr one H C.
  exact (top_all order fuel p mc lsh rsh is_item lb l ls rb r rs perm Wl Wr one found H C).
Qed.

(** The comparison ends, also for cyclic data *)
Theorem C53_ends :
  forall order p max_count lshape rshape is_item lb l ls rb r rs,
  (forall es, Permutation es (order es)) -> wf_bag lb -> wf_bag rb ->
  finite_from lb (nodes_of l ls) -> finite_from rb (nodes_of r rs) ->
  exists fuel0, forall fuel, fuel0 <= fuel ->
    mismatches order fuel p max_count lshape rshape is_item lb l ls rb r rs <> None.
Proof. exact top_ends. Qed.

(** and if all that is reachable can be read and no dict has ObjectIds as keys, it succeeds *)
Theorem C53_succeeds :
  forall order p max_count shape is_item lb l ls rb r rs,
  (forall es, Permutation es (order es)) -> wf_bag lb -> wf_bag rb -> (is_item = true -> length l = 1) ->
  length l = length r -> (0 <= max_count)%Z ->
  readable_from lb (nodes_of l ls) -> readable_from rb (nodes_of r rs) ->
  exists found fuel0, forall fuel, fuel0 <= fuel ->
    mismatches order fuel p max_count shape shape is_item lb l ls rb r rs = Some (Ok (Differences found)).
Proof. exact top_succeeds. Qed.

(** A slice does not differ from itself *)
Theorem C53_nothing_differs_from_itself :
  forall order fuel p max_count shape is_item b l s found,
  (forall es, Permutation es (order es)) -> wf_bag b -> (is_item = true -> length l = 1) ->
  finite_from b (nodes_of l s) ->
  mismatches order fuel p max_count shape shape is_item b l s b l s = Some (Ok (Differences found)) -> found = [].
Proof.
  intros order fuel p mc sh is_item b l s found perm W one F H.
  destruct (Z_lt_le_dec mc 1) as [L|L].
  - pose proof (top_count order fuel p mc sh sh is_item b l s b l s one found H) as C.
    destruct found; [reflexivity|]. exfalso. change (length (p0 :: found)) with (S (length found)) in C. lia.
  - exact (proj2 (top_iff order fuel p mc sh sh is_item b l s b l s perm W W one found H L) (same_equivalent p b _ F W)).
Qed.

(** Negative counts and different shapes are refused *)
Theorem C53_refused :
  forall order fuel p max_count lshape rshape is_item lb l ls rb r rs,
  ((max_count < 0)%Z -> mismatches order fuel p max_count lshape rshape is_item lb l ls rb r rs = Some (Err ErrMaxCount)) /\
  ((0 <= max_count)%Z -> lshape <> rshape ->
   mismatches order fuel p max_count lshape rshape is_item lb l ls rb r rs = Some (Ok ShapesDiffer)).
Proof.
  intros. unfold mismatches. split.
  - intros H. destruct (Z.ltb_spec max_count 0); [reflexivity|lia].
  - intros H N. destruct (Z.ltb_spec max_count 0); [lia|]. destruct (list_eq_dec (list_eq_dec Nat.eq_dec) lshape rshape); [contradiction|reflexivity].
Qed.

(** ** Examples *)

(** A check of [readable_from] for concrete bags *)
Definition node_in (n : node) (u : list node) : bool := if in_dec node_eq_dec n u then true else false.
Definition check_node (b : bag) (u : list node) (n : node) : bool :=
  match n_schema n with Obj _ _ | DType _ => true | _ => false end &&
  match resolve b n with
  | Ok s =>
      match get_transitions b (n_item n) s with
      | Ok ts => forallb (fun k => match k with KDictKey _ v => negb (is_obj v) | _ => true end &&
                                   match by_key b (n_item n) s ts k with Ok n' => node_in n' u | Err _ => false end) (transition_keys ts)
      | Err _ => false
      end
  | Err _ => false
  end.
Lemma check_readable b ns u : wf_bag b -> forallb (fun n => node_in n u) ns && forallb (check_node b u) u = true -> readable_from b ns.
Proof.
  intros W. rewrite andb_true_iff, !forallb_forall. intros [A B]. exists u.
  assert (IN : forall n, node_in n u = true -> In n u) by (intros n; unfold node_in; destruct (in_dec node_eq_dec n u); auto; discriminate).
  assert (C : forall n, In n u -> a_type (n_schema n) /\ exists s ts, resolve b n = Ok s /\ get_transitions b (n_item n) s = Ok ts /\
     forall k, In k (transition_keys ts) -> (forall i v, k = KDictKey i v -> is_obj v = false) /\
       exists n', by_key b (n_item n) s ts k = Ok n' /\ In n' u).
  { intros n N. specialize (B n N). unfold check_node in B. apply andb_prop in B. destruct B as [B1 B2]. split.
    - destruct (n_schema n); try discriminate; [left|right]; eauto.
    - destruct (resolve b n) as [s|] eqn:RS; [|discriminate]. destruct (get_transitions b (n_item n) s) as [ts|] eqn:GT; [|discriminate].
      exists s, ts. split; [auto|]. split; [auto|]. rewrite forallb_forall in B2. intros k K. specialize (B2 k K).
      apply andb_prop in B2. destruct B2 as [B2 B3]. split.
      + intros i v ->. apply negb_true_iff. exact B2.
      + destruct (by_key b (n_item n) s ts k) as [n'|]; [|discriminate]. exists n'. auto. }
  split; [intros n N; auto|]. split; [|split].
  - intros n N. destruct (C n N) as (T & s & ts & R & G & K). split; [exact T|]. exists s, ts. split; [auto|]. split; [auto|].
    intros k X. destruct (K k X) as [_ (n' & Y & _)]. eauto.
  - intros n f n' N GO. destruct (C n N) as (T & s & ts & R & G & K). apply (goes_iff _ _ _ _ W R G) in GO.
    destruct GO as (k & X & _ & Y). destruct (K k X) as [_ (n2 & Z & U)]. assert (n2 = n') by congruence. subst. exact U.
  - intros n v n' N GO. destruct (C n N) as (T & s & ts & R & G & K). apply (goes_iff _ _ _ _ W R G) in GO.
    destruct GO as (k & X & F & _). destruct k as [| |i w| | | | | |]; try discriminate.
    assert (w = v) by (cbn in F; congruence). subst w. destruct (K _ X) as [Q _]. apply (Q i v eq_refl).
Qed.
Lemma readable_finite b ns : readable_from b ns -> finite_from b ns.
Proof. intros (u & A & B & C & _). exists u. split; [auto|]. split; [|auto]. intros n N. apply (B n N). Qed.

Definition int_t : item := DType (TOther 0).
Definition str_t : item := DType TString.
Definition ent_s : item := Obj KSchema 10.
Definition list_s : item := Obj KSchema 11.
Definition dict_s : item := Obj KSchema 12.
(** Two entities that refer to each other; the first has a list and a dict. [o] is where the
    ObjectIds start. *)
Definition ex (o : N) (x1 x2 : item) (items keys values : list item) : bag :=
  mkBag
    (fun s => if item_eq_dec s ent_s then Ok ["d"; "l"; "next"; "x"]
              else if item_eq_dec s list_s then Ok ["__items__"]
              else if item_eq_dec s dict_s then Ok ["__keys__"; "__values__"] else Ok [])
    (fun s a => if item_eq_dec s ent_s then
                  if String.eqb a "d" then Ok dict_s else if String.eqb a "l" then Ok list_s
                  else if String.eqb a "next" then Ok ent_s else Ok int_t
                else if item_eq_dec s dict_s then if String.eqb a "__keys__" then Ok str_t else Ok int_t
                else Ok int_t)
    (fun x a => match x with
                | Obj KEntity n =>
                    if String.eqb a "next" then Ok (Obj KEntity (if N.eqb n o then o + 1 else o))
                    else if String.eqb a "x" then Ok (if N.eqb n o then x1 else x2)
                    else if N.eqb n o then if String.eqb a "l" then Ok (Obj KList o) else Ok (Obj KDict o)
                    else Ok Missing
                | Missing => Ok Missing
                | _ => Err (ErrBag 0)
                end)
    (fun x => match x with Obj KList _ => Ok items | Missing => Ok [] | _ => Err (ErrBag 1) end)
    (fun x => match x with Obj KDict _ => Ok keys | Missing => Ok [] | _ => Err (ErrBag 2) end)
    (fun x => match x with Obj KDict _ => Ok values | Missing => Ok [] | _ => Err (ErrBag 3) end).
Lemma ex_wf o x1 x2 items keys values : length keys = length values ->
  (forall i j k k', nth_error keys i = Some k -> nth_error keys j = Some k' -> item_eqb k k' = true -> i = j) ->
  (forall k, In k keys -> is_nan k = false) -> wf_bag (ex o x1 x2 items keys values).
Proof.
  intros L K N. constructor; cbn.
  - intros x ks. destruct x as [|[]| | | | |]; try discriminate; intros E; assert (Q := f_equal (fun z => match z with Ok q => q | _ => ks end) E); cbn in Q; subst ks; [|auto].
    split; [intros [|] ? ? ?; discriminate|intros ? []].
  - intros x ks vs. destruct x as [|[]| | | | |]; try discriminate; congruence.
  - intros s names. repeat match goal with |- context [item_eq_dec ?a ?b] => destruct (item_eq_dec a b) end;
      intros E; assert (Q := f_equal (fun z => match z with Ok q => q | _ => names end) E); cbn in Q; subst names;
      repeat constructor; cbn; intuition discriminate.
  - intros x [M O]. destruct x; try (exfalso; congruence); repeat split; try discriminate. all: exfalso; eapply O; reflexivity.
Qed.

Definition i32 (z : Z) : item := Int false z.
Definition b1 : bag := ex 100 (i32 1) (i32 2) [i32 7; i32 8] [Text "a"; Text "b"] [i32 5; i32 6].
(** The same with other ids and another order of the keys, and one that differs in four places *)
Definition b2 : bag := ex 300 (i32 1) (i32 2) [i32 7; i32 8] [Text "b"; Text "a"] [i32 6; i32 5].
Definition b3 : bag := ex 300 (i32 1) (i32 3) [i32 7; i32 9; i32 9] [Text "b"; Text "c"] [i32 6; i32 5].
Definition e (o : N) : item := Obj KEntity o.
Definition seen (o : N) (x1 x2 : item) (items keys values : list item) : list node :=
  [mkNode (e o) ent_s; mkNode (e (o + 1)) ent_s; mkNode Missing ent_s; mkNode x1 int_t; mkNode x2 int_t;
   mkNode (Obj KList o) list_s; mkNode Missing list_s; mkNode (Obj KDict o) dict_s; mkNode Missing dict_s;
   mkNode Missing int_t; mkNode Missing str_t] ++
  map (fun x => mkNode x int_t) (items ++ values) ++ map (fun x => mkNode x str_t) keys.
Definition all : params := mkParams false false false.
Definition partly : params := mkParams true false false.

Lemma keys_differ a b : item_eqb a b = false -> item_eqb b a = false -> is_nan a = false -> is_nan b = false ->
  (forall i j k k', nth_error [a; b] i = Some k -> nth_error [a; b] j = Some k' -> item_eqb k k' = true -> i = j) /\
  (forall k, In k [a; b] -> is_nan k = false).
Proof.
  intros A B C D. split.
  - intros [|[|[|]]] [|[|[|]]] k k'; cbn; intros X Y Z; try congruence.
  - intros k [<-|[<-|[]]]; auto.
Qed.
Lemma b1_wf : wf_bag b1.
Proof. apply ex_wf; [reflexivity| |]; apply keys_differ; reflexivity. Qed.
Lemma b2_wf : wf_bag b2.
Proof. apply ex_wf; [reflexivity| |]; apply keys_differ; reflexivity. Qed.
Lemma b3_wf : wf_bag b3.
Proof. apply ex_wf; [reflexivity| |]; apply keys_differ; reflexivity. Qed.

Definition int_node (z : Z) : node := mkNode (i32 z) int_t.
Example C53_hypotheses_met :
  wf_bag b1 /\ wf_bag b2 /\ wf_bag b3 /\
  readable_from b1 (nodes_of [e 100; e 101] ent_s) /\
  readable_from b2 (nodes_of [e 300; e 301] ent_s) /\
  readable_from b3 (nodes_of [e 300; e 301] ent_s) /\
  (* other ids do not matter *)
  mismatches (fun l => l) 100 all 5 [[2]] [[2]] false b1 [e 100; e 101] ent_s b2 [e 300; e 301] ent_s
    = Some (Ok (Differences [])) /\
  (* unless they are compared *)
  mismatches (fun l => l) 100 (mkParams false false true) 5 [[2]] [[2]] false b1 [e 100; e 101] ent_s b2 [e 300; e 301] ent_s
    = Some (Ok (Differences
        [([KSliceItem (Some 1)], DMismatch (mkNode (e 101) ent_s) (mkNode (e 301) ent_s) false);
         ([KSliceItem (Some 0)], DMismatch (mkNode (e 100) ent_s) (mkNode (e 300) ent_s) false)])) /\
  (* all differences with their paths *)
  mismatches (fun l => l) 100 all 9 [[]] [[]] true b1 [e 100] ent_s b3 [e 300] ent_s
    = Some (Ok (Differences
        [([KSliceItem None; KAttr "d"; KDictValue 0 (Text "a")], DLeft (int_node 5));
         ([KSliceItem None; KAttr "d"; KDictValue 1 (Text "c")], DRight (int_node 5));
         ([KSliceItem None; KAttr "l"; KListItem 1], DMismatch (int_node 8) (int_node 9) false);
         ([KSliceItem None; KAttr "l"; KListItem 2], DRight (int_node 9));
         ([KSliceItem None; KAttr "next"; KAttr "x"], DMismatch (int_node 2) (int_node 3) false)])) /\
  (* not more than asked for *)
  mismatches (fun l => l) 100 all 1 [[]] [[]] true b1 [e 100] ent_s b3 [e 300] ent_s
    = Some (Ok (Differences
        [([KSliceItem None; KAttr "d"; KDictValue 0 (Text "a")], DLeft (int_node 5))])).
Proof.
  split; [exact b1_wf|]. split; [exact b2_wf|]. split; [exact b3_wf|].
  split; [apply check_readable with (u := seen 100 (i32 1) (i32 2) [i32 7; i32 8] [Text "a"; Text "b"] [i32 5; i32 6]); [exact b1_wf|vm_compute; reflexivity]|].
  split; [apply check_readable with (u := seen 300 (i32 1) (i32 2) [i32 7; i32 8] [Text "a"; Text "b"] [i32 5; i32 6]); [exact b2_wf|vm_compute; reflexivity]|].
  split; [apply check_readable with (u := seen 300 (i32 1) (i32 3) [i32 7; i32 9] [Text "b"; Text "c"] [i32 5; i32 6]); [exact b3_wf|vm_compute; reflexivity]|].
  vm_compute. repeat split; reflexivity.
Qed.

(** ** What does not hold *)

(** Not every readable slice can be compared: a dict with an ObjectId as key makes the comparison
    fail, even with itself, because the key is stored in the result as an object without a schema *)
Definition keyed : bag :=
  mkBag (fun s => if item_eq_dec s dict_s then Ok ["__keys__"; "__values__"] else Ok [])
        (fun s a => if String.eqb a "__keys__" then Ok ent_s else Ok int_t)
        (fun x a => match x with Obj _ _ => Ok Missing | Missing => Ok Missing | _ => Err (ErrBag 0) end)
        (fun x => match x with Obj _ _ => Ok [] | Missing => Ok [] | _ => Err (ErrBag 1) end)
        (fun x => match x with Obj KDict _ => Ok [e 5] | Missing => Ok [] | _ => Err (ErrBag 2) end)
        (fun x => match x with Obj KDict _ => Ok [i32 1] | Missing => Ok [] | _ => Err (ErrBag 3) end).
Lemma keyed_wf : wf_bag keyed.
Proof.
  constructor; cbn.
  - intros x ks. destruct x as [|[]| | | | |]; try discriminate; intros E; assert (Q := f_equal (fun z => match z with Ok q => q | _ => ks end) E); cbn in Q; subst ks.
    + split; [intros [|] ? ? ?; discriminate|intros ? []].
    + split; [intros [|[|]] [|[|]] ? ?; cbn; congruence|intros k [<-|[]]; reflexivity].
  - intros x ks vs. destruct x as [|[]| | | | |]; try discriminate; intros E F;
      assert (Q := f_equal (fun z => match z with Ok q => q | _ => ks end) E);
      assert (Q' := f_equal (fun z => match z with Ok q => q | _ => vs end) F); cbn in Q, Q'; subst; reflexivity.
  - intros s names. destruct (item_eq_dec s dict_s); intros E; assert (Q := f_equal (fun z => match z with Ok q => q | _ => names end) E);
      cbn in Q; subst names; repeat constructor; cbn; intuition discriminate.
  - intros x [M O]. destruct x; try (exfalso; congruence); repeat split; try discriminate. all: exfalso; eapply O; reflexivity.
Qed.
Theorem C53_object_keys_refuted :
  exists b x s, wf_bag b /\ finite_from b [mkNode x s] /\ readable b (mkNode x s) /\
    (forall f n, goes b (mkNode x s) f n -> readable b n) /\
    forall p, mismatches (fun l => l) 100 p 5 [] [] true b [x] s b [x] s = Some (Err ErrNoObjSchema).
Proof.
  exists keyed, (Obj KDict 1), dict_s. split; [exact keyed_wf|].
  set (u := [mkNode (Obj KDict 1) dict_s; mkNode (e 5) ent_s; mkNode (i32 1) int_t]).
  assert (C : forall n, In n u -> exists s ts, resolve keyed n = Ok s /\ get_transitions keyed (n_item n) s = Ok ts /\
     forall k, In k (transition_keys ts) -> exists n', by_key keyed (n_item n) s ts k = Ok n' /\ In n' u).
  { intros n N. repeat (destruct N as [<-|N]; [eexists; eexists; split; [reflexivity|]; split; [reflexivity|]; intros k K; cbn in K;
      repeat (destruct K as [<-|K]; [eexists; split; [reflexivity|cbn; auto]|]); contradiction|]). contradiction. }
  assert (G : forall n f n', In n u -> goes keyed n f n' -> In n' u).
  { intros n f n' N GO. destruct (C n N) as (s & ts & R & T & K). apply (goes_iff _ _ _ _ keyed_wf R T) in GO.
    destruct GO as (k & X & _ & Y). destruct (K k X) as (n2 & Z & U). assert (n2 = n') by congruence. subst. exact U. }
  assert (R : forall n, In n u -> readable keyed n).
  { intros n N. destruct (C n N) as (s & ts & R & T & K). exists s, ts. split; [auto|]. split; [auto|]. intros k X. destruct (K k X) as (n' & Y & _). eauto. }
  split.
  { exists u. split; [intros n [<-|[]]; left; reflexivity|]. split; [|exact G].
    intros n [<-|[<-|[<-|[]]]]; [left|left|right]; eauto. all: do 2 eexists; reflexivity. }
  split; [apply R; left; reflexivity|]. split; [intros f n GO; apply R; eapply G; [left; reflexivity|exact GO]|].
  intros [[] [] []]; vm_compute; reflexivity.
Qed.

(** The comparison is not symmetric: an entity without attributes is accepted where an ItemId is
    expected, but not the other way round *)
Definition plain : bag :=
  mkBag (fun s => Ok []) (fun s a => Ok int_t)
        (fun x a => match x with Obj _ _ => Ok Missing | Missing => Ok Missing | _ => Err (ErrBag 0) end)
        (fun x => match x with Obj _ _ => Ok [] | Missing => Ok [] | _ => Err (ErrBag 1) end)
        (fun x => match x with Obj _ _ => Ok [] | Missing => Ok [] | _ => Err (ErrBag 2) end)
        (fun x => match x with Obj _ _ => Ok [] | Missing => Ok [] | _ => Err (ErrBag 3) end).
Theorem C53_symmetric_refuted :
  exists b x s y t d, wf_bag b /\
    mismatches (fun l => l) 100 all 5 [] [] true b [x] s b [y] t = Some (Ok (Differences [])) /\
    mismatches (fun l => l) 100 all 5 [] [] true b [y] t b [x] s = Some (Ok (Differences [d])).
Proof.
  exists plain, (e 1), ent_s, (e 2), (DType TItemId).
  exists ([KSliceItem None], DMismatch (mkNode (e 2) (DType TItemId)) (mkNode (e 1) ent_s) false).
  split.
  - constructor; cbn.
    + intros x ks. destruct x; try discriminate; intros E; assert (Q := f_equal (fun z => match z with Ok q => q | _ => ks end) E); cbn in Q; subst ks;
        (split; [intros [|] ? ? ?; discriminate|intros ? []]).
    + intros x ks vs. destruct x; try discriminate; congruence.
    + intros s names E. assert (Q := f_equal (fun z => match z with Ok q => q | _ => names end) E). cbn in Q. subst. constructor.
    + intros x [M O]. destruct x; try (exfalso; congruence); repeat split; try discriminate. all: exfalso; eapply O; reflexivity.
  - vm_compute. repeat split; reflexivity.
Qed.

Print Assumptions C53_no_difference_iff_equivalent.
Print Assumptions C53_reported_differences_exist.
Print Assumptions C53_existing_differences_are_reported.
Print Assumptions C53_ends.
Print Assumptions C53_succeeds.
Print Assumptions C53_nothing_differs_from_itself.
Print Assumptions C53_refused.
Print Assumptions C53_object_keys_refuted.
Print Assumptions C53_symmetric_refuted.
