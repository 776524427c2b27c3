From Coq Require Import String List Bool Arith NArith ZArith Lia Permutation.
From Verif Require Import DeepCompareModel DeepCompareSpec DeepCompareOrderProofs DeepCompareStepProofs DeepCompareRunProofs DeepCompareFindProofs DeepCompareProofs DeepCompareEndProofs.
Import ListNotations.
Local Open Scope string_scope.
Local Open Scope nat_scope.
Local Open Scope list_scope.

Lemma run_facts order fuel p mc lsh rsh is_item lb l ls rb r rs found :
  mismatches order fuel p mc lsh rsh is_item lb l ls rb r rs = Some (Ok (Differences found)) ->
  (0 <= mc)%Z /\ lsh = rsh /\ length l = length r /\ exists st0 st rnodes,
    compare_items p ls rs empty_state (or_missing l) (or_missing r) = Ok (st0, rnodes) /\
    deep_compare fuel p lb rb st0 = Some (Ok st) /\
    find_diffs order st (Z.to_nat mc) fuel (combine (root_keys is_item l) rnodes) = Some (Ok found).
Proof.
  unfold mismatches. destruct (Z.ltb_spec mc 0) as [X|X]; [discriminate|].
  destruct (list_eq_dec (list_eq_dec Nat.eq_dec) lsh rsh) as [->|]; [|discriminate].
  unfold compare_slices. destruct (Nat.eqb_spec (length l) (length r)) as [Y|Y]; cbn [negb]; [|discriminate].
  destruct (compare_items p ls rs empty_state (or_missing l) (or_missing r)) as [[st0 rnodes]|] eqn:I; [|discriminate].
  destruct (deep_compare fuel p lb rb st0) as [[st|]|] eqn:D; try discriminate.
  destruct (find_diffs order st (Z.to_nat mc) fuel (combine (root_keys is_item l) rnodes)) as [[f|]|] eqn:F; try discriminate.
  intros H. assert (f = found) by congruence. subst f. split; [exact X|]. split; [auto|]. split; [auto|]. exists st0, st, rnodes. auto.
Qed.

Section Top.
Variables (order : list edge -> list edge) (fuel : nat) (p : params) (mc : Z) (lsh rsh : list (list nat)) (is_item : bool).
Variables (lb : bag) (l : list item) (ls : item) (rb : bag) (r : list item) (rs : item).
Hypothesis perm : forall es, Permutation es (order es).
Hypothesis Wl : wf_bag lb.
Hypothesis Wr : wf_bag rb.
Hypothesis one : is_item = true -> length l = 1.

Lemma top_iff found : mismatches order fuel p mc lsh rsh is_item lb l ls rb r rs = Some (Ok (Differences found)) ->
  (1 <= mc)%Z -> found = [] <-> Forall2 (equivalent p lb rb) (nodes_of l ls) (nodes_of r rs).
Proof.
  intros H M. destruct (run_facts _ _ _ _ _ _ _ _ _ _ _ _ _ _ H) as (_ & _ & L & st0 & st & rn & I & D & F).
  eapply none_iff; eauto. lia.
Qed.
Lemma top_sound found path d : mismatches order fuel p mc lsh rsh is_item lb l ls rb r rs = Some (Ok (Differences found)) ->
  In (path, d) found -> difference_at p lb rb is_item l ls r rs path d.
Proof.
  intros H. destruct (run_facts _ _ _ _ _ _ _ _ _ _ _ _ _ _ H) as (_ & _ & L & st0 & st & rn & I & D & F).
  eapply found_sound; eauto.
Qed.
Lemma top_count found : mismatches order fuel p mc lsh rsh is_item lb l ls rb r rs = Some (Ok (Differences found)) ->
  (Z.of_nat (length found) <= mc)%Z.
Proof.
  intros H. destruct (run_facts _ _ _ _ _ _ _ _ _ _ _ _ _ _ H) as (M & _ & L & st0 & st & rn & I & D & F).
  assert (length found <= Z.to_nat mc) by (eapply found_count; eauto). lia.
Qed.
Lemma top_all found : mismatches order fuel p mc lsh rsh is_item lb l ls rb r rs = Some (Ok (Differences found)) ->
  (Z.of_nat (length found) < mc)%Z ->
  (forall k a b, pair_at is_item l ls r rs k a b -> ~ alike p a b -> exists m, In ([k], DMismatch a b m) found) /\
  (forall k a b fs x y f d, pair_at is_item l ls r rs k a b -> reaches p lb rb a b fs x y -> differs p lb rb x y f d ->
     exists k' a' b' ks' fs' kf f' d', pair_at is_item l ls r rs k' a' b' /\ is_path ks' fs' /\
       reaches p lb rb a' b' fs' x y /\ field_of kf = Some f' /\ same_field f f' /\ differs p lb rb x y f' d' /\
       In (k' :: ks' ++ [kf], d') found).
Proof.
  intros H C. destruct (run_facts _ _ _ _ _ _ _ _ _ _ _ _ _ _ H) as (M & _ & L & st0 & st & rn & I & D & F).
  assert (length found < Z.to_nat mc) by lia. split.
  - intros k a b. eapply (root_found p lb rb Wl Wr); eauto.
  - intros k a b fs x y f d. eapply field_found; eauto.
Qed.
End Top.

(** ** The end of the comparison *)
Lemma nodes_in x s y : In y (or_missing x) -> In (mkNode y s) (nodes_of x s).
Proof. intros H. rewrite nodes_map. apply (List.in_map (fun y => mkNode y s)). exact H. Qed.
Lemma inside_start ul ur : inside ul ur empty_state.
Proof. intros ? ? ? []. Qed.

Lemma top_ends order p mc lsh rsh is_item lb l ls rb r rs : (forall es, Permutation es (order es)) -> wf_bag lb -> wf_bag rb ->
  finite_from lb (nodes_of l ls) -> finite_from rb (nodes_of r rs) ->
  exists fuel0, forall fuel, fuel0 <= fuel -> mismatches order fuel p mc lsh rsh is_item lb l ls rb r rs <> None.
Proof.
  intros perm Wl Wr (ul & Il & Tl & Cl) (ur & Ir & Tr & Cr). unfold mismatches.
  destruct (mc <? 0)%Z; [exists 0; discriminate|].
  destruct (list_eq_dec (list_eq_dec Nat.eq_dec) lsh rsh); [|exists 0; discriminate]. unfold compare_slices.
  destruct (negb (length l =? length r)); [exists 0; discriminate|].
  destruct (items_total p ls rs (or_missing l) (or_missing r) empty_state) as [[st0 rn] I]. rewrite I.
  assert (IN : inside ul ur st0).
  { eapply items_inside; [apply inside_start| | |exact I]; intros x X; [apply Il|apply Ir]; apply nodes_in; exact X. }
  assert (D : deep_compare (todo ul ur st0) p lb rb st0 <> None) by exact (deep_ends p lb rb Wl Wr ul ur Tl Tr Cl Cr _ _ IN (le_n _)).
  destruct (deep_compare (todo ul ur st0) p lb rb st0) as [[st|e']|] eqn:DE; [| |congruence].
  - destruct (find_ends order st (Z.to_nat mc) (combine (root_keys is_item l) rn) perm) as [f0 F].
    exists (Nat.max (todo ul ur st0) f0). intros fuel L. rewrite (deep_more _ _ _ _ _ _ fuel DE) by lia.
    specialize (F fuel ltac:(lia)). destruct (find_diffs _ _ _ _ _) as [[]|]; congruence.
  - exists (todo ul ur st0). intros fuel L. rewrite (deep_more _ _ _ _ _ _ fuel DE) by lia. discriminate.
Qed.

Lemma value_key b n v n' : goes b n (FValue v) n' -> exists n2, goes b n (FKey v) n2.
Proof.
  intros (s & O & L). inversion L; subst. eexists. exists s. split; [exact O|]. eapply leads_key; eauto.
Qed.

Section Success.
Variables (order : list edge -> list edge) (p : params) (mc : nat) (is_item : bool).
Variables (lb : bag) (l : list item) (ls : item) (rb : bag) (r : list item) (rs : item).
Hypothesis perm : forall es, Permutation es (order es).
Hypothesis Wl : wf_bag lb.
Hypothesis Wr : wf_bag rb.
Hypothesis one : is_item = true -> length l = 1.
Hypothesis sizes : length l = length r.
Variables ul ur : list node.
Hypothesis Il : incl (nodes_of l ls) ul.
Hypothesis Ir : incl (nodes_of r rs) ur.
Hypothesis Rl : forall n, In n ul -> a_type (n_schema n) /\ readable lb n.
Hypothesis Rr : forall n, In n ur -> a_type (n_schema n) /\ readable rb n.
Hypothesis Cl : forall n f n', In n ul -> goes lb n f n' -> In n' ul.
Hypothesis Cr : forall n f n', In n ur -> goes rb n f n' -> In n' ur.
Hypothesis Kl : forall n v n', In n ul -> goes lb n (FKey v) n' -> is_obj v = false.
Hypothesis Kr : forall n v n', In n ur -> goes rb n (FKey v) n' -> is_obj v = false.
Variables (st0 st : state) (rn : list rnode) (fuel : nat).
Hypothesis items : compare_items p ls rs empty_state (or_missing l) (or_missing r) = Ok (st0, rn).
Hypothesis deep : deep_compare fuel p lb rb st0 = Some (Ok st).

Lemma reaches_in a b fs x y : In a ul -> In b ur -> reaches p lb rb a b fs x y -> In x ul /\ In y ur.
Proof. intros A B. induction 1 as [|fs l1 r1 f l2 r2 RE [IH1 IH2] V G G' AL]; eauto. Qed.

Lemma key_child n i v c : In (KDictKey i v, c) (children order st n) ->
  exists k to, In (mkEdge n k to) (s_edges st) /\ (k = KDictValue i v \/ k = KDictKey i v).
Proof.
  unfold children. rewrite in_flat_map. intros (e & E & C).
  apply (Permutation_in e (Permutation_sym (perm _))) in E. apply filter_In in E. destruct E as [IN F].
  destruct (rnode_eq_dec (e_from e) n) as [FR|]; [|discriminate].
  exists (e_key e), (e_to e). split; [destruct e; cbn in *; subst; exact IN|].
  destruct (e_key e) eqn:KE; destruct C as [C|C]; try (destruct C as [C|[]]); try contradiction; try congruence; first [left; congruence|right; congruence].
Qed.

Lemma no_objects path x : ~ rpath order st (combine (root_keys is_item l) rn) path (RVal x).
Proof.
  intros RP. inversion RP as [k n IN V|path1 tk m k c RP1 CH V].
  - subst. destruct (root_sound p lb rb Wl Wr is_item l ls r rs one _ _ _ _ sizes items deep _ _ IN)
      as (a & b & _ & [[_ TO]|[_ (n & Q & _)]]); [|discriminate].
    destruct (tok_kind p lb rb Wl Wr is_item l ls r rs one _ _ _ _ sizes items deep _ _ _ TO) as [(? & ? & Q)|(_ & z & _ & Q)]; congruence.
  - subst c. assert (ED : forall k, In (mkEdge (RTok tk m) k (RVal x)) (s_edges st) -> False).
    { intros k' HE. destruct (edge_facts p lb rb Wl Wr is_item l ls r rs one _ _ _ _ sizes items deep _ _ _ HE)
        as (a & b & _ & (f & _ & _ & [(n & d & Q & _)|(l' & r' & _ & _ & _ & TO)])); [discriminate|].
      destruct (tok_kind p lb rb Wl Wr is_item l ls r rs one _ _ _ _ sizes items deep _ _ _ TO) as [(? & ? & Q)|(_ & z & _ & Q)]; congruence. }
    destruct (child_edge order st perm _ _ _ CH) as [HE|(i & v & -> & Q)]; [eauto|].
    assert (v = x) by congruence. subst v.
    destruct (key_child _ _ _ _ CH) as (k' & to & HE & KK).
    destruct (edge_facts p lb rb Wl Wr is_item l ls r rs one _ _ _ _ sizes items deep _ _ _ HE) as (a & b & IN & (f & F & VI & EO)).
    destruct KK as [->| ->]; cbn in F; assert (Ff := f_equal (fun z => match z with Some q => q | None => f end) F); cbn in Ff; subst f; [|contradiction].
    destruct (rpath_sound p lb rb Wl Wr is_item l ls r rs one order _ _ _ _ perm sizes items deep _ _ RP1)
      as (k0 & a0 & b0 & ks & (i0 & PA & PB & _) & _ & fs & u & w & _ & RE & IN').
    assert (E := entry_inj p lb rb Wl Wr is_item l ls r rs one _ _ _ _ sizes items deep _ _ _ _ IN IN').
    assert (u = a) by congruence. assert (w = b) by congruence. subst u w.
    apply nth_error_In in PA, PB. destruct (reaches_in _ _ _ _ _ (Il _ PA) (Ir _ PB) RE) as [UA UB].
    assert (G : (exists n', goes lb a (FValue x) n') \/ exists n', goes rb b (FValue x) n').
    { destruct EO as [(n & d & _ & _ & DF)|(l' & r' & G & _)]; [|eauto]. destruct DF; eauto. }
    cbn in V. destruct G as [[n' G]|[n' G]]; apply value_key in G; destruct G as [n2 G].
    + rewrite (Kl _ _ _ UA G) in V. discriminate.
    + rewrite (Kr _ _ _ UB G) in V. discriminate.
Qed.
Lemma find_total : exists found fuel0, forall fuel', fuel0 <= fuel' ->
  find_diffs order st mc fuel' (combine (root_keys is_item l) rn) = Some (Ok found).
Proof.
  set (roots := combine (root_keys is_item l) rn).
  destruct (find_ends order st mc roots perm) as [f0 F]. specialize (F f0 (le_n _)).
  destruct (start_inv order st mc roots) as (I & U & T & _).
  unfold find_diffs in F. destruct (find_loop order st mc f0 (fold_left previsit roots (mkF [] [] [] []))) as [[f|e]|] eqn:L; [| |congruence].
  - exists (f_found f), f0. intros fuel' LE. unfold find_diffs. rewrite (find_more _ _ _ _ _ _ fuel' L) by lia. reflexivity.
  - exfalso. eapply (loop_total order st mc roots); eauto. apply no_objects.
Qed.
End Success.

Lemma top_succeeds order p mc sh is_item lb l ls rb r rs : (forall es, Permutation es (order es)) -> wf_bag lb -> wf_bag rb ->
  (is_item = true -> length l = 1) -> length l = length r -> (0 <= mc)%Z ->
  readable_from lb (nodes_of l ls) -> readable_from rb (nodes_of r rs) ->
  exists found fuel0, forall fuel, fuel0 <= fuel ->
    mismatches order fuel p mc sh sh is_item lb l ls rb r rs = Some (Ok (Differences found)).
Proof.
  intros perm Wl Wr one sizes M (ul & Il & Rl & Cl & Kl) (ur & Ir & Rr & Cr & Kr). unfold mismatches.
  destruct (Z.ltb_spec mc 0); [lia|].
  destruct (list_eq_dec (list_eq_dec Nat.eq_dec) sh sh); [|congruence]. unfold compare_slices.
  rewrite (proj2 (Nat.eqb_eq _ _) sizes). cbn [negb].
  destruct (items_total p ls rs (or_missing l) (or_missing r) empty_state) as [[st0 rn] I]. rewrite I.
  assert (IN : inside ul ur st0).
  { eapply items_inside; [apply inside_start| | |exact I]; intros x X; [apply Il|apply Ir]; apply nodes_in; exact X. }
  destruct (start_facts p lb rb is_item l ls r rs one st0 rn sizes I) as (V & _).
  destruct (deep_total p lb rb Wl Wr ul ur (fun n X => proj1 (Rl n X)) (fun n X => proj1 (Rr n X)) Cl Cr
              (fun n X => proj2 (Rl n X)) (fun n X => proj2 (Rr n X)) _ (todo ul ur st0) st0 IN V (le_n _)) as [st D].
  destruct (find_total order p (Z.to_nat mc) is_item lb l ls rb r rs perm Wl Wr one sizes ul ur Il Ir Cl Cr Kl Kr st0 st rn _ I D)
    as (found & f0 & F).
  exists found, (Nat.max (todo ul ur st0) f0). intros fuel L. rewrite (deep_more _ _ _ _ _ _ fuel D) by lia.
  rewrite (F fuel) by lia. reflexivity.
Qed.

(** Everything is equivalent to itself *)
Lemma same_equivalent p b ns : (exists u, incl ns u /\ (forall n, In n u -> a_type (n_schema n)) /\
    forall n f n', In n u -> goes b n f n' -> In n' u) -> wf_bag b -> Forall2 (equivalent p b b) ns ns.
Proof.
  intros (u & I & T & C) W.
  assert (B : bisimulation p b b (fun x y => x = y /\ In x u)).
  { constructor.
    - intros x y [<- X]. split.
      + intros _. destruct (T x X) as [(k & n & ->)|[d ->]]; constructor; reflexivity.
      + destruct (is_obj (n_item x)) eqn:O; cbn.
        * destruct (p_ids p); cbn; [left; apply same_obj; auto|]. split; [repeat split|auto].
        * destruct (is_nan (n_item x)) eqn:N; [auto|left; constructor; auto].
    - intros x y f x' y' [<- X] V G G'. left. split; [eapply goes_fun; eauto|eauto].
    - intros x y f x' [<- X] V G _. eauto.
    - intros x y f x' [<- X] V G _. eauto. }
  assert (H : forall n, In n ns -> equivalent p b b n n) by (intros n N; exists (fun x y => x = y /\ In x u); auto).
  clear - H. induction ns as [|n ns IH]; constructor; [apply H; left; reflexivity|]. apply IH. intros x X. apply H. right. exact X.
Qed.
