(** The worklist computes exactly the needed bags whatever element is popped,
    and sorting by index gives the order in which the bags were added. *)
From Coq Require Import String.
From Coq Require Import NArith List Bool PeanoNat Lia Relations Permutation.
From Verif Require Import StoreModel StoreSpec.
Import ListNotations.
Local Open Scope nat_scope.

Lemma has_name_In s l : has_name s l = true <-> In s l.
Proof.
  unfold has_name. rewrite existsb_exists. split.
  - intros (x & I & E). apply String.eqb_eq in E. now subst.
  - intros I. exists s. split; [exact I|apply String.eqb_refl].
Qed.

Lemma has_name_false s l : has_name s l = false <-> ~ In s l.
Proof.
  rewrite <- has_name_In. destruct (has_name s l); split; congruence || (intros H; exfalso; now apply H).
Qed.

Lemma set_add_In l s x : In x (set_add l s) <-> In x l \/ x = s.
Proof.
  unfold set_add. destruct (has_name s l) eqn:E.
  - apply has_name_In in E. split; [auto|]. intros [H | -> ]; auto.
  - rewrite in_app_iff. cbn. intuition.
Qed.

Lemma NoDup_snoc {A} (l : list A) x : NoDup l -> ~ In x l -> NoDup (l ++ [x]).
Proof.
  intros N I. apply Permutation_NoDup with (x :: l).
  - rewrite Permutation_app_comm. reflexivity.
  - constructor; auto.
Qed.

Lemma set_add_NoDup l s : NoDup l -> NoDup (set_add l s).
Proof.
  intros N. unfold set_add. destruct (has_name s l) eqn:E; [exact N|].
  apply has_name_false in E. now apply NoDup_snoc.
Qed.

Lemma set_update_In ss : forall l x, In x (set_update l ss) <-> In x l \/ In x ss.
Proof.
  induction ss as [|s ss IH]; intros l x; [cbn; intuition|].
  change (set_update l (s :: ss)) with (set_update (set_add l s) ss). cbn [In].
  rewrite IH, set_add_In. intuition congruence.
Qed.

Lemma set_update_NoDup ss : forall l, NoDup l -> NoDup (set_update l ss).
Proof.
  induction ss as [|s ss IH]; intros l N; [exact N|].
  change (set_update l (s :: ss)) with (set_update (set_add l s) ss).
  apply IH. now apply set_add_NoDup.
Qed.

Section Closure.
Variable pick : list string -> nat.

Lemma pop_spec l :
  match pop pick l with
  | None => l = []
  | Some (x, l') => Permutation l (x :: l')
  end.
Proof.
  destruct l as [|y l]; [reflexivity|]. unfold pop.
  set (m := y :: l). set (i := pick m mod length m).
  assert (L : i < length m) by (apply Nat.mod_upper_bound; discriminate).
  clearbody i.
  assert (E : m = firstn i m ++ nth i m y :: skipn (S i) m).
  { clearbody m. clear l. revert m L. generalize y. clear y. intros y.
    induction i as [|i IH]; intros [|z m] L; cbn [length] in *; try lia; [reflexivity|].
    cbn. f_equal. apply IH. lia. }
  rewrite E at 1. symmetry. apply Permutation_middle.
Qed.

Variable relation : string -> option (list string).
Variable names : list string.
Hypothesis total : forall x, In x names ->
  exists ds, relation x = Some ds /\ forall y, In y ds -> In y names.

Definition edge (a b : string) : Prop := exists ds, relation a = Some ds /\ In b ds.
Definition reachable (init : list string) (x : string) : Prop :=
  exists a, In a init /\ clos_refl_trans string edge a x.

Lemma closure_loop_ok init : forall fuel unvisited result,
  NoDup unvisited -> NoDup result ->
  incl unvisited names -> incl result names ->
  (length names - length result) * S (length names) + length unvisited < fuel ->
  (forall x, In x init -> In x unvisited \/ In x result) ->
  (forall x, In x unvisited \/ In x result -> reachable init x) ->
  (forall x y, In x result -> edge x y -> In y unvisited \/ In y result) ->
  exists l, closure_loop pick fuel relation unvisited result = Some l
    /\ NoDup l /\ forall x, In x l <-> reachable init x.
Proof.
  induction fuel as [|fuel IH]; intros unv res N1 N2 I1 I2 F HI HR HC; [now apply Nat.nlt_0_r in F|].
  cbn [closure_loop]. pose proof (pop_spec unv) as P.
  destruct (pop pick unv) as [[cur unv']|].
  2:{ subst unv. exists res. split; [reflexivity|]. split; [exact N2|].
      intros x. split; [auto|]. intros (a & A & R).
      assert (In a res) as Ia by (destruct (HI a A); [easy|auto]).
      clear A. apply clos_rt_rtn1 in R. induction R as [|y z E R IH2]; [exact Ia|].
      destruct (HC y z IH2 E); [easy|assumption]. }
  assert (PI : forall x, In x unv <-> x = cur \/ In x unv').
  { intros x. split; intros H.
    - eapply Permutation_in in H; [|exact P]. destruct H as [H|H]; auto.
    - eapply Permutation_in; [symmetry; exact P|]. destruct H as [ -> |H]; [now left|now right]. }
  assert (NC : NoDup (cur :: unv')) by (eapply Permutation_NoDup; eauto).
  assert (LU : length unv = S (length unv')) by (apply Permutation_length in P; exact P).
  inversion NC as [|? ? NC1 NC2]; subst.
  destruct (has_name cur res) eqn:E.
  - apply has_name_In in E. apply IH; auto.
    + intros x X. apply I1, PI. auto.
    + lia.
    + intros x X. destruct (HI x X) as [H|H]; [|auto]. apply PI in H as [ -> |H]; auto.
    + intros x [X|X]; apply HR; [left; apply PI|]; auto.
    + intros x y X Y. destruct (HC x y X Y) as [H|H]; [|auto].
      apply PI in H as [ -> |H]; auto.
  - apply has_name_false in E.
    assert (IC : In cur names) by (apply I1, PI; auto).
    destruct (total cur IC) as (ds & RE & DS). rewrite RE.
    apply IH.
    + now apply set_update_NoDup.
    + now apply NoDup_snoc.
    + intros x X. apply set_update_In in X as [X|X]; [apply I1, PI; auto|auto].
    + intros x X. apply in_app_iff in X as [X|[ <- |[]]]; auto.
    + assert (L1 : length (res ++ [cur]) <= length names).
      { apply NoDup_incl_length; [now apply NoDup_snoc|].
        intros x X. apply in_app_iff in X as [X|[ <- |[]]]; auto. }
      assert (L2 : length (set_update unv' ds) <= length names).
      { apply NoDup_incl_length; [now apply set_update_NoDup|].
        intros x X. apply set_update_In in X as [X|X]; [apply I1, PI; auto|auto]. }
      rewrite app_length in *. cbn [length] in *.
      replace (length names - length res)
        with (S (length names - (length res + 1))) in F by lia.
      rewrite Nat.mul_succ_l in F. lia.
    + intros x X. rewrite set_update_In, in_app_iff. cbn.
      destruct (HI x X) as [H|H]; [|auto]. apply PI in H as [ -> |H]; auto.
    + intros x X. rewrite set_update_In, in_app_iff in X. cbn in X.
      destruct X as [[X|X]|[X|[ <- |[]]]].
      * apply HR. left. apply PI. auto.
      * destruct (HR cur) as (a & A & R); [left; apply PI; auto|].
        exists a. split; [exact A|]. eapply rt_trans; [exact R|].
        apply rt_step. exists ds. auto.
      * auto.
      * apply HR. left. apply PI. auto.
    + intros x y X Y. rewrite set_update_In, in_app_iff. cbn.
      apply in_app_iff in X as [X|[ <- |[]]].
      * destruct (HC x y X Y) as [H|H]; [|auto]. apply PI in H as [ -> |H]; auto.
      * destruct Y as (ds' & E' & Y). rewrite RE in E'. injection E' as <-. auto.
Qed.
End Closure.

Section Meta.
Context {Custom : Type}.
Notation meta := (@meta Custom).
Notation entry := (@entry Custom).
Variable pick : list string -> nat.

(** Names are unique and dependencies come first. *)
Definition entries_ok (es : list entry) : Prop :=
  NoDup (map e_name es)
  /\ forall es1 e es2, es = es1 ++ e :: es2 ->
       forall s, In s (e_deps e) -> In s (map e_name es1).
Definition meta_ok (m : meta) : Prop := entries_ok (m_bags m).

Definition entry_depends (es : list entry) (a b : string) : Prop :=
  exists e, In e es /\ e_name e = a /\ In b (e_deps e).

Lemma entry_unique (es : list entry) e1 e2 :
  NoDup (map e_name es) -> In e1 es -> In e2 es -> e_name e1 = e_name e2 -> e1 = e2.
Proof.
  induction es as [|e es IH]; intros N I1 I2 E; [easy|].
  inversion N as [|? ? N1 N2]; subst.
  destruct I1 as [ -> |I1], I2 as [ -> |I2]; auto.
  - exfalso. apply N1. rewrite E. now apply in_map.
  - exfalso. apply N1. rewrite <- E. now apply in_map.
Qed.

Lemma dependency_relation_ok (m : meta) e :
  meta_ok m -> In e (m_bags m) -> dependency_relation m (e_name e) = Some (e_deps e).
Proof.
  intros [N _] I. unfold dependency_relation.
  destruct (find _ (rev (m_bags m))) as [e'|] eqn:F.
  - apply find_some in F as [F1 F2]. apply String.eqb_eq in F2.
    apply in_rev in F1. now rewrite (entry_unique (m_bags m) e' e).
  - eapply find_none in F; [|apply in_rev; rewrite rev_involutive; exact I].
    cbn in F. rewrite String.eqb_refl in F. discriminate.
Qed.

Lemma name_entry (m : meta) s :
  In s (names_of m) <-> exists e, In e (m_bags m) /\ e_name e = s.
Proof.
  unfold names_of. rewrite in_map_iff. split; intros (e & A & B); eauto.
Qed.

Lemma dep_is_name (m : meta) e s :
  meta_ok m -> In e (m_bags m) -> In s (e_deps e) -> In s (names_of m).
Proof.
  intros [_ D] I S. apply in_split in I as (es1 & es2 & E).
  specialize (D es1 e es2 E s S). unfold names_of. rewrite E, map_app, in_app_iff. auto.
Qed.

Lemma forward_edge (m : meta) a b : meta_ok m ->
  (edge (dependency_relation m) a b <-> entry_depends (m_bags m) a b).
Proof.
  intros OK. split.
  - intros (ds & R & I). unfold dependency_relation in R.
    destruct (find _ (rev (m_bags m))) as [e|] eqn:F; [|discriminate].
    injection R as <-. apply find_some in F as [F1 F2]. apply String.eqb_eq in F2.
    apply in_rev in F1. exists e. auto.
  - intros (e & I & <- & B). exists (e_deps e). split; [|exact B].
    now apply dependency_relation_ok.
Qed.

Lemma backward_edge (m : meta) a b :
  edge (reverse_dependency_relation m) a b <-> entry_depends (m_bags m) b a.
Proof.
  unfold edge, reverse_dependency_relation, entry_depends. split.
  - intros (ds & [= <-] & I). apply in_map_iff in I as (e & <- & I).
    apply filter_In in I as [I H]. apply has_name_In in H. eauto.
  - intros (e & I & <- & A). eexists. split; [reflexivity|].
    apply in_map. apply filter_In. split; [exact I|]. now apply has_name_In.
Qed.

Definition entries_star (m : meta) : string -> string -> Prop :=
  clos_refl_trans string (entry_depends (m_bags m)).

Definition entries_needed (m : meta) (names : list string) (deps : bool)
  (b : string) : Prop :=
  exists a, entries_star m a b
    /\ (In a names \/ deps = true /\ exists n, In n names /\ entries_star m a n).

Lemma clos_impl (R Q : string -> string -> Prop) a b :
  (forall x y, R x y -> Q x y) -> clos_refl_trans string R a b ->
  clos_refl_trans string Q a b.
Proof.
  intros H C. induction C; [apply rt_step; auto|apply rt_refl|eapply rt_trans; eauto].
Qed.

Lemma clos_flip (R Q : string -> string -> Prop) a b :
  (forall x y, R x y -> Q y x) -> clos_refl_trans string R a b ->
  clos_refl_trans string Q b a.
Proof.
  intros H C. induction C; [apply rt_step; auto|apply rt_refl|eapply rt_trans; eauto].
Qed.

Theorem dependency_closure_ok (m : meta) names deps : meta_ok m ->
  (forall s, In s names -> In s (names_of m)) ->
  exists l, dependency_closure pick m names deps = inl l
    /\ NoDup l /\ forall x, In x l <-> entries_needed m names deps x.
Proof.
  intros OK Known. unfold dependency_closure.
  set (ns := set_update [] names).
  assert (NS : forall x, In x ns <-> In x names).
  { intros x. subst ns. rewrite set_update_In. cbn. intuition. }
  assert (ND : NoDup ns) by (apply set_update_NoDup; constructor).
  replace (forallb (fun s => has_name s (names_of m)) ns) with true.
  2:{ symmetry. apply forallb_forall. intros x X. apply has_name_In, Known, NS, X. }
  cbn [negb].
  assert (LN : length (names_of m) = length (m_bags m)) by apply map_length.
  assert (FU : forall l, NoDup l -> incl l (names_of m) ->
    (length (names_of m) - length (@nil string)) * S (length (names_of m))
      + length l < closure_fuel m).
  { intros l N I. unfold closure_fuel. apply (NoDup_incl_length N) in I.
    rewrite LN in *. cbn [length]. lia. }
  assert (Second : forall l, NoDup l -> incl l (names_of m) ->
    exists r, closure_loop pick (closure_fuel m) (dependency_relation m) l [] = Some r
      /\ NoDup r /\ forall x, In x r <-> reachable (dependency_relation m) l x).
  { intros l N I.
    apply (closure_loop_ok pick (dependency_relation m) (names_of m)).
    - intros x X. apply name_entry in X as (e & E1 & <-). exists (e_deps e).
      split; [now apply dependency_relation_ok|]. intros y Y. eapply dep_is_name; eauto.
    - exact N.
    - constructor.
    - exact I.
    - easy.
    - now apply FU.
    - auto.
    - intros x [X|[]]. exists x. split; [exact X|apply rt_refl].
    - easy. }
  assert (IN : incl ns (names_of m)) by (intros x X; apply Known, NS, X).
  destruct deps.
  - destruct (closure_loop_ok pick (reverse_dependency_relation m) (names_of m))
      with (init := ns) (fuel := closure_fuel m) (unvisited := ns) (result := @nil string)
      as (l1 & E1 & N1 & H1).
    + intros x X. eexists. split; [reflexivity|]. intros y Y.
      apply in_map_iff in Y as (e & <- & Y). apply filter_In in Y as [Y _].
      unfold names_of. now apply in_map.
    + exact ND.
    + constructor.
    + exact IN.
    + easy.
    + now apply FU.
    + auto.
    + intros x [X|[]]. exists x. split; [exact X|apply rt_refl].
    + easy.
    + rewrite E1.
      assert (I2 : incl (set_update ns l1) (names_of m)).
      { intros x X. apply set_update_In in X as [X|X]; [auto|].
        apply H1 in X as (a & A & R).
        apply clos_rt_rtn1 in R. destruct R as [|y z E R]; [auto|].
        apply backward_edge in E as (e & I & <- & _). unfold names_of. now apply in_map. }
      destruct (Second (set_update ns l1)) as (r & -> & N2 & H2);
        [now apply set_update_NoDup|exact I2|].
      exists r. split; [reflexivity|]. split; [exact N2|]. intros x. rewrite H2.
      split.
      * intros (a & A & R). exists a. split.
        -- eapply clos_impl; [|exact R]. intros y z. now apply forward_edge.
        -- apply set_update_In in A as [A|A]; [left; now apply NS|right].
           split; [reflexivity|]. apply H1 in A as (n & NI & RR). exists n.
           split; [now apply NS|]. eapply clos_flip; [|exact RR].
           intros y z. apply backward_edge.
      * intros (a & R & A). exists a. split.
        -- apply set_update_In. destruct A as [A|(_ & n & NI & RR)]; [left; now apply NS|right].
           apply H1. exists n. split; [now apply NS|].
           eapply clos_flip; [|exact RR]. intros y z. apply backward_edge.
        -- eapply clos_impl; [|exact R]. intros y z. now apply forward_edge.
  - destruct (Second ns ND IN) as (r & -> & N2 & H2).
    exists r. split; [reflexivity|]. split; [exact N2|]. intros x. rewrite H2. split.
    + intros (a & A & R). exists a. split.
      * eapply clos_impl; [|exact R]. intros y z. now apply forward_edge.
      * left. now apply NS.
    + intros (a & R & [A|(H & _)]); [|discriminate]. exists a. split; [now apply NS|].
      eapply clos_impl; [|exact R]. intros y z. now apply forward_edge.
Qed.

Theorem dependency_closure_unknown (m : meta) names deps s :
  In s names -> ~ In s (names_of m) ->
  dependency_closure pick m names deps = inr UnknownBags.
Proof.
  intros I U. unfold dependency_closure.
  replace (forallb (fun s => has_name s (names_of m)) (set_update [] names)) with false;
    [reflexivity|].
  symmetry. apply not_true_is_false. intros F. rewrite forallb_forall in F.
  apply U. apply has_name_In. apply F. apply set_update_In. auto.
Qed.

Lemma needed_is_name (m : meta) names deps x : meta_ok m ->
  (forall s, In s names -> In s (names_of m)) ->
  entries_needed m names deps x -> In x (names_of m).
Proof.
  intros OK Known (a & R & A).
  apply clos_rt_rtn1 in R. destruct R as [|y z E R].
  - destruct A as [A|(_ & n & NI & RR)]; [auto|].
    apply clos_rt_rt1n in RR. destruct RR as [|y z E RR]; [auto|].
    destruct E as (e & I & <- & _). unfold names_of. now apply in_map.
  - destruct E as (e & I & _ & B). eapply dep_is_name; eauto.
Qed.

(** ** Sorting *)

Lemma last_index_absent s l : forall i f, ~ In s l -> last_index s l i f = f.
Proof.
  induction l as [|x l IH]; intros i f N; cbn; [reflexivity|].
  destruct (String.eqb_spec x s) as [ -> |D]; [exfalso; apply N; now left|].
  apply IH. intros I. apply N. now right.
Qed.

Lemma last_index_app s l1 l2 : forall i f, ~ In s l2 ->
  last_index s (l1 ++ s :: l2) i f = Some (i + length l1).
Proof.
  induction l1 as [|x l1 IH]; intros i f N; cbn.
  - rewrite String.eqb_refl, last_index_absent by exact N. f_equal. lia.
  - rewrite IH by exact N. f_equal. lia.
Qed.

Lemma add_index_at (m : meta) l1 s l2 :
  names_of m = l1 ++ s :: l2 -> NoDup (names_of m) -> add_index m s = length l1.
Proof.
  intros E N. unfold add_index. rewrite E in *. rewrite last_index_app; [reflexivity|].
  apply NoDup_remove_2 in N. intros I. apply N. apply in_app_iff. auto.
Qed.

(** the index order, on names of the manager *)
Inductive ascending (key : string -> nat) : list string -> Prop :=
| ascending_nil : ascending key []
| ascending_cons s l :
    (forall x, In x l -> key s < key x) -> ascending key l -> ascending key (s :: l).

Lemma insert_sorted_In key s l x :
  In x (insert_sorted key s l) <-> x = s \/ In x l.
Proof.
  induction l as [|y l IH]; cbn [insert_sorted In]; [intuition|].
  destruct (key y <? key s); cbn [In]; [rewrite IH|]; intuition.
Qed.

Lemma insert_sorted_ascending key s l :
  (forall x, In x l -> key x <> key s) -> ascending key l ->
  ascending key (insert_sorted key s l).
Proof.
  induction l as [|y l IH]; intros D A; cbn [insert_sorted].
  - constructor; [easy|constructor].
  - inversion A as [|? ? A1 A2]; subst.
    destruct (Nat.ltb_spec (key y) (key s)) as [L|L].
    + constructor.
      * intros x X. apply insert_sorted_In in X as [ -> |X]; auto.
      * apply IH; [|exact A2]. intros x X. apply D. now right.
    + assert (key y <> key s) by (apply D; now left).
      constructor; [|exact A].
      intros x [ <- |X]; [lia|]. specialize (A1 x X). lia.
Qed.

Lemma ascending_unique key : forall l1 l2,
  ascending key l1 -> ascending key l2 -> (forall x, In x l1 <-> In x l2) -> l1 = l2.
Proof.
  induction l1 as [|a l1 IH]; intros [|b l2] A1 A2 H.
  - reflexivity.
  - exfalso. apply (H b). now left.
  - exfalso. apply (H a). now left.
  - inversion A1 as [|? ? X1 Y1]; inversion A2 as [|? ? X2 Y2]; subst.
    assert (a = b) as ->.
    { destruct (proj1 (H a) (or_introl eq_refl)) as [E|E]; [auto|].
      destruct (proj2 (H b) (or_introl eq_refl)) as [E'|E']; [auto|].
      specialize (X1 b E'). specialize (X2 a E). lia. }
    f_equal. apply IH; auto. intros x. split; intros I.
    + destruct (proj1 (H x) (or_intror I)) as [ <- |]; [|auto].
      specialize (X1 b I). lia.
    + destruct (proj2 (H x) (or_intror I)) as [ <- |]; [|auto].
      specialize (X2 b I). lia.
Qed.

Lemma suffix_ascending (m : meta) (f : string -> bool) : NoDup (names_of m) ->
  forall l1 l2, names_of m = l1 ++ l2 -> ascending (add_index m) (filter f l2).
Proof.
  intros N l1 l2; revert l1. induction l2 as [|s l2 IH]; intros l1 E; [constructor|].
  assert (E2 : names_of m = (l1 ++ [s]) ++ l2) by (rewrite E, <- app_assoc; reflexivity).
  cbn [filter]. destruct (f s); [|now apply (IH (l1 ++ [s]))].
  constructor; [|now apply (IH (l1 ++ [s]))].
  intros x X. apply filter_In in X as [X _].
  rewrite (add_index_at m l1 s l2 E N).
  apply in_split in X as (u & v & ->).
  rewrite (add_index_at m (l1 ++ s :: u) x v); [|rewrite E, <- app_assoc; reflexivity|exact N].
  rewrite app_length. cbn. lia.
Qed.

Lemma add_index_inj (m : meta) a b : NoDup (names_of m) ->
  In a (names_of m) -> In b (names_of m) -> add_index m a = add_index m b -> a = b.
Proof.
  intros N A B E. apply in_split in A as (l1 & l2 & EA). apply in_split in B as (k1 & k2 & EB).
  rewrite (add_index_at m l1 a l2 EA N), (add_index_at m k1 b k2 EB N) in E.
  rewrite EA in EB. clear EA.
  revert k1 EB E. induction l1 as [|x l1 IH]; intros [|y k1] EB E; cbn in *; try discriminate.
  - congruence.
  - injection EB as _ EB. eapply IH; eauto.
Qed.

Theorem sorting_ok (m : meta) l : NoDup (names_of m) -> NoDup l -> incl l (names_of m) ->
  canonical_topological_sorting m l = filter (fun s => has_name s l) (names_of m).
Proof.
  intros N NL I. unfold canonical_topological_sorting.
  assert (G : forall l, NoDup l -> incl l (names_of m) ->
    ascending (add_index m) (fold_right (insert_sorted (add_index m)) [] l)
    /\ forall x, In x (fold_right (insert_sorted (add_index m)) [] l) <-> In x l).
  { clear l NL I. induction l as [|s l IH]; intros NL I; cbn.
    - split; [constructor|intuition].
    - inversion NL as [|? ? D NL']; subst.
      destruct IH as [A H]; [exact NL'|intros x X; apply I; now right|].
      split.
      + apply insert_sorted_ascending; [|exact A]. intros x X E.
        apply add_index_inj in E; [|exact N|apply I; right; now apply H|apply I; now left].
        subst. apply D. now apply H.
      + intros x. rewrite insert_sorted_In, H. intuition. }
  destruct (G l NL I) as [A H].
  apply (ascending_unique (add_index m)); [exact A| |].
  - now apply (suffix_ascending m _ N []).
  - intros x. rewrite H, filter_In, has_name_In. intuition.
Qed.

End Meta.
