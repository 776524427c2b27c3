From Coq Require Import String List Bool Arith NArith ZArith Lia Permutation.
From Verif Require Import DeepCompareModel DeepCompareSpec DeepCompareOrderProofs DeepCompareStepProofs DeepCompareRunProofs DeepCompareFindProofs.
Import ListNotations.
Local Open Scope string_scope.
Local Open Scope nat_scope.
Local Open Scope list_scope.

(** * The items of the slices *)
Lemma inv_start p lb rb : inv p lb rb 0 empty_state None.
Proof. constructor; cbn; try contradiction; try discriminate; auto; lia. Qed.

Definition root_ok (p : params) (st : state) (a b : node) (t : rnode) : Prop :=
  (alike p a b /\ tok_of (s_tokens st) (a, b) t) \/
  (~ alike p a b /\ exists n, t = RDiff n (DMismatch a b (schema_mismatch p a b)) /\ n < s_next st).
Lemma root_ok_mono p st st' a b t : incl (s_tokens st) (s_tokens st') -> s_next st <= s_next st' ->
  root_ok p st a b t -> root_ok p st' a b t.
Proof.
  intros I N [[A B]|[A (n & B & C)]]; [left|right]; split; auto.
  - eapply tok_mono; eauto.
  - exists n. split; auto. lia.
Qed.

Lemma items_ok p lb rb ls rs : forall l r st st' roots, inv p lb rb 0 st None -> s_edges st = [] -> length l = length r ->
  compare_items p ls rs st l r = Ok (st', roots) ->
  inv p lb rb 0 st' None /\ s_edges st' = [] /\ incl (s_tokens st) (s_tokens st') /\ s_next st <= s_next st' /\
  length roots = length l /\
  (forall i x y t, nth_error l i = Some x -> nth_error r i = Some y -> nth_error roots i = Some t ->
     root_ok p st' (mkNode x ls) (mkNode y rs) t) /\
  (forall i n d, nth_error roots i = Some (RDiff n d) -> s_next st <= n < s_next st') /\
  (forall i j n d d', nth_error roots i = Some (RDiff n d) -> nth_error roots j = Some (RDiff n d') -> i = j).
Proof.
  induction l as [|x l IH]; intros [|y r] st st' roots I E L H; cbn in L; try discriminate; cbn [compare_items] in H.
  { assert (st' = st) by congruence. assert (roots = []) by congruence. subst. split; [auto|]. split; [auto|].
    split; [apply incl_refl|]. split; [lia|]. split; [auto|]. split; [|split]; intros [|]; cbn; discriminate. }
  inv_bind H. destruct a as [s1 t]. inv_bind H. destruct a as [s2 ts]. cbn [fst snd] in H.
  assert (st' = s2) by congruence. assert (roots = t :: ts) by congruence. subst st' roots. clear H.
  assert (G : inv p lb rb 0 s1 None /\ s_edges s1 = [] /\ incl (s_tokens st) (s_tokens s1) /\ s_next st <= s_next s1 /\
              root_ok p s1 (mkNode x ls) (mkNode y rs) t /\ (forall n d, t = RDiff n d -> s_next st <= n < s_next s1)).
  { destruct (equal p (mkNode x ls) (mkNode y rs)) eqn:Q.
    - apply equal_iff in Q. destruct (add_ok _ _ _ _ _ _ _ _ _ _ I Q E0) as (A & B & C & D & F).
      split; [exact A|]. split; [congruence|]. split; [exact C|]. split; [exact F|]. split; [left; auto|].
      intros n d ->. destruct (tok_ok_of _ _ _ _ _ _ _ _ A B) as [z Z]. contradiction.
    - assert (NA : ~ alike p (mkNode x ls) (mkNode y rs)) by (rewrite <- equal_iff, Q; discriminate).
      unfold create_diff in E0.
      assert (X1 := f_equal (fun z => match z with Ok a => fst a | Err _ => s1 end) E0). cbn [fst] in X1.
      assert (X2 := f_equal (fun z => match z with Ok a => snd a | Err _ => t end) E0). cbn [snd] in X2. subst s1 t.
      cbn [s_tokens s_next s_edges]. split; [apply inv_bump; exact I|]. split; [exact E|]. split; [apply incl_refl|].
      split; [lia|]. split.
      + right. split; [exact NA|]. eexists. split; [reflexivity|]. cbn. lia.
      + intros n d W. assert (n = s_next st) by congruence. lia. }
  destruct G as (I1 & ED1 & T1 & N1 & R1 & F1).
  destruct (IH r s1 s2 ts I1 ED1 ltac:(lia) E1) as (I2 & ED2 & T2 & N2 & L2 & R2 & F2 & D2).
  split; [exact I2|]. split; [exact ED2|]. split; [eapply incl_tran; eauto|]. split; [lia|]. split; [cbn; lia|].
  split; [|split].
  - intros [|i] x' y' t'; cbn; [|eauto]. intros A B C. assert (x' = x) by congruence. assert (y' = y) by congruence.
    assert (t' = t) by congruence. subst. eapply root_ok_mono; eauto.
  - intros [|i] n d; cbn.
    + intros A. assert (W : t = RDiff n d) by congruence. apply F1 in W. lia.
    + intros A. apply F2 in A. lia.
  - intros [|i] [|j] n d d'; cbn; intros A B; auto.
    + exfalso. assert (W : t = RDiff n d) by congruence. apply F1 in W. apply F2 in B. lia.
    + exfalso. assert (W : t = RDiff n d') by congruence. apply F1 in W. apply F2 in A. lia.
    + f_equal. eapply D2; eauto.
Qed.

Lemma inv_rebase p lb rb st : s_edges st = [] -> inv p lb rb 0 st None -> inv p lb rb (s_next st) st None.
Proof.
  intros E [A B C D F G H K]. constructor; auto.
  intros e X. rewrite E in X. contradiction.
Qed.

Lemma alike_kind p l r : alike p l r ->
  (n_item l = Missing <-> n_item r = Missing) /\ (is_obj (n_item l) = is_obj (n_item r)).
Proof.
  intros [_ H]. destruct (is_obj (n_item l)) eqn:L, (is_obj (n_item r)) eqn:R; cbn in H.
  - split; [|auto]. destruct (n_item l), (n_item r); try discriminate; split; discriminate.
  - destruct H as [H|[H _]]; [|destruct (n_item l); discriminate]. apply same_obj in H; auto. rewrite H in L. congruence.
  - destruct H as [H|[_ H]]; [|destruct (n_item r); discriminate]. apply same_sym, same_obj in H; auto. rewrite H in R. congruence.
  - split; [|auto]. destruct H as [H|[H K]].
    + inversion H; split; congruence.
    + destruct (n_item l), (n_item r); try discriminate; split; discriminate.
Qed.
Lemma value_primitive x : has_value x = true -> is_obj x = false -> primitive x.
Proof. destruct x; try discriminate; split; try congruence. Qed.
Lemma primitive_iff x : primitive x <-> has_value x = true /\ is_obj x = false.
Proof.
  split; [|intros [A B]; apply value_primitive; auto]. intros [A B]. destruct x; cbn; auto.
  exfalso. apply (B k n). reflexivity.
Qed.
Lemma alike_primitive p l r : alike p l r -> primitive (n_item l) <-> primitive (n_item r).
Proof.
  intros A. destruct (alike_kind _ _ _ A) as [M O]. rewrite !primitive_iff, O.
  assert (has_value (n_item l) = has_value (n_item r)) as ->; [|tauto].
  destruct (has_value (n_item l)) eqn:X, (has_value (n_item r)) eqn:Y; auto; exfalso.
  - assert (n_item r = Missing) by (destruct (n_item r); cbn in Y; congruence). apply M in H. rewrite H in X. discriminate.
  - assert (n_item l = Missing) by (destruct (n_item l); cbn in X; congruence). apply M in H. rewrite H in Y. discriminate.
Qed.

Lemma same_type a b : a_type a -> same_item a b -> a = b.
Proof. intros [(k & n & ->)|[d ->]] H; inversion H; auto. Qed.
Lemma equal_or_nan_kind a b : equal_or_nan a b = true -> (a = Missing \/ is_obj a = true) -> a = b.
Proof.
  unfold equal_or_nan. rewrite orb_true_iff, andb_true_iff. intros [[H _]|H] K.
  - destruct a; cbn in *; try discriminate; destruct K; discriminate.
  - apply item_eqb_same in H. destruct K as [->|K]; [inversion H; auto|apply same_obj; auto].
Qed.
Lemma equal_or_nan_primitive a b : equal_or_nan a b = true -> primitive a -> primitive b.
Proof.
  unfold equal_or_nan. rewrite orb_true_iff, andb_true_iff, !primitive_iff. intros [[_ H]|H] K.
  - destruct b; cbn in *; try discriminate; auto.
  - apply item_eqb_same in H. inversion H; subst; auto.
Qed.

(** * The finished comparison *)
Section Final.
Variables (p : params) (lb rb : bag).
Hypothesis Wl : wf_bag lb.
Hypothesis Wr : wf_bag rb.
Variables (is_item : bool) (l : list item) (ls : item) (r : list item) (rs : item).
Hypothesis one : is_item = true -> length l = 1.
Variables (order : list edge -> list edge) (st0 st : state) (rnodes : list rnode) (fuel : nat).
Hypothesis perm : forall es, Permutation es (order es).
Hypothesis sizes : length l = length r.
Hypothesis items : compare_items p ls rs empty_state (or_missing l) (or_missing r) = Ok (st0, rnodes).
Hypothesis deep : deep_compare fuel p lb rb st0 = Some (Ok st).
Notation roots := (combine (root_keys is_item l) rnodes).
Notation rpath := (rpath order st roots).
Notation pair_at := (pair_at is_item l ls r rs).
Notation T := (s_tokens st).

Lemma or_missing_length : length (or_missing l) = length (or_missing r).
Proof. clear - sizes. destruct l, r; cbn in *; congruence. Qed.
Lemma nodes_map x s : nodes_of x s = map (fun y => mkNode y s) (or_missing x).
Proof. destruct x; reflexivity. Qed.
Lemma start_facts : inv p lb rb (s_next st0) st0 None /\ length rnodes = length (or_missing l) /\
  (forall i x y t, nth_error (or_missing l) i = Some x -> nth_error (or_missing r) i = Some y -> nth_error rnodes i = Some t ->
     root_ok p st0 (mkNode x ls) (mkNode y rs) t) /\
  (forall i n d, nth_error rnodes i = Some (RDiff n d) -> n < s_next st0) /\
  (forall i j n d d', nth_error rnodes i = Some (RDiff n d) -> nth_error rnodes j = Some (RDiff n d') -> i = j).
Proof.
  destruct (items_ok p lb rb ls rs _ _ _ _ _ (inv_start p lb rb) eq_refl or_missing_length items)
    as (A & B & _ & _ & C & D & E & F).
  split; [apply inv_rebase; auto|]. split; [exact C|]. split; [exact D|]. split; [|exact F].
  intros i n d H. apply E in H. lia.
Qed.
Lemma final_inv : inv p lb rb (s_next st0) st None /\ s_stack st = [].
Proof. eapply deep_ok; eauto. apply start_facts. Qed.
Lemma deep_grows fl : forall s s', deep_compare fl p lb rb s = Some (Ok s') -> inv p lb rb (s_next st0) s None -> incl (s_tokens s) (s_tokens s').
Proof.
  induction fl as [|fl IH]; intros s s' H I; cbn in H; destruct (s_stack s) as [|[[t a] b] rest] eqn:E; try discriminate;
    try (assert (s' = s) by congruence; subst; apply incl_refl).
  match type of H with context [compare_pair ?a ?b ?c ?d ?e ?f ?g] => destruct (compare_pair a b c d e f g) eqn:C end; [|discriminate].
  assert (IP := inv_pop _ _ _ _ _ _ _ _ _ (s_marked s) I E).
  assert (I1 := pair_ok _ _ _ Wl Wr _ _ _ _ _ _ IP C). eapply incl_tran; [|apply (IH _ _ H I1)].
  unfold compare_pair in C. inv_bind C. inv_bind C. inv_bind C. inv_bind C.
  destruct (steps_ok _ _ _ _ _ _ _ _ _ _ _ _ _ _ IP (steps_true _ _ Wl Wr _ _ _ _ _ _ E0 E1 E2 E3)
              (steps_apart _ _ Wl Wr _ _ _ _ _ _ E2 E3) C) as (_ & IT & _).
  exact IT.
Qed.

(** ** Entries of the token map *)
Lemma entry_done a b t : In (a, b, t) T -> done p lb rb T (s_edges st) a b t.
Proof.
  destruct final_inv as [I E]. intros H. destruct (iv_done _ _ _ _ _ _ I _ _ _ H) as [X|[X|X]]; auto.
  - rewrite E in X. contradiction.
  - discriminate.
Qed.
Lemma entry_ok a b t : In (a, b, t) T -> alike p a b /\ token_ok (s_next st) a t.
Proof. destruct final_inv as [I _]. apply (iv_tok _ _ _ _ _ _ I). Qed.
Lemma tok_exact a b k n : tok_of T (a, b) (RTok k n) -> In (a, b, RTok k n) T.
Proof.
  intros ([a' b'] & IN & [E|E]).
  - assert (a' = a) by congruence. assert (b' = b) by congruence. subst. exact IN.
  - destruct (entry_ok _ _ _ IN) as [AL [_ K]]. destruct (dn_types _ _ _ _ _ _ _ _ (entry_done _ _ _ IN)) as [TA TB].
    unfold pair_eqb in E. cbn [fst snd] in E. rewrite !andb_true_iff in E. destruct E as [[[E1 E2] E3] E4].
    apply item_eqb_same in E2, E4. apply same_type in E2, E4; auto.
    destruct (alike_kind _ _ _ AL) as [KM KO].
    apply equal_or_nan_kind in E1; [|exact K].
    apply equal_or_nan_kind in E3; [|rewrite <- KM, <- KO; exact K].
    destruct a, b, a', b'. cbn in *. subst. exact IN.
Qed.
Lemma tok_kind a b t : tok_of T (a, b) t -> (exists k n, t = RTok k n) \/ (primitive (n_item a) /\ exists x, t = RVal x /\ visited_once t = false).
Proof.
  intros ([a' b'] & IN & E). destruct (entry_ok _ _ _ IN) as [AL K]. destruct t as [x|k n|n d]; [right|left; eauto|contradiction].
  destruct K as (-> & HV & NO). assert (P : primitive (n_item a')) by (apply value_primitive; auto). split; [|eauto].
  destruct E as [E|E].
  - assert (a' = a) by congruence. subst. exact P.
  - unfold pair_eqb in E. cbn [fst snd] in E. rewrite !andb_true_iff in E. destruct E as [[[E1 _] _] _].
    eapply equal_or_nan_primitive; eauto.
Qed.
Lemma entry_inj q q' k n : In (q, RTok k n) T -> In (q', RTok k n) T -> q = q'.
Proof. destruct final_inv as [I _]. apply (iv_inj _ _ _ _ _ _ I). Qed.

(** ** Roots *)
Lemma root_key i k : nth_error (root_keys is_item l) i = Some k -> i < length (or_missing l) ->
  k = KSliceItem (if is_item then None else match l with [] => None | _ => Some i end).
Proof.
  unfold root_keys. destruct is_item.
  - specialize (one eq_refl). destruct l as [|x [|]]; try discriminate. destruct i as [|[|]]; cbn; congruence.
  - destruct l as [|x l'] eqn:E.
    + destruct i as [|[|]]; cbn; congruence.
    + rewrite <- E. intros H _. rewrite nth_error_map in H.
      destruct (nth_error (seq 0 (length l)) i) as [j|] eqn:J; [|discriminate]. cbn in H.
      assert (i < length (seq 0 (length l))) by (apply nth_error_Some; congruence). rewrite seq_length in H0.
      apply nth_error_nth with (d := 0) in J. rewrite seq_nth in J; [|exact H0]. cbn in J. congruence.
Qed.
Lemma combine_nth_error {A B} (x : list A) : forall (y : list B) i a b,
  nth_error (combine x y) i = Some (a, b) <-> nth_error x i = Some a /\ nth_error y i = Some b.
Proof.
  induction x as [|u x IH]; intros [|v y] [|i] a b; cbn; try (split; [discriminate|intros [? ?]; discriminate]).
  - split; [intros H; split; congruence|intros [H H']; congruence].
  - apply IH.
Qed.
Lemma root_keys_length : length (root_keys is_item l) = length (or_missing l).
Proof.
  unfold root_keys. destruct is_item.
  - specialize (one eq_refl). destruct l as [|x [|]]; try discriminate. reflexivity.
  - destruct l; [reflexivity|]. rewrite map_length, seq_length. reflexivity.
Qed.
Lemma node_nth x s i y : nth_error (or_missing x) i = Some y -> nth_error (nodes_of x s) i = Some (mkNode y s).
Proof. intros H. rewrite nodes_map, nth_error_map, H. reflexivity. Qed.
Lemma node_nth_inv x s i n : nth_error (nodes_of x s) i = Some n -> exists y, nth_error (or_missing x) i = Some y /\ n = mkNode y s.
Proof. rewrite nodes_map, nth_error_map. destruct (nth_error (or_missing x) i); cbn; [|discriminate]. intros E. exists i0. split; congruence. Qed.

Lemma grown : incl (s_tokens st0) T.
Proof. eapply deep_grows; eauto. apply start_facts. Qed.

Lemma root_sound k t : In (k, t) roots -> exists a b, pair_at k a b /\
  ((alike p a b /\ tok_of T (a, b) t) \/
   (~ alike p a b /\ exists n, t = RDiff n (DMismatch a b (schema_mismatch p a b)) /\ n < s_next st0)).
Proof.
  intros H. apply In_nth_error in H. destruct H as [i H]. apply combine_nth_error in H. destruct H as [HK HT].
  destruct start_facts as (_ & LN & RO & _).
  assert (LT : i < length (or_missing l)) by (rewrite <- LN; apply nth_error_Some; congruence).
  destruct (nth_error (or_missing l) i) as [x|] eqn:X; [|apply nth_error_None in X; lia].
  destruct (nth_error (or_missing r) i) as [y|] eqn:Y; [|apply nth_error_None in Y; rewrite <- or_missing_length in Y; lia].
  exists (mkNode x ls), (mkNode y rs). split.
  - exists i. split; [apply node_nth; auto|]. split; [apply node_nth; auto|]. apply root_key; auto.
  - destruct (RO i x y t X Y HT) as [[A B]|[A B]]; [left|right]; split; auto. eapply tok_mono; [apply grown|exact B].
Qed.
Lemma root_complete k a b : pair_at k a b -> exists t, In (k, t) roots /\
  ((alike p a b /\ tok_of T (a, b) t) \/
   (~ alike p a b /\ exists n, t = RDiff n (DMismatch a b (schema_mismatch p a b)) /\ n < s_next st0 /\
      forall k' d, In (k', RDiff n d) roots -> k' = k)).
Proof.
  intros (i & A & B & K). apply node_nth_inv in A, B. destruct A as (x & X & ->), B as (y & Y & ->).
  destruct start_facts as (_ & LN & RO & _ & UQ).
  assert (LT : i < length (or_missing l)) by (apply nth_error_Some; congruence).
  destruct (nth_error rnodes i) as [t|] eqn:RT; [|apply nth_error_None in RT; lia].
  destruct (nth_error (root_keys is_item l) i) as [k'|] eqn:RK; [|apply nth_error_None in RK; rewrite root_keys_length in RK; lia].
  assert (k' = k) by (rewrite K; apply root_key; auto). subst k'.
  exists t. split; [apply nth_error_In with (n := i); apply combine_nth_error; auto|].
  destruct (RO i x y t X Y RT) as [[A B]|[A (n & B & C)]]; [left|right]; split; auto.
  - eapply tok_mono; [apply grown|exact B].
  - exists n. split; [auto|]. split; [auto|]. intros k' d H. apply In_nth_error in H. destruct H as [j H].
    apply combine_nth_error in H. destruct H as [HK HT]. rewrite B in RT. assert (j = i) by (eapply UQ; eauto). subst j. congruence.
Qed.

(** ** Edges and children *)
Lemma child_edge n k c : In (k, c) (children order st n) ->
  In (mkEdge n k c) (s_edges st) \/ exists i v, k = KDictKey i v /\ c = RVal v.
Proof.
  unfold children. rewrite in_flat_map. intros (e & E & C).
  apply (Permutation_in e (Permutation_sym (perm _))) in E. apply filter_In in E. destruct E as [IN F].
  destruct (rnode_eq_dec (e_from e) n) as [FR|]; [|discriminate].
  assert (Q : forall k', e_key e = k' -> (k', e_to e) = (k, c) -> In (mkEdge n k c) (s_edges st)).
  { intros k' KE H. assert (k' = k) by congruence. assert (e_to e = c) by congruence. subst. destruct e. exact IN. }
  destruct (e_key e) eqn:KE; destruct C as [C|C]; try (destruct C as [C|[]]); try contradiction; try (left; eapply Q; eauto; fail).
  right. exists i, v. split; congruence.
Qed.
Lemma edge_child n k c : In (mkEdge n k c) (s_edges st) -> In (k, c) (children order st n).
Proof.
  intros H. unfold children. rewrite in_flat_map. exists (mkEdge n k c). split.
  - apply (Permutation_in _ (perm _)). apply filter_In. split; auto. cbn. destruct (rnode_eq_dec n n); congruence.
  - cbn [e_key e_to]. destruct k; cbn; auto.
Qed.

Lemma edge_facts t k to : In (mkEdge t k to) (s_edges st) -> exists a b, In (a, b, t) T /\
  edge_ok p lb rb (s_next st0) T (s_next st) a b k to.
Proof.
  destruct final_inv as [I _]. intros H. destruct (iv_edges _ _ _ _ _ _ I _ H) as (tk & n & a & b & A & B & C).
  cbn [e_from e_key e_to] in *. eauto.
Qed.

(** ** Paths of the result are paths of the inputs *)
Lemma rpath_sound path n : rpath path n -> exists k a b ks, pair_at k a b /\ path = k :: ks /\
  match n with
  | RTok _ _ => exists fs x y, is_path ks fs /\ reaches p lb rb a b fs x y /\ In (x, y, n) T
  | RDiff _ d => difference_at p lb rb is_item l ls r rs path d
  | RVal _ => True
  end.
Proof.
  induction 1 as [k n H V|path tk m k c RP IH H V].
  - destruct (root_sound _ _ H) as (a & b & PA & [[AL TO]|[NA (n' & -> & _)]]).
    + exists k, a, b, []. split; [auto|]. split; [auto|]. destruct (tok_kind _ _ _ TO) as [(tk & m & ->)|(_ & x & -> & _)]; [|auto].
      exists [], a, b. split; [reflexivity|]. split; [constructor; auto|apply tok_exact; auto].
    + exists k, a, b, []. split; [auto|]. split; [auto|]. apply at_root; auto. apply schema_mismatch_iff.
  - destruct IH as (k0 & a & b & ks & PA & -> & fs & x & y & IP & RE & IN).
    exists k0, a, b, (ks ++ [k]). split; [auto|]. split; [reflexivity|].
    destruct (child_edge _ _ _ H) as [ED|(i & v & _ & ->)]; [|exact Logic.I].
    destruct (edge_facts _ _ _ ED) as (a' & b' & IN' & (f & F & VF & EO)).
    assert (Q := entry_inj _ _ _ _ IN IN'). assert (a' = x) by congruence. assert (b' = y) by congruence. subst a' b'.
    destruct EO as [(n & d & -> & _ & DF)|(l' & r' & G & G' & AL & TO)].
    + change ((k0 :: ks) ++ [k]) with (k0 :: ks ++ [k]). eapply at_field; eauto.
    + destruct (tok_kind _ _ _ TO) as [(tk' & m' & ->)|(_ & z & -> & _)]; [|exact Logic.I].
      exists (fs ++ [f]), l', r'. split; [|split].
      * unfold is_path in *. rewrite !map_app, IP. cbn. rewrite F. reflexivity.
      * eapply reaches_step; eauto.
      * apply tok_exact; auto.
Qed.

(** ** Paths of the inputs are in the result *)
Lemma reaches_alike a b fs x y : reaches p lb rb a b fs x y -> alike p x y.
Proof. destruct 1; auto. Qed.
Lemma reaches_token k a b fs x y : pair_at k a b -> reaches p lb rb a b fs x y ->
  exists t, tok_of T (x, y) t /\ forall tk m, t = RTok tk m -> exists path, rpath path t.
Proof.
  intros PA. induction 1 as [AL|fs l1 r1 f l2 r2 RE IH V G G' AL].
  - destruct (root_complete _ _ _ PA) as (t & IN & [[_ TO]|[NA _]]); [|contradiction].
    exists t. split; [exact TO|]. intros tk m ->. exists [k]. apply rp_root; auto.
  - destruct IH as (t & TO & RP). destruct (tok_kind _ _ _ TO) as [(tk & m & ->)|(P & _)].
    2:{ exfalso. eapply (goes_primitive lb); eauto. }
    apply tok_exact in TO. destruct (RP _ _ eq_refl) as [path RP'].
    destruct (dn_both _ _ _ _ _ _ _ _ (entry_done _ _ _ TO) f l2 r2 V G G' AL) as (k' & to & F & ED & TO').
    exists to. split; [exact TO'|]. intros tk' m' ->. exists (path ++ [k']). eapply rp_step; eauto. apply edge_child. exact ED.
Qed.
Lemma differs_goes a b f d : differs p lb rb a b f d -> (exists a', goes lb a f a') \/ exists b', goes rb b f b'.
Proof. destruct 1; eauto. Qed.
Lemma goes_token k a b fs x y f : pair_at k a b -> reaches p lb rb a b fs x y ->
  ((exists a', goes lb x f a') \/ exists b', goes rb y f b') ->
  exists tk m path, rpath path (RTok tk m) /\ In (x, y, RTok tk m) T.
Proof.
  intros PA RE G. destruct (reaches_token _ _ _ _ _ _ PA RE) as (t & TO & RP).
  destruct (tok_kind _ _ _ TO) as [(tk & m & ->)|(P & _)].
  - destruct (RP _ _ eq_refl) as [path RP']. exists tk, m, path. split; auto. apply tok_exact. exact TO.
  - exfalso. destruct G as [[a' G]|[b' G]].
    + eapply (goes_primitive lb); eauto.
    + apply (goes_primitive rb y f b' Wr); [|exact G]. apply (alike_primitive p x y); auto. eapply reaches_alike; eauto.
Qed.

Variables (max_count fuel' : nat) (found : list (list key * diff)).
Hypothesis find : find_diffs order st max_count fuel' roots = Some (Ok found).

Lemma found_sound path d : In (path, d) found -> difference_at p lb rb is_item l ls r rs path d.
Proof.
  intros H. destruct (find_ok _ _ _ _ _ _ find) as [A _]. destruct (A _ _ H) as [n RP].
  destruct (rpath_sound _ _ RP) as (k & a & b & ks & _ & _ & D). exact D.
Qed.
Lemma found_count : length found <= max_count.
Proof. apply (find_ok _ _ _ _ _ _ find). Qed.

Lemma root_found k a b : length found < max_count -> pair_at k a b -> ~ alike p a b ->
  exists m, In ([k], DMismatch a b m) found.
Proof.
  intros L PA NA. destruct (find_ok _ _ _ _ _ _ find) as (_ & _ & C). specialize (C L).
  destruct (root_complete _ _ _ PA) as (t & IN & [[AL _]|[_ (n & -> & LT & UQ)]]); [contradiction|].
  destruct (C [k] n _ (rp_root _ _ _ k _ IN eq_refl)) as (path' & IF & RP). exists (schema_mismatch p a b).
  inversion RP as [k' n' IN' V|path1 tk m k1 c RP1 CH V].
  - subst. rewrite (UQ _ _ IN') in IF. exact IF.
  - exfalso. subst c. destruct (child_edge _ _ _ CH) as [ED|(i & v & _ & Q)]; [|discriminate].
    destruct (edge_facts _ _ _ ED) as (a' & b' & _ & (f & _ & _ & [(n2 & d2 & Q & B & _)|(l' & r' & _ & _ & _ & TO)])).
    + assert (n2 = n) by congruence. lia.
    + destruct (tok_kind _ _ _ TO) as [(? & ? & Q)|(_ & ? & Q & _)]; discriminate.
Qed.

Lemma field_found k a b fs x y f d : length found < max_count -> pair_at k a b -> reaches p lb rb a b fs x y ->
  differs p lb rb x y f d ->
  exists k' a' b' ks' fs' kf f' d', pair_at k' a' b' /\ is_path ks' fs' /\ reaches p lb rb a' b' fs' x y /\
    field_of kf = Some f' /\ same_field f f' /\ differs p lb rb x y f' d' /\ In (k' :: ks' ++ [kf], d') found.
Proof.
  intros L PA RE DF. destruct (find_ok _ _ _ _ _ _ find) as (_ & _ & C). specialize (C L).
  destruct (goes_token _ _ _ _ _ _ f PA RE (differs_goes _ _ _ _ DF)) as (tk & m & path & RP & IN).
  destruct (dn_diff _ _ _ _ _ _ _ _ (entry_done _ _ _ IN) f d DF) as (kf & f' & n & d' & F & SF & ED).
  assert (RPD : rpath (path ++ [kf]) (RDiff n d')) by (eapply rp_step; [exact RP|apply edge_child; exact ED|reflexivity]).
  destruct (C _ _ _ RPD) as (path' & IF & RP').
  destruct (edge_facts _ _ _ ED) as (a1 & b1 & IN1 & (f1 & F1 & _ & EO)).
  assert (Q := entry_inj _ _ _ _ IN IN1). assert (a1 = x) by congruence. assert (b1 = y) by congruence. subst a1 b1.
  assert (f1 = f') by congruence. subst f1.
  destruct EO as [(n2 & d2 & Q2 & B & DF')|(l' & r' & _ & _ & _ & TO)].
  2:{ destruct (tok_kind _ _ _ TO) as [(? & ? & Q2)|(_ & ? & Q2 & _)]; discriminate. }
  assert (n2 = n) by congruence. assert (d2 = d') by congruence. subst n2 d2.
  inversion RP' as [k' n' IN' V|path1 tk1 m1 k1 c RP1 CH V].
  - exfalso. subst. destruct (root_sound _ _ IN') as (a1 & b1 & _ & [[_ TO]|[_ (n1 & Q3 & LT)]]).
    + destruct (tok_kind _ _ _ TO) as [(? & ? & Q3)|(_ & ? & Q3 & _)]; discriminate.
    + assert (n1 = n) by congruence. lia.
  - subst c. destruct (child_edge _ _ _ CH) as [ED1|(i & v & _ & Q3)]; [|discriminate].
    destruct final_inv as [I _].
    assert (EE := iv_diff _ _ _ _ _ _ I _ _ _ _ _ ED1 ED eq_refl eq_refl).
    assert (tk1 = tk) by congruence. assert (m1 = m) by congruence. assert (k1 = kf) by congruence. subst tk1 m1 k1.
    destruct (rpath_sound _ _ RP1) as (k2 & a2 & b2 & ks2 & PA2 & -> & fs2 & x2 & y2 & IP2 & RE2 & IN2).
    assert (Q4 := entry_inj _ _ _ _ IN IN2). assert (x2 = x) by congruence. assert (y2 = y) by congruence. subst x2 y2.
    exists k2, a2, b2, ks2, fs2, kf, f', d'. repeat (split; [assumption|]). subst path'. exact IF.
Qed.

Lemma differs_found k a b fs x y f d : found = [] -> 1 <= max_count -> pair_at k a b -> reaches p lb rb a b fs x y ->
  ~ differs p lb rb x y f d.
Proof.
  intros E M PA RE DF.
  assert (LT : length found < max_count) by (rewrite E; cbn; lia).
  destruct (field_found _ _ _ _ _ _ _ _ LT PA RE DF)
    as (? & ? & ? & ? & ? & ? & ? & ? & _ & _ & _ & _ & _ & _ & IN).
  rewrite E in IN. contradiction.
Qed.
Lemma alike_dec a b : {alike p a b} + {~ alike p a b}.
Proof. destruct (equal p a b) eqn:E; [left|right]; rewrite <- equal_iff, E; auto. Qed.

Lemma none_bisimulation : found = [] -> 1 <= max_count ->
  bisimulation p lb rb (fun x y => exists k a b fs, pair_at k a b /\ reaches p lb rb a b fs x y).
Proof.
  intros E M. constructor.
  - intros x y (k & a & b & fs & PA & RE). eapply reaches_alike; eauto.
  - intros x y f x' y' (k & a & b & fs & PA & RE) V G G'. destruct (alike_dec x' y') as [A|A].
    + left. exists k, a, b, (fs ++ [f]). split; [auto|]. eapply reaches_step; eauto.
    + right. split; [exact A|]. intros BM. eapply (differs_found k a b fs x y f); eauto.
      apply differs_both; eauto. apply schema_mismatch_iff.
  - intros x y f x' (k & a & b & fs & PA & RE) V G LM.
    destruct (goes_token _ _ _ _ _ _ f PA RE) as (tk & m & _ & _ & IN); [eauto|].
    destruct (dn_left _ _ _ _ _ _ _ _ (entry_done _ _ _ IN) f x' G) as [?|N]; auto.
    exfalso. eapply (differs_found k a b fs x y f); eauto. apply differs_left; eauto.
  - intros x y f y' (k & a & b & fs & PA & RE) V G RM.
    destruct (goes_token _ _ _ _ _ _ f PA RE) as (tk & m & _ & _ & IN); [eauto|].
    destruct (dn_right _ _ _ _ _ _ _ _ (entry_done _ _ _ IN) f y' G) as [?|N]; auto.
    exfalso. eapply (differs_found k a b fs x y f); eauto. apply differs_right; eauto.
Qed.
Lemma bis_reaches R a b fs x y : bisimulation p lb rb R -> R a b -> reaches p lb rb a b fs x y -> R x y.
Proof.
  intros B RR. induction 1 as [AL|fs l1 r1 f l2 r2 RE IH V G G' AL]; auto.
  destruct (bis_both _ _ _ _ B _ _ _ _ _ IH V G G') as [X|[X _]]; auto. contradiction.
Qed.
Lemma Forall2_of_nth {A B} (P : A -> B -> Prop) x : forall y, length x = length y ->
  (forall i a b, nth_error x i = Some a -> nth_error y i = Some b -> P a b) -> Forall2 P x y.
Proof.
  induction x as [|a x IH]; intros [|b y] L H; cbn in L; try discriminate; constructor.
  - apply (H 0); reflexivity.
  - apply IH; [lia|]. intros i u v. apply (H (S i)).
Qed.
Lemma nth_of_Forall2 {A B} (P : A -> B -> Prop) x y : Forall2 P x y ->
  forall i a b, nth_error x i = Some a -> nth_error y i = Some b -> P a b.
Proof. induction 1; intros [|i] u v; cbn; intros X Y; try congruence; eauto. Qed.
Lemma pair_at_nth i a b : nth_error (nodes_of l ls) i = Some a -> nth_error (nodes_of r rs) i = Some b -> exists k, pair_at k a b.
Proof. intros A B. eexists. exists i. split; [exact A|]. split; [exact B|reflexivity]. Qed.

Lemma none_iff : 1 <= max_count -> found = [] <-> Forall2 (equivalent p lb rb) (nodes_of l ls) (nodes_of r rs).
Proof.
  intros M. split.
  - intros E. apply Forall2_of_nth.
    { rewrite !nodes_map, !map_length. apply or_missing_length. }
    intros i a b A B. destruct (pair_at_nth _ _ _ A B) as [k PA].
    exists (fun x y => exists k a b fs, pair_at k a b /\ reaches p lb rb a b fs x y). split; [apply none_bisimulation; auto|].
    exists k, a, b, []. split; [exact PA|]. constructor. destruct (alike_dec a b) as [AL|NA]; auto. exfalso.
    destruct (root_found k a b) as [m IN]; auto; [rewrite E; cbn; lia|]. rewrite E in IN. contradiction.
  - intros F. assert (X : found = [] \/ exists path d rest, found = (path, d) :: rest).
    { clear. destruct found as [|[path d] rest]; [left; reflexivity|right; eauto]. }
    destruct X as [X|(path & d & rest & EF)]; [exact X|]. exfalso.
    assert (D : difference_at p lb rb is_item l ls r rs path d) by (apply found_sound; rewrite EF; left; reflexivity).
    assert (EQ : forall k a b, pair_at k a b -> equivalent p lb rb a b).
    { intros k a b (i & A & B & _). eapply nth_of_Forall2; eauto. }
    destruct D as [k a b m PA NA _|k a b ks fs x y kf f d PA _ _ RE DF].
    + destruct (EQ _ _ _ PA) as (R & B & X). apply NA. eapply bis_alike; eauto.
    + destruct (EQ _ _ _ PA) as (R & B & X). assert (Y := bis_reaches _ _ _ _ _ _ B X RE).
      destruct DF as [l' V G N LM|r' V G N RM|l' r' m V G G' NA BM _].
      * destruct (bis_left _ _ _ _ B _ _ _ _ Y V G LM) as [r' Z]. apply (N r' Z).
      * destruct (bis_right _ _ _ _ B _ _ _ _ Y V G RM) as [l' Z]. apply (N l' Z).
      * destruct (bis_both _ _ _ _ B _ _ _ _ _ Y V G G') as [Z|[_ Z]]; [|contradiction]. apply NA. eapply bis_alike; eauto.
Qed.
End Final.
