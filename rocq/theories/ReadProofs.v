(** Reading: many objects at once, and through fallbacks. *)
From Coq Require Import String NArith ZArith List Bool Arith Lia.
From Verif Require Import ObjectIdModel ObjectIdProofs SchemaModel ItemModel DictModel DictSpec DictProofs
  SourceModel SourceSpec SourceProofs BagModel CollProofs BagProofs LayerProofs MergeSourceProofs MergeLayerProofs.
Import ListNotations.
Local Open Scope nat_scope.
Notation chain := BagModel.chain.

(** ** The order in which fallbacks are visited *)
Fixpoint first_hit {A} (get : nat -> option A) (l : list nat) : option A :=
  match l with [] => None | b :: r => or_else (get b) (first_hit get r) end.
Lemma first_hit_app {A} (get : nat -> option A) l l' : first_hit get (l ++ l') = or_else (first_hit get l) (first_hit get l').
Proof. induction l; cbn; auto. now rewrite IHl, or_else_assoc. Qed.
Lemma first_hit_none {A} (get : nat -> option A) l : (forall y, In y l -> get y = None) -> first_hit get l = None.
Proof. induction l as [|b l IH]; cbn; intros H; auto. rewrite (H b) by auto. cbn. auto. Qed.

Lemma flat_map_ext_in {A B} (f g : A -> list B) l : (forall x, In x l -> f x = g x) -> flat_map f l = flat_map g l.
Proof. induction l as [|x l IH]; cbn; intros H; auto. rewrite (H x), IH; auto. Qed.

Section Visit.
Variable bs : list bag.
Let falls (f : nat) : list nat := match nth_error bs f with Some x => fallbacks x | None => [] end.
Hypothesis falls_lt : forall f g, In g (falls f) -> g < f.

(** depth-first, with repetitions *)
Fixpoint expand_from (fuel b : nat) : list nat :=
  match fuel with 0 => [] | S fuel => b :: flat_map (expand_from fuel) (falls b) end.
Definition expand (b : nat) : list nat := expand_from (S b) b.
Lemma expand_fuel b : forall fuel, b < fuel -> expand_from fuel b = expand b.
Proof.
  unfold expand. induction b as [b IH] using lt_wf_ind. intros fuel L. destruct fuel as [|fuel]; [lia|]. cbn [expand_from]. f_equal.
  apply flat_map_ext_in. intros g I. assert (Lg := falls_lt b g I). rewrite (IH g Lg fuel), (IH g Lg b) by lia. reflexivity.
Qed.
Lemma expand_unfold b : expand b = b :: flat_map expand (falls b).
Proof.
  unfold expand at 1. cbn [expand_from]. f_equal. apply flat_map_ext_in. intros g I. apply expand_fuel. now apply falls_lt.
Qed.

Definition in_seen (seen : list nat) (y : nat) : bool := existsb (Nat.eqb y) seen.
Lemma in_seen_spec seen y : in_seen seen y = true <-> In y seen.
Proof.
  unfold in_seen. rewrite existsb_exists. split.
  - intros (z & I & E). apply Nat.eqb_eq in E. now subst.
  - intros I. exists y. split; auto. apply Nat.eqb_refl.
Qed.
Definition weight (seen : list nat) : nat :=
  list_sum (map (fun x => if in_seen seen x then 0 else length (falls x)) (seq 0 (length bs))).
Lemma weight_visit seen f : in_seen seen f = false -> weight (f :: seen) + length (falls f) = weight seen.
Proof.
  intros U. unfold weight. destruct (nth_error bs f) as [x|] eqn:E.
  - assert (Lf : f < length bs) by (apply nth_error_Some; congruence).
    assert (G : forall n s, s <= f < s + n ->
      list_sum (map (fun x => if in_seen (f :: seen) x then 0 else length (falls x)) (seq s n)) + length (falls f) =
      list_sum (map (fun x => if in_seen seen x then 0 else length (falls x)) (seq s n))).
    { assert (O : forall n s, ~ (s <= f < s + n) ->
        list_sum (map (fun x => if in_seen (f :: seen) x then 0 else length (falls x)) (seq s n)) =
        list_sum (map (fun x => if in_seen seen x then 0 else length (falls x)) (seq s n))).
      { induction n as [|n IH]; intros s R; cbn [seq map list_sum fold_right]; auto. unfold list_sum in IH. rewrite IH by lia. f_equal.
        unfold in_seen. cbn [existsb]. destruct (Nat.eqb_spec s f); [lia|]. reflexivity. }
      induction n as [|n IH]; intros s R; [lia|]. cbn [seq map list_sum fold_right]. destruct (Nat.eq_dec s f) as [->|N].
      - fold (list_sum (map (fun x => if in_seen (f :: seen) x then 0 else length (falls x)) (seq (S f) n))). rewrite O by lia.
        unfold list_sum. unfold in_seen at 1. cbn [existsb]. rewrite Nat.eqb_refl. cbn [orb]. rewrite U. lia.
      - unfold list_sum in IH. rewrite <- (IH (S s)) by lia. unfold in_seen at 1. cbn [existsb]. destruct (Nat.eqb_spec s f); [lia|].
        cbn [orb]. fold (in_seen seen s). destruct (in_seen seen s); lia. }
    apply G. lia.
  - unfold falls at 2. rewrite E. cbn. rewrite Nat.add_0_r. f_equal. apply map_ext_in. intros x I. apply in_seq in I.
    unfold in_seen. cbn [existsb]. destruct (Nat.eqb_spec x f) as [->|]; auto. exfalso. apply nth_error_None in E. lia.
Qed.
Lemma weight_nil : weight [] = length (all_fallbacks bs).
Proof.
  unfold weight, all_fallbacks, falls. cbn [in_seen existsb].
  assert (G : forall (l pre : list bag), list_sum (map (fun x => length (match nth_error (pre ++ l) x with Some x => fallbacks x | None => [] end)) (seq (length pre) (length l))) = length (flat_map fallbacks l)).
  { induction l as [|x l IH]; intros pre; auto. cbn [length seq map list_sum fold_right flat_map]. rewrite app_length.
    rewrite nth_error_app2, Nat.sub_diag by lia. cbn [nth_error]. f_equal.
    specialize (IH (pre ++ [x])). rewrite <- app_assoc in IH. cbn in IH. rewrite app_length in IH. cbn in IH. rewrite Nat.add_1_r in IH. exact IH. }
  exact (G bs []).
Qed.

Definition covered (stack seen : list nat) : Prop :=
  forall pre s post y z, stack = pre ++ s :: post -> In y seen -> y <= s -> In z (expand y) -> In z seen \/ In z (flat_map expand pre).
Lemma visit_hit {A} (get : nat -> option A) fuel : forall stack seen, length stack + weight seen <= fuel -> covered stack seen ->
  (forall y, In y seen -> get y = None) -> first_hit get (visit bs fuel stack seen) = first_hit get (flat_map expand stack).
Proof.
  induction fuel as [|fuel IH]; intros stack seen Fu C N; [destruct stack; [reflexivity|cbn in Fu; lia]|].
  destruct stack as [|f stack]; [reflexivity|]. cbn [visit]. fold (in_seen seen f). destruct (in_seen seen f) eqn:Sf.
  - apply in_seen_spec in Sf. assert (Ef : forall z, In z (expand f) -> In z seen).
    { intros z I. destruct (C [] f stack f z eq_refl Sf (le_n _) I) as [J|[]]; auto. }
    cbn [flat_map]. rewrite first_hit_app, (first_hit_none get (expand f)) by auto. cbn. apply IH; [cbn in Fu; lia| |auto].
    intros pre s post y z E Iy Ly Iz. destruct (C (f :: pre) s post y z) as [J|J]; [now rewrite E|auto|auto|auto|auto|].
    cbn [flat_map] in J. apply in_app_iff in J as [J|J]; auto.
  - cbn [flat_map]. rewrite expand_unfold. cbn [app first_hit]. destruct (get f) eqn:G; auto. cbn [or_else].
    fold (falls f). rewrite IH.
    + rewrite flat_map_app. reflexivity.
    + rewrite app_length. assert (W := weight_visit seen f Sf). cbn in Fu. lia.
    + intros pre s post y z E Iy Ly Iz.
      assert (Cases : (exists r, falls f = pre ++ s :: r) \/ exists pre', pre = falls f ++ pre' /\ stack = pre' ++ s :: post).
      { clear -E. revert pre E. induction (falls f) as [|g l IHl]; intros pre E; cbn in E.
        - right. exists pre. auto.
        - destruct pre as [|p pre]; cbn in E; injection E as E1 E2.
          + left. exists l. subst. reflexivity.
          + destruct (IHl pre E2) as [[r R]|(pre' & R1 & R2)].
            * left. exists r. cbn. congruence.
            * right. exists pre'. cbn. split; congruence. }
      destruct Cases as [[r R]|(pre' & -> & R)].
      * assert (Ls : s < f) by (apply falls_lt; rewrite R; apply in_app_iff; right; now left).
        destruct Iy as [<-|Iy]; [lia|]. destruct (C [] f stack y z eq_refl Iy) as [J|[]]; [lia|auto|]. left. now right.
      * destruct Iy as [<-|Iy].
        -- rewrite expand_unfold in Iz. destruct Iz as [<-|Iz]; [left; now left|]. right. rewrite flat_map_app. apply in_app_iff. now left.
        -- destruct (C (f :: pre') s post y z) as [J|J]; [now rewrite R|auto|auto|auto|left; now right|].
           cbn [flat_map] in J. apply in_app_iff in J as [J|J]; [|right; rewrite flat_map_app; apply in_app_iff; now right].
           rewrite expand_unfold in J. destruct J as [<-|J]; [left; now left|]. right. rewrite flat_map_app. apply in_app_iff. now left.
    + intros y [<-|I]; auto.
Qed.
End Visit.

Lemma flatten_hit {A} (st : state) b (get : nat -> option A) :
  (forall f x g, nth_error (bags st) f = Some x -> In g (fallbacks x) -> g < f) -> b < length (bags st) ->
  first_hit get (b :: flatten_fallbacks st b) = first_hit get (expand (bags st) b).
Proof.
  intros L Lb. assert (L' : forall f g, In g (match nth_error (bags st) f with Some x => fallbacks x | None => [] end) -> g < f).
  { intros f g I. destruct (nth_error (bags st) f) as [x|] eqn:E; [|easy]. eapply L; eauto. }
  rewrite (expand_unfold (bags st) L'). cbn [first_hit]. destruct (get b) eqn:G; auto. cbn [or_else].
  unfold flatten_fallbacks. destruct (nth_error (bags st) b) as [x|] eqn:E; [|reflexivity].
  apply visit_hit; auto.
  - assert (W := weight_visit (bags st) L' [] b eq_refl). rewrite weight_nil in W. cbv beta zeta in W. rewrite E in W. lia.
  - intros pre s post y z Es [<-|[]] Ly _. exfalso. assert (s < b); [|lia]. eapply L; eauto. rewrite Es. apply in_app_iff. right. now left.
  - intros y [<-|[]]. exact G.
Qed.

(** ** Reading an attribute of many objects *)
Section Batch.
Variable asize : ObjectId -> N.
Hypothesis asize_ok : forall a, (asize a <= capacity a)%N.
Notation valid := (valid asize).
Notation heap_ok := (heap_ok asize).
Variable h : heap.
Hypothesis H : heap_ok h.
Variable attr : string.
Variable ids : list ObjectId.
Variable has_small : bool.
Variable objs : list (option ObjectId).
(** the allocation ids of the objects *)
Definition read_ok : Prop :=
  Forall (fun id => is_allocation id /\ is_small_alloc id = false) ids /\
  Forall (fun o => valid o /\ if is_small_alloc o then has_small = true else In (allocation_of o) ids) (present objs).
Hypothesis Ok : read_ok.

(** a builder in which [cur] is what is known *)
Definition bld (cur : ObjectId -> option ditem) : builder :=
  map (fun o => (o, match o with Some o => cur o | None => Some None end)) objs.
Lemma in_present (o : ObjectId) : In o (present objs) <-> In (Some o) objs.
Proof.
  unfold present. rewrite in_flat_map. split.
  - intros ([o'|] & I & J); [|easy]. destruct J as [<-|[]]. exact I.
  - intros I. exists (Some o). split; auto. now left.
Qed.
Lemma bld_ext cur cur' : (forall o, In o (present objs) -> cur o = cur' o) -> bld cur = bld cur'.
Proof. intros E. unfold bld. apply map_ext_in. intros [o|] I; auto. rewrite E; auto. now apply in_present. Qed.
Lemma bld_fill f cur : fill f (bld cur) = bld (fun o => f o (cur o)).
Proof. unfold fill, bld. rewrite map_map. apply map_ext. now intros [o|]. Qed.
Lemma bld_new : new_builder objs = bld (fun _ => None).
Proof. reflexivity. Qed.
Lemma bld_finalized cur : finalized (bld cur) = true <-> forall o, In o (present objs) -> cur o <> None.
Proof.
  unfold finalized. rewrite forallb_forall. split.
  - intros F o I E. apply in_present in I. specialize (F (Some o, cur o)). rewrite E in F. cbn in F. enough (false = true) by discriminate. apply F.
    unfold bld. apply in_map_iff. exists (Some o). rewrite E. auto.
  - intros F [o' c] I. unfold bld in I. apply in_map_iff in I as ([o|] & E & I); injection E as <- <-; auto.
    apply in_present in I. specialize (F o I). now destruct (cur o).
Qed.
Lemma fill_sparses ss : forall cur, fold_left fill_sparse ss (bld cur) = bld (fun o => or_else (cur o) (sources_get ss None o)).
Proof.
  induction ss as [|s ss IH]; intros cur; cbn [fold_left].
  - apply bld_ext. intros o _. cbn. now rewrite or_else_none.
  - assert (E : fill_sparse (bld cur) s = bld (fun o => or_else (cur o) (sparse_get s o))).
    { unfold fill_sparse. destruct (finalized (bld cur)) eqn:F.
      - apply bld_ext. intros o I. specialize (proj1 (bld_finalized cur) F o I). now destruct (cur o).
      - rewrite bld_fill. apply bld_ext. intros o _. unfold sparse_fill. now destruct (cur o). }
    rewrite E, IH. apply bld_ext. intros o _. rewrite or_else_assoc. reflexivity.
Qed.
Definition dense_look (d : dense) (o : ObjectId) : option ditem := if contains (de_alloc d) o then dense_get d o else None.
Definition denses_get (ds : list dense) (o : ObjectId) : option ditem := fold_right (fun d r => or_else (dense_look d o) r) None ds.
Lemma fill_denses ds : Forall wf_dense ds -> forall cur, fold_left fill_dense ds (bld cur) = bld (fun o => or_else (cur o) (denses_get ds o)).
Proof.
  induction ds as [|d ds IH]; intros W cur; cbn [fold_left].
  - apply bld_ext. intros o _. cbn. now rewrite or_else_none.
  - inversion W as [|? ? W1 W2]; subst. assert (E : fill_dense (bld cur) d = bld (fun o => or_else (cur o) (dense_look d o))).
    { unfold fill_dense. destruct (finalized (bld cur)) eqn:F.
      - apply bld_ext. intros o I. specialize (proj1 (bld_finalized cur) F o I). now destruct (cur o).
      - rewrite bld_fill. apply bld_ext. intros o _. unfold dense_look. destruct (contains (de_alloc d) o) eqn:C.
        + rewrite dense_fill_ok by auto. now destruct (cur o).
        + rewrite dense_fill_out by auto. now rewrite or_else_none. }
    rewrite E, IH by auto. apply bld_ext. intros o _. rewrite or_else_assoc. reflexivity.
Qed.

(** *** The sources of one bag *)
Variable a : nat.
Let smalls := if has_small then small_sources (chain h a) attr else [].
Let found := map (fun id => data_sources h (chain h a) (id, attr)) ids.
Let sparses := smalls ++ flat_map fst found.
Let denses := flat_map (fun '(_, d) => match d with Some d => [d] | None => [] end) (found : list (list sparse * option dense)).

Lemma sources_get_app ss1 ss2 o : sources_get (ss1 ++ ss2) None o = or_else (sources_get ss1 None o) (sources_get ss2 None o).
Proof. induction ss1 as [|s ss1 IH]; cbn; auto. unfold sources_get in IH. cbn in IH. rewrite IH. now rewrite or_else_assoc. Qed.
Lemma small_sources_get ch o : sources_get (small_sources ch attr) None o = look_small ch attr o.
Proof.
  induction ch as [|[x l] ch IH]; cbn [small_sources look_small]; auto. destruct (a_find string_dec (small l) attr); cbn; auto.
  rewrite <- IH. reflexivity.
Qed.
Lemma look_small_none o : is_small_alloc o = false -> look_small (chain h a) attr o = None.
Proof.
  intros S. assert (G : forall x l, In (x, l) (chain h a) -> forall m, a_find string_dec (small l) attr = Some m -> small_ok asize m).
  { intros x l I m F. destruct (chain_in asize h H a x l I) as (E & _). destruct (H x l E) as (_ & Sm & _). eauto. }
  induction (chain h a) as [|[x l] ch IH]; cbn; auto. rewrite IH; [|intros y ly J; exact (G y ly (or_intror J))].
  destruct (a_find string_dec (small l) attr) as [m|] eqn:F; cbn; auto. destruct (s_find m o) eqn:Fo; auto.
  destruct (G x l (or_introl eq_refl) m F) as [Nd V]. apply s_find_in in Fo; auto. destruct (V _ _ Fo). congruence.
Qed.
Lemma other_sparse id s o : good_sparse asize id s -> allocation_of o <> id -> sparse_get s o = None.
Proof.
  intros (_ & Nd & R) N. unfold sparse_get. destruct (s_find (sp_map s) o) eqn:F; auto. apply s_find_in in F; auto.
  destruct (R _ _ F) as (_ & E & _). congruence.
Qed.
Lemma found_ok (l : list ObjectId) o : Forall (fun id => is_allocation id /\ is_small_alloc id = false) l -> valid o -> is_small_alloc o = false ->
  let f := map (fun id => data_sources h (chain h a) (id, attr)) l in
  let ds := flat_map (fun '(_, d) => match d with Some d => [d] | None => [] end) (f : list (list sparse * option dense)) in
  Forall wf_dense ds /\
  sources_get (flat_map fst f) None o = (if existsb (same_oid (allocation_of o)) l then sources_get (fst (data_sources h (chain h a) (allocation_of o, attr))) None o else None) /\
  denses_get ds o = (if existsb (same_oid (allocation_of o)) l then bind (snd (data_sources h (chain h a) (allocation_of o, attr))) (fun d => dense_get d o) else None).
Proof.
  intros F V S. induction F as [|id l [Ai Si] F IH]; cbn zeta.
  - cbn. split; [constructor|]. split; reflexivity.
  - cbn [map flat_map]. destruct IH as (I1 & I2 & I3).
    assert (D := data_sources_ok asize h (chain h a) (id, attr) (heap_good_ch asize h a H)). cbn [fst] in D.
    destruct (data_sources h (chain h a) (id, attr)) as [ss d] eqn:Es. destruct D as (D1 & D2 & D3). cbn [fst].
    assert (Wd : Forall wf_dense (match d with Some d => [d] | None => [] end)).
    { destruct d; constructor; auto. apply D2. }
    split; [apply Forall_app; auto|].
    cbn [existsb]. rewrite sources_get_app. unfold denses_get. rewrite fold_right_app. fold (denses_get (flat_map (fun '(_, d) => match d with Some d => [d] | None => [] end) (map (fun id => data_sources h (chain h a) (id, attr)) l : list (list sparse * option dense))) o).
    rewrite I2, I3. destruct (oid_eq_dec id (allocation_of o)) as [->|N]; [rewrite same_oid_refl|replace (same_oid (allocation_of o) id) with false by (destruct (same_oid (allocation_of o) id) eqn:Q; auto; apply same_oid_spec in Q; congruence)]; cbn [orb].
    + rewrite Es. cbn [fst snd]. destruct V as [W Lo].
      assert (C : contains (allocation_of o) o = true) by (apply contains_spec; auto).
      split.
      * destruct (existsb (same_oid (allocation_of o)) l); [|apply or_else_none]. now destruct (sources_get ss None o).
      * destruct d as [d|]; cbn [fold_right bind].
        -- unfold dense_look. destruct D2 as (_ & -> & _). rewrite C. destruct (existsb (same_oid (allocation_of o)) l); [|apply or_else_none]. now destruct (dense_get d o).
        -- now destruct (existsb (same_oid (allocation_of o)) l).
    + assert (Z : sources_get ss None o = None).
      { clear -D1 N. induction D1 as [|s ss G D1 IH]; auto. cbn. rewrite (other_sparse id s o); auto. }
      rewrite Z. cbn [or_else]. split; [now destruct (existsb (same_oid (allocation_of o)) l)|].
      destruct d as [d|]; cbn [fold_right].
      * unfold dense_look. destruct D2 as (_ & -> & _). destruct (contains id o) eqn:C.
        -- apply contains_spec in C; [congruence|auto|apply V].
        -- cbn. now destruct (existsb (same_oid (allocation_of o)) l).
      * now destruct (existsb (same_oid (allocation_of o)) l).
Qed.
Lemma found_small (l : list ObjectId) o : Forall (fun id => is_allocation id /\ is_small_alloc id = false) l -> valid o -> is_small_alloc o = true ->
  let f := map (fun id => data_sources h (chain h a) (id, attr)) l in
  let ds := flat_map (fun '(_, d) => match d with Some d => [d] | None => [] end) (f : list (list sparse * option dense)) in
  Forall wf_dense ds /\ sources_get (flat_map fst f) None o = None /\ denses_get ds o = None.
Proof.
  intros F V S. induction F as [|id l [Ai Si] F IH]; cbn zeta.
  - cbn. split; [constructor|]. split; reflexivity.
  - cbn [map flat_map]. destruct IH as (I1 & I2 & I3).
    assert (D := data_sources_ok asize h (chain h a) (id, attr) (heap_good_ch asize h a H)). cbn [fst] in D.
    destruct (data_sources h (chain h a) (id, attr)) as [ss d]. destruct D as (D1 & D2 & D3). cbn [fst].
    assert (N : allocation_of o <> id) by (intros <-; change (is_small_alloc (allocation_of o)) with (is_small_alloc o) in Si; congruence).
    split; [apply Forall_app; split; auto; destruct d; constructor; auto; apply D2|].
    rewrite sources_get_app, I2. unfold denses_get. rewrite fold_right_app. fold (denses_get (flat_map (fun '(_, d) => match d with Some d => [d] | None => [] end) (map (fun id => data_sources h (chain h a) (id, attr)) l : list (list sparse * option dense))) o). rewrite I3. split.
    + clear -D1 N. induction D1 as [|s ss G D1 IH]; auto. cbn. rewrite (other_sparse id s o); auto.
    + destruct d as [d|]; auto. cbn [fold_right]. unfold dense_look. destruct D2 as (_ & -> & _). destruct (contains id o) eqn:C; auto.
      apply contains_spec in C; [congruence|auto|apply V].
Qed.
Lemma all_sources o : In o (present objs) ->
  Forall wf_dense denses /\ or_else (sources_get sparses None o) (denses_get denses o) = look_attr h a attr o.
Proof.
  intros I. destruct Ok as [Oi Oo]. rewrite Forall_forall in Oo. destruct (Oo o I) as [V Hs]. unfold sparses, look_attr.
  rewrite sources_get_app. destruct (is_small_alloc o) eqn:S.
  - destruct (found_small ids o Oi V S) as (F1 & F2 & F3). split; [exact F1|]. fold found in F2. unfold denses. fold found in F3. rewrite F2, F3.
    unfold smalls. rewrite Hs, small_sources_get. now rewrite !or_else_none.
  - destruct (found_ok ids o Oi V S) as (F1 & F2 & F3). split; [exact F1|]. fold found in F2. unfold denses. fold found in F3. rewrite F2, F3.
    destruct (existsb (same_oid (allocation_of o)) ids) eqn:Ex.
    2:{ exfalso. enough (existsb (same_oid (allocation_of o)) ids = true) by congruence. apply existsb_exists. exists (allocation_of o). split; auto. apply same_oid_refl. }
    assert (Z : sources_get smalls None o = None).
    { unfold smalls. destruct has_small; auto. rewrite small_sources_get. now apply look_small_none. }
    rewrite Z. cbn [or_else].
    assert (D := data_sources_ok asize h (chain h a) (allocation_of o, attr) (heap_good_ch asize h a H)).
    destruct (data_sources h (chain h a) (allocation_of o, attr)) as [ss d]. destruct D as (_ & _ & D3). cbn [fst snd]. rewrite <- (D3 o).
    clear. unfold sources_get. induction ss as [|s ss IH]; cbn; auto. rewrite <- IH. now rewrite or_else_assoc.
Qed.
End Batch.

Section Loop.
Variable asize : ObjectId -> N.
Hypothesis asize_ok : forall a, (asize a <= capacity a)%N.
Variable h : heap.
Hypothesis H : heap_ok asize h.
Variable attr : string.
Variable ids : list ObjectId.
Variable has_small : bool.
Variable objs : list (option ObjectId).
Hypothesis Ok : read_ok asize ids has_small objs.
Notation bld := (bld objs).
Notation look bags := (fun o => get_attr h bags attr o).

Lemma many_step a cur :
  fill (fun o cur => match cur with
                     | Some _ => cur
                     | None => if is_small_alloc o then cur else look_big h (chain h a) (allocation_of o, attr) o
                     end) (fold_left fill_sparse (if has_small then small_sources (chain h a) attr else []) (bld cur)) =
  bld (fun o => or_else (cur o) (look_attr h a attr o)).
Proof.
  rewrite fill_sparses, bld_fill. apply bld_ext. intros o I. destruct Ok as [_ Oo]. rewrite Forall_forall in Oo. destruct (Oo o I) as [V Hs].
  unfold look_attr. destruct (is_small_alloc o) eqn:S.
  - rewrite Hs, small_sources_get. now destruct (cur o), (look_small (chain h a) attr o).
  - assert (Z : sources_get (if has_small then small_sources (chain h a) attr else []) None o = None).
    { destruct has_small; auto. rewrite small_sources_get. apply (look_small_none asize); auto. }
    rewrite Z, or_else_none. now destruct (cur o).
Qed.
Lemma finalized_done cur (g : ObjectId -> option ditem) : finalized (bld cur) = true -> bld cur = bld (fun o => or_else (cur o) (g o)).
Proof. intros F. apply bld_ext. intros o I. specialize (proj1 (bld_finalized objs cur) F o I). now destruct (cur o). Qed.
Let sparses a := (if has_small then small_sources (chain h a) attr else []) ++ flat_map fst (map (fun id => data_sources h (chain h a) (id, attr)) ids).
Let denses a := flat_map (fun '(_, d) => match d with Some d => [d] | None => [] end) (map (fun id => data_sources h (chain h a) (id, attr)) ids : list (list sparse * option dense)).
Lemma few_step a cur : fold_left fill_dense (denses a) (fold_left fill_sparse (sparses a) (bld cur)) = bld (fun o => or_else (cur o) (look_attr h a attr o)).
Proof.
  destruct (present objs) as [|o0 os] eqn:P.
  - assert (N : forall b b', bld b = bld b') by (intros; apply bld_ext; rewrite P; easy).
    assert (W : Forall wf_dense (denses a)).
    { unfold denses. destruct Ok as [Oi _]. clear -H Oi. induction Oi as [|id l [A S] F IH]; cbn; [constructor|]. apply Forall_app. split; auto.
      assert (D := data_sources_ok asize h (chain h a) (id, attr) (heap_good_ch asize h a H)).
      destruct (data_sources h (chain h a) (id, attr)) as [ss [d|]]; constructor; auto. apply D. }
    rewrite fill_sparses, fill_denses by auto. apply N.
  - assert (W : Forall wf_dense (denses a)).
    { apply (all_sources asize h H attr ids has_small objs Ok a o0). rewrite P. now left. }
    rewrite fill_sparses, fill_denses by auto. apply bld_ext. intros o I.
    rewrite or_else_assoc. f_equal. apply (all_sources asize h H attr ids has_small objs Ok a o I).
Qed.
Lemma loop_some bags : forall cur,
  get_attr_loop h attr ids has_small objs bags (Some (bld cur)) = inr (Some (bld (fun o => or_else (cur o) (get_attr h bags attr o)))).
Proof.
  induction bags as [|a bags IH]; intros cur; cbn [get_attr_loop get_attr].
  - do 2 f_equal. apply bld_ext. intros. now rewrite or_else_none.
  - assert (Next : forall (x : list ditem + option builder),
      x = (if finalized (bld (fun o => or_else (cur o) (look_attr h a attr o))) then inr (Some (bld (fun o => or_else (cur o) (look_attr h a attr o))))
        else get_attr_loop h attr ids has_small objs bags (Some (bld (fun o => or_else (cur o) (look_attr h a attr o))))) ->
      x = inr (Some (bld (fun o => or_else (cur o) (or_else (look_attr h a attr o) (get_attr h bags attr o)))))).
    { intros x ->. destruct (finalized _) eqn:F.
      - do 2 f_equal. rewrite (finalized_done _ (fun o => get_attr h bags attr o) F). apply bld_ext. intros. now rewrite or_else_assoc.
      - rewrite IH. do 2 f_equal. apply bld_ext. intros. now rewrite or_else_assoc. }
    apply Next. clear Next. destruct (many ids objs).
    + now rewrite many_step.
    + fold (sparses a). fold (denses a). assert (F := few_step a cur).
      destruct (sparses a) as [|s ss] eqn:Es, (denses a) as [|d ds] eqn:Ed; cbn [fold_left] in F |- *.
      * rewrite <- F. destruct (finalized (bld cur)) eqn:Fi; auto. rewrite IH. do 2 f_equal. symmetry. now apply finalized_done.
      * now rewrite F.
      * now rewrite F.
      * now rewrite F.
Qed.
Lemma loop_none bags :
  match get_attr_loop h attr ids has_small objs bags None with
  | inl vs => vs = map (fun o => match o with Some o => known (get_attr h bags attr o) | None => None end) objs
  | inr (Some b) => b = bld (fun o => get_attr h bags attr o)
  | inr None => forall o, In o (present objs) -> get_attr h bags attr o = None
  end.
Proof.
  induction bags as [|a bags IH]; cbn [get_attr_loop get_attr]; [auto|].
  assert (Next : forall (x : list ditem + option builder),
      x = (if finalized (bld (fun o => look_attr h a attr o)) then inr (Some (bld (fun o => look_attr h a attr o)))
        else get_attr_loop h attr ids has_small objs bags (Some (bld (fun o => look_attr h a attr o)))) ->
      x = inr (Some (bld (fun o => or_else (look_attr h a attr o) (get_attr h bags attr o))))).
  { intros x ->. destruct (finalized _) eqn:F.
    - do 2 f_equal. exact (finalized_done _ (fun o => get_attr h bags attr o) F).
    - now rewrite loop_some. }
  destruct (many ids objs).
  - set (x := if finalized _ then _ else _). rewrite (Next x); [reflexivity|]. unfold x. rewrite bld_new. now rewrite !many_step.
  - fold (sparses a). fold (denses a). assert (F := few_step a (fun _ => None)). cbn [or_else] in F. rewrite <- bld_new in F.
    assert (G : forall o, In o (present objs) -> or_else (sources_get (sparses a) None o) (denses_get (denses a) o) = look_attr h a attr o).
    { intros o I. apply (all_sources asize h H attr ids has_small objs Ok a o I). }
    assert (Build : forall x : list ditem + option builder,
      x = (let b := fold_left fill_dense (denses a) (fold_left fill_sparse (sparses a) (new_builder objs)) in
           if finalized b then inr (Some b) else get_attr_loop h attr ids has_small objs bags (Some b)) ->
      match x with
      | inl vs => vs = map (fun o => match o with Some o => known (or_else (look_attr h a attr o) (get_attr h bags attr o)) | None => None end) objs
      | inr (Some b) => b = bld (fun o => or_else (look_attr h a attr o) (get_attr h bags attr o))
      | inr None => forall o, In o (present objs) -> or_else (look_attr h a attr o) (get_attr h bags attr o) = None
      end).
    { intros x ->. rewrite F. cbv zeta. rewrite (Next _ eq_refl). reflexivity. }
    destruct (sparses a) as [|s ss] eqn:Es, (denses a) as [|d ds] eqn:Ed; try (apply Build; now destruct bags).
    + assert (N : forall o, In o (present objs) -> look_attr h a attr o = None) by (intros o I; symmetry; apply (G o I)).
      destruct (get_attr_loop h attr ids has_small objs bags None) as [vs|[b|]].
      * rewrite IH. apply map_ext_in. intros [o|] I; auto. rewrite N; auto. now apply in_present.
      * rewrite IH. apply bld_ext. intros o I. now rewrite N.
      * intros o I. rewrite N by auto. cbn. auto.
    + destruct bags as [|a' bags]; [|apply Build; reflexivity]. destruct ds as [|d2 ds]; [|apply Build; reflexivity].
      apply map_ext_in. intros [o|] I; auto. apply in_present in I. cbn [get_attr]. rewrite or_else_none, <- (G o I). cbn [sources_get fold_right bind or_else denses_get].
      rewrite or_else_none. assert (W : wf_dense d).
      { destruct (all_sources asize h H attr ids has_small objs Ok a o I) as [W _]. fold (denses a) in W. rewrite Ed in W. now inversion W. }
      destruct (dense_get_plain_ok (has_small || (1 <? length ids)) d o W) as [P1 P2]. unfold dense_look.
      destruct (contains (de_alloc d) o) eqn:C; [now apply P1|]. cbn. apply P2; auto.
      destruct has_small eqn:Hs; auto. cbn [orb]. destruct Ok as [Oi Oo]. rewrite Forall_forall in Oo. destruct (Oo o I) as [V Ho].
      destruct (is_small_alloc o) eqn:So; [discriminate|]. destruct ids as [|i1 [|i2 r]]; [destruct Ho| |reflexivity].
      exfalso. destruct Ho as [Ei|[]]. subst i1. unfold denses in Ed. cbn [map flat_map] in Ed.
      assert (D := data_sources_ok asize h (chain h a) (allocation_of o, attr) (heap_good_ch asize h a H)).
      destruct (data_sources h (chain h a) (allocation_of o, attr)) as [sx [dx|]]; [|discriminate]. cbn in Ed. injection Ed as ->.
      destruct D as (_ & (_ & Ea & _) & _). cbn in Ea. rewrite Ea in C. assert (contains (allocation_of o) o = true); [|congruence].
      apply contains_spec; [now inversion Oi|apply V|reflexivity].
Qed.
(** the values, and the values with removed ones told apart *)
Lemma get_attrs_ok bags with_removed :
  get_attrs h attr ids has_small objs bags with_removed = map (fun o => match o with Some o => known (get_attr h bags attr o) | None => None end) objs.
Proof.
  assert (B : forall g : ObjectId -> option ditem, built (bld g) = map (fun o => match o with Some o => known (g o) | None => None end) objs).
  { intros g. unfold built, ReadProofs.bld. rewrite map_map. apply map_ext. intros [o|]; auto. }
  unfold get_attrs. destruct (with_removed || many ids objs).
  - rewrite bld_new, loop_some. apply B.
  - assert (L := loop_none bags). destruct (get_attr_loop h attr ids has_small objs bags None) as [vs|[b|]].
    + exact L.
    + rewrite L. apply B.
    + apply map_ext_in. intros [o|] I; auto. rewrite L; auto. now apply in_present.
Qed.
Lemma get_attrs_with_removed_ok bags :
  get_attrs_with_removed h attr ids has_small objs bags = map (fun o => match o with Some o => get_attr h bags attr o | None => Some None end) objs.
Proof.
  unfold get_attrs_with_removed. rewrite bld_new, loop_some. unfold ReadProofs.bld. rewrite map_map. apply map_ext. intros [o|]; reflexivity.
Qed.
End Loop.
