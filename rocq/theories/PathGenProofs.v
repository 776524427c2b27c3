(** Proofs about the paths that a schema allows and about views. *)
From Coq Require Import String.
From Coq Require Import NArith ZArith List Bool PeanoNat Lia ZifyBool ZifyN Sorted.
From Verif Require Import PathModel PathSpec PathProofs.
Import ListNotations.
Local Open Scope list_scope.
Local Open Scope nat_scope.

(** * One step *)

Lemma attr_schema_in attrs s x :
  attr_schema attrs s = Some x -> In (s, x) attrs.
Proof.
  induction attrs as [|[t y] attrs IH]; cbn; [discriminate|].
  destruct (text_eqb t s) eqn:E.
  - apply text_eqb_eq in E. subst t. intros H; injection H as <-. now left.
  - intros H; right; now apply IH.
Qed.

Lemma in_attr_schema attrs s x :
  NoDup (map fst attrs) -> In (s, x) attrs -> attr_schema attrs s = Some x.
Proof.
  induction attrs as [|[t y] attrs IH]; cbn; intros D I; [easy|].
  apply NoDup_cons_iff in D as [D1 D2]. destruct I as [I|I].
  - injection I as -> ->. now rewrite text_eqb_refl.
  - destruct (text_eqb t s) eqn:E.
    + apply text_eqb_eq in E. subst t. exfalso. apply D1.
      now apply (in_map fst) in I.
    + now apply IH.
Qed.

Lemma in_expand b x a y :
  schema_bag_ok b ->
  In (a, y) (expand_schema b x) <-> get_subschema b a x = Some y.
Proof.
  intros B. destruct x as [id|n| |]; cbn; try (split; [easy|discriminate]).
  destruct (lookup b id) as [i|k v|attrs] eqn:L.
  - cbn. split.
    + intros [E|[]]. injection E as <- <-. reflexivity.
    + destruct a; try discriminate. intros E; injection E as <-. now left.
  - cbn. split.
    + intros [E|[E|[]]]; injection E as <- <-; reflexivity.
    + destruct a; try discriminate; intros E; injection E as <-; tauto.
  - rewrite in_map_iff. split.
    + intros [[s z] [E I]]. cbn in E. injection E as <- <-.
      apply in_attr_schema; [now apply (B id)|assumption].
    + destruct a as [| | |s]; try discriminate. intros E.
      exists (s, y). split; [reflexivity|]. now apply attr_schema_in.
Qed.

Lemma expand_nodup b x : schema_bag_ok b -> NoDup (map fst (expand_schema b x)).
Proof.
  intros B. destruct x as [id|n| |]; cbn; try constructor.
  destruct (lookup b id) as [i|k v|attrs] eqn:L; cbn.
  - repeat constructor. easy.
  - repeat constructor; cbn; [|easy]. intros [E|[]]; discriminate E.
  - rewrite map_map. cbn. pose proof (B id attrs L) as D. clear L.
    induction attrs as [|[s y] attrs IH]; cbn in *; [constructor|].
    apply NoDup_cons_iff in D as [D1 D2]. constructor; [|now apply IH].
    intros I. apply in_map_iff in I as [[t z] [E I]]. cbn in E. injection E as ->.
    apply D1. now apply (in_map fst) in I.
Qed.

Lemma leads_cons b x a p y :
  leads b x (a :: p) y <->
  exists z, In (a, z) (expand_schema b x) /\ leads b z p y.
Proof.
  split.
  - intros H; inversion H; subst; cbn [expand_schema];
      match goal with L : lookup b _ = _ |- _ => rewrite L end;
      (eexists; split; [|eassumption]); cbn; try tauto.
    apply in_map_iff. now eexists (_, _).
  - intros [z [I H]]. destruct x as [id|n| |]; cbn in I; try easy.
    destruct (lookup b id) as [i|k v|attrs] eqn:L; cbn in I.
    + destruct I as [E|[]]; injection E as <- <-. econstructor; eassumption.
    + destruct I as [E|[E|[]]]; injection E as <- <-; econstructor; eassumption.
    + apply in_map_iff in I as [[s u] [E I]]. cbn in E. injection E as <- <-.
      econstructor; eassumption.
Qed.

Lemma leads_app b x p q y :
  leads b x (p ++ q) y <-> exists z, leads b x p z /\ leads b z q y.
Proof.
  revert x; induction p as [|a p IH]; intros x; cbn [app].
  - split; [intros H; exists x; split; [constructor|assumption]|].
    intros [z [H1 H2]]. inversion H1; subst. exact H2.
  - rewrite leads_cons. setoid_rewrite leads_cons. split.
    + intros [u [I H]]. apply IH in H as [z [H1 H2]]. exists z. split; [|assumption].
      now exists u.
    + intros [z [[u [I H1]] H2]]. exists u. split; [assumption|]. apply IH. now exists z.
Qed.

Lemma leads_snoc b x p a y :
  leads b x (p ++ [a]) y <->
  exists z, leads b x p z /\ In (a, y) (expand_schema b z).
Proof.
  rewrite leads_app. split; intros [z [H I]]; exists z; (split; [assumption|]).
  - apply leads_cons in I as [u [I H2]]. inversion H2; subst. exact I.
  - apply leads_cons. exists y. split; [assumption|constructor].
Qed.

Lemma schema_at_leads b x p y :
  schema_bag_ok b -> (schema_at b x p = Some y <-> leads b x p y).
Proof.
  intros B. revert x; induction p as [|a p IH]; intros x; cbn [schema_at].
  - split; [intros E; injection E as <-; constructor|]. intros H; now inversion H.
  - rewrite leads_cons. destruct (get_subschema b a x) as [z|] eqn:G.
    + rewrite IH. split.
      * intros H. exists z. split; [|assumption]. now apply in_expand.
      * intros [u [I H]]. apply (in_expand b x a u B) in I. congruence.
    + split; [discriminate|]. intros [u [I H]]. apply (in_expand b x a u B) in I. congruence.
Qed.

Lemma leads_unique b x p y z :
  schema_bag_ok b -> leads b x p y -> leads b x p z -> y = z.
Proof.
  intros B Hy Hz. apply (schema_at_leads b x p y B) in Hy.
  apply (schema_at_leads b x p z B) in Hz. congruence.
Qed.

Lemma valid_prefix b x p q : valid_path b x (p ++ q) -> valid_path b x p.
Proof. intros [y H]. apply leads_app in H as [z [H _]]. now exists z. Qed.

(** * Levels *)

Definition level_ok (b : schema_bag) (x : schema) (d : nat)
    (level : list (path * schema)) : Prop :=
  NoDup (map fst level)
  /\ forall p y, In (p, y) level <-> leads b x p y /\ length p = d.

Lemma level_0 b x : level_ok b x 0 [([], x)].
Proof.
  split; [repeat constructor; easy|]. intros p y; cbn. split.
  - intros [E|[]]. injection E as <- <-. split; [constructor|reflexivity].
  - intros [H L]. destruct p; [|discriminate]. inversion H; subst. now left.
Qed.

Lemma nodup_app {A} (l k : list A) :
  NoDup l -> NoDup k -> (forall x, In x l -> In x k -> False) -> NoDup (l ++ k).
Proof.
  induction l as [|x l IH]; intros Hl Hk H; [assumption|]. cbn.
  apply NoDup_cons_iff in Hl as [H1 H2]. constructor.
  - intros I. apply in_app_or in I as [I|I]; [easy|]. apply (H x); [now left|assumption].
  - apply IH; auto. intros y Iy. apply H. now right.
Qed.

Lemma in_expand_step b p x q z :
  In (q, z) (expand_one_step b (p, x)) <->
  exists a, q = p ++ [a] /\ In (a, z) (expand_schema b x).
Proof.
  unfold expand_one_step. rewrite in_map_iff. cbn [fst snd]. split.
  - intros [[a u] [E I]]. cbn in E. injection E as <- <-. exists a. split; [reflexivity|assumption].
  - intros [a [-> I]]. now exists (a, z).
Qed.

Lemma level_nodup b level :
  schema_bag_ok b -> NoDup (map fst level) ->
  NoDup (map fst (flat_map (expand_one_step b) level)).
Proof.
  intros B. induction level as [|[p x] level IH]; cbn [map flat_map fst]; intros D; [constructor|].
  apply NoDup_cons_iff in D as [D1 D2]. rewrite map_app. apply nodup_app.
  - unfold expand_one_step. cbn [fst snd]. rewrite map_map. cbn [fst].
    pose proof (expand_nodup b x B) as N0. induction (expand_schema b x) as [|[a y] l IHl]; cbn; [constructor|].
    cbn in N0. apply NoDup_cons_iff in N0 as [N1 N2]. constructor; [|now apply IHl].
    intros I. apply in_map_iff in I as [[a' y'] [E I]]. cbn in E.
    unfold extended_with_action in E. apply app_inj_tail in E as [_ ->].
    apply N1. now apply (in_map fst) in I.
  - now apply IH.
  - intros q I1 I2. apply in_map_iff in I1 as [[q1 z1] [E1 I1]]. apply in_map_iff in I2 as [[q2 z2] [E2 I2]].
    cbn in E1, E2. subst q1 q2. apply in_expand_step in I1 as [a1 [E1 _]].
    apply in_flat_map in I2 as [[p2 x2] [J I2]]. apply in_expand_step in I2 as [a2 [E2 _]].
    subst q. apply app_inj_tail in E2 as [-> _]. apply D1. now apply (in_map fst) in J.
Qed.

Lemma level_S b x d level :
  schema_bag_ok b -> level_ok b x d level ->
  level_ok b x (S d) (flat_map (expand_one_step b) level).
Proof.
  intros B [D H]. split; [now apply level_nodup|]. intros p y. rewrite in_flat_map. split.
  - intros [[q z] [I J]]. apply in_expand_step in J as [a [-> J]]. apply H in I as [I L].
    split; [|rewrite app_length; cbn; lia]. apply leads_snoc. now exists z.
  - intros [I L]. destruct (@exists_last _ p) as [q [a ->]]; [intros ->; discriminate|].
    apply leads_snoc in I as [z [I J]]. exists (q, z). split.
    + apply H. split; [assumption|]. rewrite app_length in L; cbn in L; lia.
    + apply in_expand_step. now exists a.
Qed.

Lemma level_empty b x d p :
  level_ok b x d [] -> valid_path b x p -> length p < d.
Proof.
  intros [_ H] V. destruct (Nat.lt_ge_cases (length p) d) as [L|L]; [assumption|exfalso].
  rewrite <- (firstn_skipn d p) in V. apply valid_prefix in V as [y V].
  apply (H (firstn d p) y). split; [assumption|]. rewrite firstn_length. lia.
Qed.

(** * The generator *)

Lemma generate_loop_ok b x m (B : schema_bag_ok b) rounds : forall level d,
  level_ok b x d level ->
  let out := fst (generate_loop b m rounds level d) in
  let done := snd (generate_loop b m rounds level d) in
  NoDup out /\ by_depth out
  /\ (forall p, In p out <->
        valid_path b x p /\ d <= length p < d + rounds
        /\ within_max_depth m (length p) = true)
  /\ (done = true <->
        forall p, valid_path b x p -> d <= length p ->
          within_max_depth m (length p) = true -> length p < d + rounds).
Proof.
  assert (W : forall k j, j <= k -> within_max_depth m k = true ->
              within_max_depth m j = true).
  { intros k j L. unfold within_max_depth. destruct (Z.eqb m (-1)); [reflexivity|]. lia. }
  assert (Stop : forall d, (forall p, valid_path b x p -> d <= length p ->
                   within_max_depth m (length p) = true -> False) ->
          NoDup (@nil path) /\ by_depth [] /\
          (forall p, In p [] <-> valid_path b x p /\ d <= length p < d + rounds
             /\ within_max_depth m (length p) = true)
          /\ (true = true <-> forall p, valid_path b x p -> d <= length p ->
                within_max_depth m (length p) = true -> length p < d + rounds)).
  { intros d H. split; [constructor|]. split; [constructor|]. split.
    - intros p; split; [easy|]. intros [V [L E]]. exfalso. apply (H p V); [lia|assumption].
    - split; [|reflexivity]. intros _ p V L E. exfalso. now apply (H p). }
  revert Stop. induction rounds as [|rounds IH]; intros Stop level d K.
  - destruct level as [|e level].
    + apply Stop. intros p V L E. pose proof (level_empty b x d p K V). lia.
    + cbn [generate_loop]. destruct (within_max_depth m d) eqn:E; cbn [negb].
      * cbn [fst snd]. split; [constructor|]. split; [constructor|]. split.
        { intros p; split; [easy|]. intros [V [L _]]. lia. }
        split; [discriminate|]. intros H. exfalso. destruct e as [p y].
        destruct K as [_ K]. destruct (proj1 (K p y) (or_introl eq_refl)) as [V L].
        specialize (H p (ex_intro _ y V)). rewrite L in H. specialize (H (le_n d) E). lia.
      * apply Stop. intros p V L Ep. rewrite (W (length p) d L Ep) in E. discriminate.
  - destruct level as [|e level].
    + apply Stop. intros p V L E. pose proof (level_empty b x d p K V). lia.
    + cbn [generate_loop]. destruct (within_max_depth m d) eqn:E; cbn [negb].
      2:{ apply Stop. intros p V L Ep. rewrite (W (length p) d L Ep) in E. discriminate. }
      set (L0 := e :: level) in *. clearbody L0.
      set (next := if within_max_depth m (S d) then _ else _).
      cbv zeta. cbn [fst snd].
      (* what the remaining rounds do *)
      assert (R : let out := fst (generate_loop b m rounds next (S d)) in
        let done := snd (generate_loop b m rounds next (S d)) in
        NoDup out /\ by_depth out
        /\ (forall p, In p out <->
              valid_path b x p /\ S d <= length p < S d + rounds
              /\ within_max_depth m (length p) = true)
        /\ (done = true <->
              forall p, valid_path b x p -> S d <= length p ->
                within_max_depth m (length p) = true -> length p < S d + rounds)).
      { destruct (within_max_depth m (S d)) eqn:E'.
        - apply IH; [|apply level_S; assumption].
          intros d' H. split; [constructor|]. split; [constructor|]. split.
          + intros p; split; [easy|]. intros [V [L Ep]]. exfalso. apply (H p V); [lia|assumption].
          + split; [|reflexivity]. intros _ p V L Ep. exfalso. now apply (H p).
        - subst next.
          assert (G : generate_loop b m rounds [] (S d) = ([], true)) by (now destruct rounds).
          rewrite G. cbn [fst snd].
          assert (Z0 : forall p : path, S d <= length p -> within_max_depth m (length p) = true -> False).
          { intros p L Ep. rewrite (W (length p) (S d) L Ep) in E'. discriminate. }
          split; [constructor|]. split; [constructor|]. split.
          + intros p; split; [easy|]. intros [V [L Ep]]. apply (Z0 p); [lia|assumption].
          + split; [|reflexivity]. intros _ p V L Ep. now destruct (Z0 p). }
      cbv zeta in R. set (r := generate_loop b m rounds next (S d)) in *.
      destruct R as [R1 [R2 [R3 R4]]]. destruct K as [K1 K2].
      assert (KL : forall p, In p (map fst L0) <-> valid_path b x p /\ length p = d).
      { intros p. rewrite in_map_iff. split.
        - intros [[q y] [Eq I]]. cbn in Eq. subst q. apply K2 in I as [V L].
          split; [now exists y|assumption].
        - intros [[y V] L]. exists (p, y). split; [reflexivity|]. now apply K2. }
      split; [|split; [|split]].
      * apply nodup_app; [assumption|assumption|]. intros p I1 I2.
        apply KL in I1. apply R3 in I2. lia.
      * unfold by_depth.
        assert (Ha : forall p, In p (map fst L0) -> depth p = d) by (intros p I; now apply KL in I).
        assert (Hb : forall p, In p (fst r) -> d <= depth p)
          by (intros p I; apply R3 in I; unfold depth; lia).
        clear - Ha Hb R2. induction (map fst L0) as [|p l IHl]; cbn; [assumption|].
        constructor; [apply IHl; intros q I; apply Ha; now right|].
        apply Forall_forall. intros q I. rewrite (Ha p (or_introl eq_refl)).
        apply in_app_or in I as [I|I]; [|now apply Hb].
        rewrite (Ha q); [lia|now right].
      * intros p. rewrite in_app_iff, KL, R3. split.
        { intros [[V L]|[V [L Ep]]].
          - split; [assumption|]. split; [lia|]. now rewrite L.
          - split; [assumption|]. split; [lia|assumption]. }
        intros [V [L Ep]]. destruct (Nat.eq_dec (length p) d) as [Ed|Nd].
        { now left. }
        right. split; [assumption|]. split; [lia|assumption].
      * rewrite R4. split.
        { intros H p V L Ep. destruct (Nat.eq_dec (length p) d) as [Ed|Nd]; [lia|].
          specialize (H p V ltac:(lia) Ep). lia. }
        intros H p V L Ep. specialize (H p V ltac:(lia) Ep). lia.
Qed.

Lemma within_spec m k :
  within_max_depth m k = true <-> (m = -1 \/ Z.of_nat k <= m)%Z.
Proof. unfold within_max_depth. destruct (Z.eqb_spec m (-1)); [tauto|]. lia. Qed.

Lemma generate_paths_ok b x m rounds :
  schema_bag_ok b ->
  let out := fst (generate_paths b x m rounds) in
  let done := snd (generate_paths b x m rounds) in
  NoDup out /\ by_depth out
  /\ (forall p, In p out <->
        valid_path b x p /\ depth p < rounds
        /\ (m = -1 \/ Z.of_nat (depth p) <= m)%Z)
  /\ (done = true <->
        forall p, valid_path b x p -> (m = -1 \/ Z.of_nat (depth p) <= m)%Z ->
          depth p < rounds).
Proof.
  intros B. pose proof (generate_loop_ok b x m B rounds [([], x)] 0 (level_0 b x)) as G.
  cbv zeta in *. destruct G as [G1 [G2 [G3 G4]]].
  split; [assumption|]. split; [assumption|]. split.
  - intros p. unfold generate_paths. rewrite G3, within_spec. unfold depth. intuition lia.
  - unfold generate_paths. rewrite G4. unfold depth. split; intros H p V.
    + intros E. specialize (H p V ltac:(lia)). apply within_spec in E. specialize (H E). lia.
    + intros _ E. apply within_spec in E. specialize (H p V E). lia.
Qed.

(** * Views *)

Lemma get_ancestor_ok ex p n :
  (0 < n <= Z.of_nat (depth p))%Z ->
  get_ancestor ex p n = make_view ex (firstn (depth p - Z.to_nat n) p).
Proof.
  unfold get_ancestor, depth. intros H.
  replace (n <? 0)%Z with false by lia. replace (Z.of_nat (length p) <? n)%Z with false by lia.
  replace (n =? 0)%Z with false by lia. reflexivity.
Qed.

Lemma get_ancestor_concat ex p q :
  q <> [] ->
  get_ancestor ex (concat_paths p q) (Z.of_nat (depth q)) = make_view ex p.
Proof.
  intros Nq. unfold concat_paths. rewrite get_ancestor_ok.
  - unfold depth. rewrite app_length, Nat2Z.id. f_equal.
    replace (length p + length q - length q) with (length p) by lia.
    rewrite firstn_app, firstn_all, Nat.sub_diag. cbn. apply app_nil_r.
  - unfold depth. rewrite app_length. destruct q; [congruence|]. cbn [length]. lia.
Qed.

Lemma get_parent_extended ex p a :
  get_parent ex (extended_with_action p a) = make_view ex p.
Proof.
  unfold get_parent, extended_with_action.
  destruct (p ++ [a]) as [|a0 l] eqn:E; [now destruct p|]. rewrite <- E.
  now apply (get_ancestor_concat ex p [a]).
Qed.

Lemma get_parent_child ex p a q :
  get_child ex p a = View q -> get_parent ex q = View p.
Proof.
  unfold get_child. destruct (ex p) eqn:E; [|discriminate].
  unfold make_view. destruct (ex (extended_with_action p a)); [|discriminate].
  intros H. injection H as <-. rewrite get_parent_extended. unfold make_view. now rewrite E.
Qed.

Lemma get_grandparent_extended ex p a b :
  get_grandparent ex (extended_with_action (extended_with_action p a) b) = make_view ex p.
Proof.
  unfold get_grandparent, extended_with_action. rewrite <- app_assoc.
  replace (length (p ++ [a] ++ [b]) <? 2) with false.
  - now apply (get_ancestor_concat ex p ([a] ++ [b])).
  - rewrite app_length. cbn [app length]. symmetry. apply Nat.ltb_ge. lia.
Qed.

Lemma get_ancestor_errors ex p n :
  (n < 0 \/ Z.of_nat (depth p) < n)%Z -> get_ancestor ex p n = ViewError.
Proof.
  unfold get_ancestor, depth. intros [H|H].
  - now replace (n <? 0)%Z with true by lia.
  - replace (Z.of_nat (length p) <? n)%Z with true by lia. now destruct (n <? 0)%Z.
Qed.

Lemma find_descendants_ok ex b root pred m rounds p x :
  schema_bag_ok b ->
  (forall q, ex q = true <-> valid_path b root q) ->
  leads b root p x ->
  exists qs,
    find_descendants ex b x pred m rounds p
    = map (fun q => View (concat_paths p q)) qs
    /\ NoDup qs /\ by_depth qs
    /\ (forall q, In q qs <->
          q <> [] /\ valid_path b root (concat_paths p q)
          /\ pred (concat_paths p q) = true
          /\ depth q < rounds /\ (m = -1 \/ Z.of_nat (depth q) <= m)%Z).
Proof.
  intros B Hex Hp.
  pose proof (generate_paths_ok b x m rounds B) as G. cbv zeta in G.
  destruct G as [G1 [G2 [G3 _]]].
  set (out := fst (generate_paths b x m rounds)) in *.
  exists (filter (fun q => negb (match q with [] => true | _ => false end) && pred (concat_paths p q)) out).
  assert (V : forall q, valid_path b x q <-> valid_path b root (concat_paths p q)).
  { intros q. unfold valid_path, concat_paths. split.
    - intros [y H]. exists y. apply leads_app. now exists x.
    - intros [y H]. apply leads_app in H as [z [H1 H2]].
      rewrite (leads_unique b root p z x B H1 Hp) in H2. now exists y. }
  split; [|split; [|split]].
  - unfold find_descendants. fold out.
    replace (ex p) with true by (symmetry; apply Hex; now exists x).
    assert (Ho : forall q, In q out -> valid_path b x q) by (intros q I; now apply G3 in I).
    clear G1 G2 G3. induction out as [|q out IH]; [reflexivity|].
    cbn [flat_map filter]. rewrite IH by (intros q' I; apply Ho; now right).
    destruct q as [|a q]; [reflexivity|]. cbn [negb andb].
    unfold make_view. replace (ex (concat_paths p (a :: q))) with true.
    + destruct (pred (concat_paths p (a :: q))); reflexivity.
    + symmetry. apply Hex, V, Ho. now left.
  - now apply NoDup_filter.
  - unfold by_depth in *. clear - G2. induction G2 as [|q l S IH F]; cbn; [constructor|].
    destruct (_ && _); [|assumption]. constructor; [assumption|].
    apply Forall_forall. intros y I. apply filter_In in I as [I _].
    rewrite Forall_forall in F. now apply F.
  - intros q. rewrite filter_In, G3, V, andb_true_iff. destruct q; cbn [negb]; intuition congruence.
Qed.
