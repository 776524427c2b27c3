(** Proofs about the analysis of a schema. *)
From Coq Require Import String.
From Coq Require Import NArith ZArith List Bool PeanoNat Lia Permutation Relations.
From Verif Require Import PathModel PathSpec PathProofs PathGenProofs
  GraphModel GraphSpec GraphClosureProofs GraphProofs.
Import ListNotations.
Local Open Scope list_scope.
Local Open Scope nat_scope.

Definition keys (an : analysis) : list text := map fst (schema_graph an).

Definition has_fact (an : analysis) (p : option text) (c : text) (f : schema_fact)
  : Prop :=
  exists bag, In (p, c, bag) (relationship_bags an) /\ In f bag.

Lemma add_relationship_in l p c bag q d f :
  (exists k, In (q, d, k) (add_relationship l p c bag) /\ In f k)
  <-> (exists k, In (q, d, k) l /\ In f k) \/ (q = p /\ d = c /\ In f bag).
Proof.
  induction l as [|[[p' c'] bag'] l IH]; cbn [add_relationship].
  - cbn. split.
    + intros [k [[E|[]] I]]. injection E as <- <- <-. tauto.
    + intros [[k [[] _]]|[-> [-> I]]]. exists bag. tauto.
  - destruct (parent_eqb p' p && text_eqb c' c) eqn:E.
    + apply andb_true_iff in E as [E1 E2]. apply text_eqb_eq in E2. subst c'.
      assert (p' = p).
      { destruct p', p; cbn in E1; try discriminate; [|reflexivity].
        apply text_eqb_eq in E1. now subst. }
      subst p'. cbn. split.
      * intros [k [[E|I] J]].
        -- injection E as <- <- <-. apply in_app_iff in J as [J|J]; [|tauto].
           left. exists bag'. tauto.
        -- left. exists k. tauto.
      * intros [[k [[E|I] J]]|[-> [-> J]]].
        -- injection E as -> -> ->. exists (k ++ bag). split; [now left|].
           apply in_app_iff. now left.
        -- exists k. tauto.
        -- exists (bag' ++ bag). split; [now left|]. apply in_app_iff. now right.
    + cbn [In]. split.
      * intros [k [[F|I] J]].
        -- left. exists k. tauto.
        -- destruct (proj1 IH) as [[k' [I' J']]|H]; [now exists k| |now right].
           left. exists k'. tauto.
      * intros [[k [[F|I] J]]|H].
        -- exists k. tauto.
        -- destruct (proj2 IH) as [k' [I' J']]; [left; now exists k|]. exists k'. tauto.
        -- destruct (proj2 IH) as [k' [I' J']]; [now right|]. exists k'. tauto.
Qed.

Section Analysis.
  Variable lx : lexicon.
  Variable b : schema_bag.
  Variable B : schema_bag_ok b.
  Variable o0 : origin.
  Variable x0 : schema.
  Variable only : bool.
  Variable PL : forall p y, leads b x0 p y -> plain y.

  Notation arr := (arrives b o0 x0).

  Lemma arr_plain p o y : arr p o y -> plain y.
  Proof. intros A. apply (PL p). now apply (arrives_leads b o0 x0 p o). Qed.

  (** A step from an item with id [id] is recorded. *)
  Definition recorded (an : analysis) (id : text) (a : action) (z : schema) : Prop :=
    exists c, names lx (Some (SNode id, a)) z c /\ edge (schema_graph an) id c
      /\ In c (keys an)
      /\ (only = false -> has_fact an (Some id) c (id, a, z)).

  Record inv (an : analysis) (pending : list (origin * schema)) : Prop := Inv {
    inv_nodup : NoDup (keys an);
    inv_keys : forall n, In n (keys an) ->
      exists p o y, arr p o y /\ names lx o y n
        /\ (only = false -> find_schema (node_schemas an) n = Some y);
    inv_edges : forall n c, edge (schema_graph an) n c ->
      exists p o y a z, arr p o y /\ leads b y [a] z
        /\ names lx o y n /\ names lx (Some (y, a)) z c /\ In c (keys an);
    inv_facts : forall p c f, has_fact an p c f ->
      match p with
      | None => False
      | Some id => exists q o a z, f = (id, a, z)
          /\ arr q o (SNode id) /\ leads b (SNode id) [a] z
          /\ names lx (Some (SNode id, a)) z c
      end;
    inv_pending : forall it, In it pending ->
      exists p o id a, fst it = Some (SNode id, a) /\ arr p o (SNode id)
        /\ leads b (SNode id) [a] (snd it) /\ In id (keys an);
    inv_done : forall p o id, arr p o (SNode id) -> In id (keys an) ->
      forall a z, leads b (SNode id) [a] z ->
      In (Some (SNode id, a), z) pending \/ recorded an id a z }.

  Lemma find_schema_app l n y m :
    find_schema (l ++ [(n, y)]) m =
    match find_schema l m with
    | Some z => Some z
    | None => if text_eqb n m then Some y else None
    end.
  Proof.
    induction l as [|[k z] l IH]; cbn; [reflexivity|].
    destruct (text_eqb k m); [reflexivity|]. exact IH.
  Qed.

  (** Only keys of the graph have schemas. *)
  Definition schemas_ok (an : analysis) : Prop :=
    forall n, find_schema (node_schemas an) n <> None -> In n (keys an).

  Lemma in_expand_item y it :
    In it (expand_item b y) <->
    exists a, fst it = Some (y, a) /\ leads b y [a] (snd it).
  Proof.
    unfold expand_item. rewrite in_map_iff. split.
    - intros [[a z] [<- I]]. cbn. exists a. split; [reflexivity|]. now apply step_expand.
    - intros [a [E L]]. exists (a, snd it). cbn. split.
      + destruct it as [o z]. cbn in *. now subst o.
      + now apply step_expand.
  Qed.

  Lemma has_fact_add an p c bag q d f g s :
    has_fact (Analysis g s (add_relationship (relationship_bags an) p c bag)) q d f
    <-> has_fact an q d f \/ (q = p /\ d = c /\ In f bag).
  Proof. unfold has_fact. cbn [relationship_bags]. apply add_relationship_in. Qed.

  Lemma edge_new g c x y :
    edge (g ++ [(c, [])]) x y <-> edge g x y.
  Proof.
    unfold edge. rewrite get_app. destruct (get g x) as [zs|]; [tauto|].
    split.
    - intros [ys [E I]]. destruct (text_eqb c x); [|discriminate].
      assert (ys = []) by congruence. subst. easy.
    - now intros [ys [E I]].
  Qed.

  (** One item that is not on the first level. *)
  Lemma item_ok an new it rest :
    inv an ((it :: rest) ++ new) -> schemas_ok an ->
    (exists f, node_name lx (fst it) (snd it) = Fail f
       /\ analyze_item lx b only false (an, new) it = Fail f)
    \/ exists an' new',
         analyze_item lx b only false (an, new) it = Ok (an', new')
         /\ inv an' (rest ++ new') /\ schemas_ok an'
         /\ incl (keys an) (keys an')
         /\ (new' = new \/
             exists id, new' = new ++ expand_item b (SNode id)
               /\ In id (keys an') /\ ~ In id (keys an)).
  Proof.
    intros V SO. destruct (inv_pending _ _ V it (or_introl eq_refl))
      as [p [o [id [a [E [A [L K]]]]]]].
    destruct it as [oi z]. cbn [fst snd] in *. subst oi.
    unfold analyze_item. cbn [fst snd item_id_name bind].
    destruct (node_name lx (Some (SNode id, a)) z) as [c|f] eqn:NM; cbn [bind];
      [right|left; exists f; now split].
    destruct (add_child_defined (schema_graph an) id c K) as [g G].
    rewrite G. cbn [relationship_bag item_id_name bind].
    pose proof (add_child_keys _ _ _ _ G) as GK.
    assert (GE : forall x y, edge g x y <-> edge (schema_graph an) x y \/ (x = id /\ y = c))
      by (intros x y; now apply add_child_edge).
    apply node_name_iff in NM.
    set (bags := if only then Ok (relationship_bags an) else
                   Ok (add_relationship (relationship_bags an) (Some id) c [(id, a, z)])).
    assert (BE : exists bs, bags = Ok bs
      /\ forall s gg q d f, has_fact (Analysis gg s bs) q d f <->
           has_fact an q d f \/ (only = false /\ q = Some id /\ d = c /\ f = (id, a, z))).
    { subst bags. destruct only.
      - exists (relationship_bags an). split; [reflexivity|]. intros s gg q d f.
        unfold has_fact. cbn [relationship_bags]. intuition congruence.
      - eexists. split; [reflexivity|]. intros s gg q d f. rewrite has_fact_add. cbn.
        intuition congruence. }
    destruct BE as [bs [-> BF]]. cbn [bind]. fold (keys an) in GK. rewrite GK.
    assert (AZ : arr (p ++ [a]) (Some (SNode id, a)) z) by (now apply (arrives_step _ _ _ _ o)).
    destruct (mem c (keys an)) eqn:M.
    - apply mem_in in M. exists (Analysis g (node_schemas an) bs), new.
      split; [reflexivity|]. split; [|split; [|split; [|now left]]].
      + constructor; unfold keys; cbn [schema_graph node_schemas].
        * rewrite GK. apply (inv_nodup _ _ V).
        * rewrite GK. apply (inv_keys _ _ V).
        * intros n d I. rewrite GK. apply GE in I as [I|[-> ->]].
          -- now apply (inv_edges _ _ V).
          -- exists p, o, (SNode id), a, z. repeat split; try assumption. constructor.
        * intros q d f I. apply BF in I as [I|[_ [-> [-> ->]]]].
          -- now apply (inv_facts _ _ V).
          -- now exists p, o, a, z.
        * intros it I. rewrite GK. apply (inv_pending _ _ V it). right. exact I.
        * intros p' o' id' A' I a' z' L'. rewrite GK in I.
          assert (RE : recorded an id' a' z' ->
                       recorded (Analysis g (node_schemas an) bs) id' a' z').
          { intros [d [D1 [D2 [D3 D4]]]]. exists d. split; [assumption|].
            split; [cbn [schema_graph]; apply GE; now left|].
            split; [unfold keys; cbn [schema_graph]; now rewrite GK|].
            intros O. apply BF. left. now apply D4. }
          destruct (inv_done _ _ V p' o' id' A' I a' z' L') as [J|J]; [|right; now apply RE].
          destruct J as [J|J]; [|now left].
          injection J as <- <- <-. right. exists c. split; [assumption|].
          split; [cbn [schema_graph]; apply GE; now right|].
          split; [unfold keys; cbn [schema_graph]; now rewrite GK|].
          intros O. apply BF. right. tauto.
      + intros n I. unfold keys. cbn [schema_graph]. rewrite GK. now apply SO.
      + unfold keys at 2. cbn [schema_graph]. rewrite GK. apply incl_refl.
    - apply mem_false in M.
      set (ss := if only then node_schemas an else node_schemas an ++ [(c, z)]).
      set (an' := Analysis (g ++ [(c, [])]) ss bs).
      exists an', (new ++ expand_item b z).
      assert (KE : keys an' = keys an ++ [c]).
      { unfold keys, an'. cbn [schema_graph]. now rewrite map_app, GK. }
      assert (KI : forall n, In n (keys an') <-> In n (keys an) \/ n = c).
      { intros n. rewrite KE, in_app_iff. cbn. intuition congruence. }
      split; [reflexivity|]. split; [|split; [|split]].
      + constructor.
        * rewrite KE. apply (Permutation_NoDup (Permutation_cons_append (keys an) c)).
          constructor; [assumption|apply (inv_nodup _ _ V)].
        * intros n I. apply KI in I as [I|I].
          -- destruct (inv_keys _ _ V n I) as [p' [o' [y' [H1 [H2 H3]]]]].
             exists p', o', y'. split; [assumption|]. split; [assumption|].
             intros O. specialize (H3 O). unfold an', ss. cbn [node_schemas].
             rewrite O, find_schema_app. now rewrite H3.
          -- subst n. exists (p ++ [a]), (Some (SNode id, a)), z.
             split; [assumption|]. split; [assumption|].
             intros O. unfold an', ss. cbn [node_schemas]. rewrite O, find_schema_app.
             destruct (find_schema (node_schemas an) c) as [u|] eqn:F.
             ++ exfalso. apply M. apply SO. congruence.
             ++ now rewrite text_eqb_refl.
        * intros n d I. change (edge (g ++ [(c, [])]) n d) in I.
          rewrite edge_new in I. apply GE in I as [I|[-> ->]].
          -- destruct (inv_edges _ _ V n d I) as [p' [o' [y' [a' [z' [H1 [H2 [H3 [H4 H5]]]]]]]]].
             exists p', o', y', a', z'. repeat split; try assumption. apply KI. now left.
          -- exists p, o, (SNode id), a, z. repeat split; try assumption; [constructor|].
             apply KI. now right.
        * intros q d f I. apply BF in I as [I|[_ [-> [-> ->]]]].
          -- now apply (inv_facts _ _ V).
          -- now exists p, o, a, z.
        * intros it I. rewrite app_assoc in I. apply in_app_iff in I as [I|I].
          -- destruct (inv_pending _ _ V it) as [p' [o' [id' [a' [H1 [H2 [H3 H4]]]]]]];
               [right; exact I|].
             exists p', o', id', a'. repeat split; try assumption. apply KI. now left.
          -- apply in_expand_item in I as [a' [E L']].
             destruct (step_node _ _ _ _ L') as [id' ->].
             inversion NM; subst.
             exists (p ++ [a]), (Some (SNode id, a)), c, a'. repeat split; try assumption.
             apply KI. now right.
        * intros p' o' id' A' I a' z' L'.
          assert (RE : recorded an id' a' z' -> recorded an' id' a' z').
          { intros [d [D1 [D2 [D3 D4]]]]. exists d. split; [assumption|].
            split; [apply edge_new; apply GE; now left|].
            split; [apply KI; now left|]. intros O. apply BF. left. now apply D4. }
          apply KI in I as [I|I].
          -- destruct (inv_done _ _ V p' o' id' A' I a' z' L') as [J|J]; [|right; now apply RE].
             destruct J as [J|J].
             ++ injection J as <- <- <-. right. exists c. split; [assumption|].
                split; [apply edge_new; apply GE; now right|].
                split; [apply KI; now right|]. intros O. apply BF. right. tauto.
             ++ left. rewrite app_assoc. apply in_app_iff. now left.
          -- subst id'. left. rewrite app_assoc. apply in_app_iff. right.
             apply in_expand_item. exists a'. cbn [fst snd].
             apply arr_plain, plain_no_dot in A'.
             now rewrite (names_plain _ _ _ _ NM A').
      + intros n I. apply KI. unfold an', ss in I. cbn [node_schemas] in I.
        destruct only; [left; now apply SO|].
        rewrite find_schema_app in I.
        destruct (find_schema (node_schemas an) n) as [u|] eqn:F.
        * left. apply SO. congruence.
        * destruct (text_eqb c n) eqn:E; [|congruence]. apply text_eqb_eq in E. now right.
      + intros n I. apply KI. now left.
      + destruct z as [id'|t| |].
        * inversion NM; subst. right. exists c. split; [reflexivity|].
          split; [apply KI; now right|assumption].
        * left. cbn. now rewrite app_nil_r.
        * left. cbn. now rewrite app_nil_r.
        * left. cbn. now rewrite app_nil_r.
  Qed.

  (** Item ids of the bag that are not in the graph yet. *)
  Definition missing (an : analysis) : nat :=
    length (filter (fun k => negb (mem k (keys an))) (map fst b)).

  Lemma missing_le an an' : incl (keys an) (keys an') -> missing an' <= missing an.
  Proof using Type.
    clear B PL. intros I. unfold missing. induction (map fst b) as [|k l IH]; cbn; [lia|].
    destruct (mem k (keys an)) eqn:M; cbn.
    - apply mem_in in M. apply I in M. apply mem_in in M. rewrite M. exact IH.
    - destruct (mem k (keys an')); cbn; lia.
  Qed.

  Lemma missing_lt an an' id :
    incl (keys an) (keys an') -> In id (keys an') -> ~ In id (keys an) ->
    In id (map fst b) -> missing an' < missing an.
  Proof using Type.
    clear B PL. intros I J N. unfold missing. induction (map fst b) as [|k l IH]; [easy|].
    intros [->|K]; cbn [filter].
    - apply mem_in in J. apply mem_false in N. rewrite J, N. cbn.
      assert (H : length (filter (fun k => negb (mem k (keys an'))) l)
                  <= length (filter (fun k => negb (mem k (keys an))) l)).
      { clear IH. induction l as [|k l IH]; cbn; [lia|].
        destruct (mem k (keys an)) eqn:M; cbn.
        - apply mem_in in M. apply I in M. apply mem_in in M. rewrite M. exact IH.
        - destruct (mem k (keys an')); cbn; lia. }
      lia.
    - specialize (IH K). destruct (mem k (keys an)) eqn:M; cbn.
      + apply mem_in in M. apply I in M. apply mem_in in M. rewrite M. exact IH.
      + destruct (mem k (keys an')); cbn; lia.
  Qed.

  Lemma expand_in_bag id : expand_item b (SNode id) <> [] -> In id (map fst b).
  Proof using Type.
    unfold expand_item. cbn. clear B PL.
    assert (H : lookup b id <> NEntity [] -> In id (map fst b)).
    { induction b as [|[k n] l IH]; cbn; [easy|].
      destruct (text_eqb k id) eqn:E; [apply text_eqb_eq in E; now left|].
      intros N. right. now apply IH. }
    intros N. apply H. intros E. rewrite E in N. now apply N.
  Qed.

  Definition failing (f : failure) : Prop :=
    exists p o y, arr p o y /\ node_name lx o y = Fail f.

  Lemma level_ok_inv level : forall an new,
    inv an (level ++ new) -> schemas_ok an ->
    (exists f, analyze_level lx b only false (an, new) level = Fail f /\ failing f)
    \/ exists an' new',
         analyze_level lx b only false (an, new) level = Ok (an', new')
         /\ inv an' new' /\ schemas_ok an'
         /\ incl (keys an) (keys an')
         /\ (new' = new \/ missing an' < missing an).
  Proof.
    induction level as [|it level IH]; intros an new V SO.
    - right. exists an, new. repeat split; try assumption; try apply V; [apply incl_refl|now left].
    - cbn [analyze_level].
      destruct (item_ok an new it level V SO)
        as [[f [E F]]|[an1 [new1 [E [V1 [SO1 [I1 D1]]]]]]].
      + left. rewrite F. exists f. split; [reflexivity|].
        destruct (inv_pending _ _ V it (or_introl eq_refl))
          as [p [o [id [a [Eo [A [L K]]]]]]].
        exists (p ++ [a]), (fst it), (snd it). split; [|assumption].
        rewrite Eo. now apply (arrives_step _ _ _ _ o).
      + rewrite E. cbn [bind].
        destruct (IH an1 new1 V1 SO1) as [[f F]|[an2 [new2 [E2 [V2 [SO2 [I2 D2]]]]]]].
        * left. now exists f.
        * right. exists an2, new2. split; [assumption|]. split; [assumption|].
          split; [assumption|]. split; [eapply incl_tran; eassumption|].
          pose proof (missing_le _ _ I1) as M1. pose proof (missing_le _ _ I2) as M2.
          destruct D2 as [->|D2]; [|right; lia].
          destruct D1 as [->|[id [-> [J N]]]]; [now left|].
          destruct (expand_item b (SNode id)) as [|i l] eqn:X.
          -- left. apply app_nil_r.
          -- right. assert (missing an1 < missing an); [|lia].
             apply (missing_lt an an1 id); try assumption. apply expand_in_bag. congruence.
  Qed.

  Lemma loop_ok rounds : forall an level,
    inv an level -> schemas_ok an -> missing an < rounds ->
    (exists f, analyze_loop lx b only rounds false an level = Fail f /\ failing f)
    \/ exists an', analyze_loop lx b only rounds false an level = Ok an'
         /\ inv an' [] /\ incl (keys an) (keys an').
  Proof.
    induction rounds as [|rounds IH]; intros an level V SO M; [lia|].
    destruct level as [|it level].
    - right. exists an. repeat split; try apply V. apply incl_refl.
    - cbn [analyze_loop].
      rewrite <- (app_nil_r (it :: level)) in V.
      destruct (level_ok_inv (it :: level) an [] V SO)
        as [[f [F G]]|[an1 [new1 [E [V1 [SO1 [I1 D1]]]]]]].
      + left. exists f. rewrite F. now split.
      + rewrite E. cbn [bind fst snd].
        destruct D1 as [->|D1].
        * right. exists an1. split; [now destruct rounds|]. now split.
        * destruct (IH an1 new1 V1 SO1) as [F|[an2 [E2 [V2 I2]]]]; [lia|now left|].
          right. exists an2. split; [assumption|]. split; [assumption|].
          eapply incl_tran; eassumption.
  Qed.

  (** The parent of the first schema has an item id. *)
  Variable O0 : match o0 with Some (SNode _, _) | None => True | _ => False end.
  Variable O0' : only = false -> o0 = None.

  Lemma analyze_ok :
    (exists f, analyze_schema lx b x0 o0 only = Fail f /\ failing f)
    \/ exists an, analyze_schema lx b x0 o0 only = Ok an
         /\ inv an []
         /\ exists n, names lx o0 x0 n /\ In n (keys an).
  Proof.
    unfold analyze_schema. cbn [analyze_loop analyze_level].
    unfold analyze_item. cbn [fst snd].
    destruct (node_name lx o0 x0) as [c|f] eqn:NM; cbn [bind].
    2:{ left. exists f. split; [reflexivity|]. exists [], o0, x0. split; [constructor|assumption]. }
    apply node_name_iff in NM.
    set (pn := match o0 with None => Ok None | Some (parent, _) =>
                 bind (item_id_name parent) (fun n => Ok (Some n)) end).
    assert (PN : exists pn', pn = Ok pn' /\ (only = false -> pn' = None)).
    { subst pn. destruct o0 as [[[id|u| |] a]|]; try easy.
      - exists (Some id). split; [reflexivity|]. intros O. now specialize (O0' O).
      - now exists None. }
    destruct PN as [pn' [-> PN]]. cbn [bind schema_graph relationship_bags node_schemas map mem existsb].
    set (bags := if only then Ok [] else _).
    assert (BG : exists bs, bags = Ok bs /\ forall q d k, In (q, d, k) bs -> k = []).
    { subst bags. destruct only; [now exists []|]. rewrite O0' by reflexivity. cbn.
      eexists. split; [reflexivity|]. intros q d k [E|[]]. now injection E as <- <- <-. }
    destruct BG as [bs [-> BG]]. cbn [bind app fst snd].
    set (an := Analysis [(c, [])] (if only then [] else [(c, x0)]) bs).
    assert (BF : forall q d f, ~ has_fact an q d f).
    { intros q d f [k [I J]]. apply BG in I. subst k. easy. }
    assert (V : inv an (expand_item b x0)).
    { constructor.
      - unfold keys. cbn. constructor; [easy|constructor].
      - intros n [E|[]]. cbn in E. subst n. exists [], o0, x0. split; [constructor|].
        split; [assumption|]. intros O. unfold an. cbn [node_schemas]. rewrite O. cbn.
        now rewrite text_eqb_refl.
      - intros n d [ys [E I]]. cbn in E. destruct (text_eqb c n); [|discriminate].
        assert (ys = []) by congruence. now subst.
      - intros q d f F. now apply BF in F.
      - intros it I. apply in_expand_item in I as [a [E L]].
        destruct (step_node _ _ _ _ L) as [id X]. rewrite X in *.
        inversion NM; subst c. exists [], o0, id, a.
        rewrite <- X. split; [now rewrite X|]. split; [constructor|].
        split; [now rewrite X|]. now left.
      - intros p o id A [E|[]] a z L. cbn in E. subst c. left. apply in_expand_item.
        exists a. cbn [fst snd]. apply arr_plain, plain_no_dot in A.
        now rewrite (names_plain _ _ _ _ NM A). }
    assert (SO : schemas_ok an).
    { intros n. unfold an. cbn [node_schemas keys]. unfold keys. cbn [schema_graph map fst].
      destruct only; cbn; [easy|]. destruct (text_eqb c n) eqn:E; [|easy].
      apply text_eqb_eq in E. intros _. now left. }
    assert (F : expand_item b x0 = [] \/ missing an < length b).
    { destruct x0 as [id|t| |]; try (now left).
      destruct (expand_item b (SNode id)) as [|i l] eqn:X; [now left|right].
      inversion NM; subst c.
      assert (I : In id (map fst b)) by (apply expand_in_bag; congruence).
      pose proof (missing_lt (Analysis [] [] []) an id) as ML. unfold missing at 2 in ML.
      cbn in ML.
      assert (LB : length (filter (fun _ : text => true) (map fst b)) = length b).
      { rewrite <- (map_length fst b). f_equal. clear. induction (map fst b); cbn; congruence. }
      rewrite LB in ML. apply ML; try easy. now left. }
    destruct F as [F|F].
    { right. rewrite F in *. exists an. split; [now destruct (length b)|]. split; [assumption|].
      exists c. split; [assumption|]. now left. }
    destruct (loop_ok (length b) an (expand_item b x0) V SO F)
      as [[f [E G]]|[an' [E [V' I]]]].
    - left. exists f. now split.
    - right. exists an'. split; [assumption|]. split; [assumption|].
      exists c. split; [assumption|]. apply I. now left.
  Qed.
End Analysis.
