(** What managers show, in all histories. *)
From Coq Require Import String.
From Coq Require Import NArith ZArith List Bool PeanoNat Lia.
From Verif Require Import PathModel PathSpec PathProofs PathGenProofs PathCodecModel
  GraphModel GraphSpec GraphProofs GraphAnalysisProofs GraphHelperProofs
  SliceManagerModel SliceManagerSpec SliceManagerDataProofs SliceManagerProcessProofs
  SliceManagerLoadProofs SliceManagerUpdateProofs SliceManagerHistoryProofs
  SliceManagerTotalProofs SliceManagerCombineProofs.
Import ListNotations.
Local Open Scope list_scope.
Local Open Scope nat_scope.

Section Main.
  Variable lx : lexicon.
  Variable pop : list text -> option (text * list text).
  Variable ty : N -> text.
  Variable struct : text -> option node.
  Variable root : N.
  Variable root_schema : text.
  Hypothesis ST : setting lx pop ty struct root root_schema.

  Local Notation rev_ok := (rev_ok lx ty struct root_schema).
  Local Notation after := (after ty root root_schema).
  Local Notation valid_change := (valid_change ty struct root root_schema lx).
  Local Notation replacing := (replacing ty root root_schema).
  Local Notation keeping := (keeping root_schema).
  Local Notation history A := (history ty struct root root_schema A lx pop).
  Local Notation dirs_ok A := (dirs_ok lx ty struct root root_schema A).
  Local Notation has_path := (has_path root_schema).
  Local Notation get_data_slice := (get_data_slice lx pop root_schema).
  Local Notation get_data_slice_at := (get_data_slice_at lx pop root root_schema).
  Local Notation evaluate_slice := (evaluate_slice root root_schema).
  Local Notation update := (update lx pop root root_schema).
  Local Notation plan_update := (plan_update lx pop root root_schema).
  Local Notation shows := (shows lx pop root root_schema).
  Local Notation same_view := (same_view lx pop root_schema).

  Lemma has_path_prefix st p q : has_path st (p ++ q) -> has_path st p.
  Proof.
    unfold SliceManagerSpec.has_path. generalize (SNode root_schema) as x.
    induction p as [|a p IH]; intros x; [discriminate|]. cbn [app schema_along].
    destruct x as [id| | |]; try easy. destruct (st_child st id a) as [y|]; [apply IH|easy].
  Qed.

  Lemma has_path_dec st p : has_path st p \/ ~ has_path st p.
  Proof.
    unfold SliceManagerSpec.has_path.
    destruct (schema_along (st_child st) (SNode root_schema) p); [left; discriminate|tauto].
  Qed.

  Lemma history_dirs (A : state -> change -> Prop) : (forall st u, A st u -> replacing st u) -> forall d ms ks sts,
    history A d ms ks sts -> dirs_ok A d ms ks sts.
  Proof.
    destruct ST as (C & P & SO & RT & RP & RE). intros AL d ms ks sts.
    exact (history_ok lx pop C P ty struct SO root root_schema RT RP RE A AL d ms ks sts).
  Qed.

  (** A manager of a history, with what is known about it. *)
  Lemma manager_rev (A : state -> change -> Prop) d ms ks sts m : dirs_ok A d ms ks sts -> In m ms ->
    exists st, nth_error sts (m_number m) = Some st
      /\ nth_error (d_meta d) (m_number m) = Some (m_revisions m)
      /\ m_schema m = schema_of d (m_revisions m)
      /\ rev_ok d (m_revisions m) (m_schema m) st.
  Proof.
    intros W I. destruct (wi_mgr _ _ _ _ _ _ _ _ _ _ W m I) as [Q1 Q2].
    destruct (revision_of lx ty struct root root_schema A d ms ks sts _ _ W Q1) as (st & N & O).
    exists st. split; [exact N|]. split; [exact Q1|]. split; [exact Q2|]. now rewrite Q2.
  Qed.

  (** * Loading *)

  Section Load.
    Variables (d : dir) (m : manager) (st : state).
    Hypothesis O : rev_ok d (m_revisions m) (m_schema m) st.

    Lemma loading ps ds : Forall (has_path st) (ps ++ ds) ->
      exists s, get_data_slice d m ps ds = Done s
        /\ (forall p, asked ps ds p -> has_path st p ->
              evaluate_slice s p = Done (at_path root st p))
        /\ (forall p t, evaluate_slice s p = Done t ->
              has_path st p /\ t = at_path root st p).
    Proof.
      destruct ST as (C & P & SO & RT & RP & RE). intros V.
      destruct (load_ok lx pop P ty struct root root_schema RT RP d _ _ st O m eq_refl eq_refl ps ds V)
        as (s & ns & L1 & _ & _ & L4 & L5).
      exists s. split; [exact L1|].
      assert (R : forall p t, evaluate_slice s p = Done t -> has_path st p /\ t = at_path root st p).
      { intros p t E. unfold SliceManagerModel.evaluate_slice in E.
        destruct (slice_schema (s_schema s) (SNode root_schema) p) as [y|] eqn:SS; [|discriminate].
        destruct (L4 p y SS) as (Q1 & Q2 & _). split; [|congruence].
        unfold SliceManagerSpec.has_path. congruence. }
      split; [|exact R]. intros p A HP.
      assert (NE : slice_schema (s_schema s) (SNode root_schema) p <> None).
      { destruct A as [[q I]|(r & t & I & ->)].
        - apply (L5 p q).
          + apply in_app_or in I. tauto.
          + rewrite Forall_forall in V. exact (V _ I).
        - apply (L5 (r ++ t) []); [|now rewrite app_nil_r].
          right. right. exists r, t. now rewrite app_nil_r. }
      unfold SliceManagerModel.evaluate_slice.
      destruct (slice_schema (s_schema s) (SNode root_schema) p) as [y|] eqn:SS; [|easy].
      destruct (L4 p y SS) as (_ & Q2 & _). now rewrite Q2.
    Qed.

    Lemma refuses ps ds : ~ Forall (has_path st) (ps ++ ds) ->
      exists p, In p (ps ++ ds) /\ ~ has_path st p
        /\ get_data_slice d m ps ds = Raised (SchemaError (InvalidArgument p)).
    Proof.
      destruct ST as (C & P & SO & RT & RP & RE). intros V.
      destruct (rev_helper lx pop ty struct root_schema RP d _ _ st O m eq_refl eq_refl) as [h [H1 H2]].
      pose proof (rev_graph_ok lx ty struct root_schema RP d _ _ st O) as W.
      assert (VP : forall p, valid_path (m_schema m) (SNode root_schema) p <-> has_path st p).
      { intros p. unfold SliceManagerSpec.has_path.
        rewrite (schema_along_ext _ (child (m_schema m))) by apply (ro_child _ _ _ _ _ _ _ _ O).
        rewrite schema_along_at. split.
        - intros [y L] E. apply schema_at_leads in L; [|apply W]. congruence.
        - intros NE. destruct (schema_at (m_schema m) (SNode root_schema) p) as [y|] eqn:SA; [|easy].
          exists y. apply schema_at_leads; [apply W|exact SA]. }
      unfold SliceManagerModel.get_data_slice. rewrite H1. cbn [andthen].
      destruct (names_needed_to h ps ds) as [ns|f] eqn:NN.
      - exfalso. apply V. apply Forall_forall. intros p I.
        destruct (check_paths h (ps ++ ds)) as [[]|g] eqn:CP.
        + apply (check_paths_ok lx pop (m_schema m) (SNode root_schema) W h H2) in CP.
          rewrite Forall_forall in CP. apply VP. now apply CP.
        + exfalso.
          apply (check_paths_fail lx pop (m_schema m) (SNode root_schema) W h H2) in CP
            as [q [_ [J NV]]].
          unfold names_needed_to in NN.
          destruct (check_paths h ps) as [[]|] eqn:C1; [|discriminate]. cbn [bind] in NN.
          destruct (check_paths h ds) as [[]|] eqn:C2; [|discriminate].
          apply (check_paths_ok lx pop (m_schema m) (SNode root_schema) W h H2) in C1, C2.
          rewrite Forall_forall in C1, C2. apply in_app_or in J as [J|J]; now apply NV; auto.
      - destruct (needed_fail lx pop P (m_schema m) (SNode root_schema) W h H2 ps ds f NN)
          as (p & -> & I & NV).
        exists p. split; [exact I|]. split; [|reflexivity]. intros HP. apply NV. now apply VP.
    Qed.

    Lemma loads_iff ps ds :
      (exists s, get_data_slice d m ps ds = Done s) <-> Forall (has_path st) (ps ++ ds).
    Proof.
      split.
      - intros [s E].
        assert (D : Forall (has_path st) (ps ++ ds) \/ ~ Forall (has_path st) (ps ++ ds)).
        { generalize (ps ++ ds) as l. induction l as [|p l IH]; [left; constructor|].
          destruct (has_path_dec st p) as [H|H]; [|right; intros F; inversion F; auto].
          destruct IH as [F|F]; [left; now constructor|right; intros G; inversion G; auto]. }
        destruct D as [D|D]; [exact D|]. destruct (refuses ps ds D) as (p & _ & _ & E'). congruence.
      - intros F. destruct (loading ps ds F) as (s & E & _). now exists s.
    Qed.

    Lemma everything : exists full, get_data_slice d m [] [[]] = Done full
      /\ (forall p, has_path st p -> evaluate_slice full p = Done (at_path root st p))
      /\ (forall p, ~ has_path st p -> evaluate_slice full p = Raised (SchemaError InvalidPath))
      /\ (forall ps ds s p t, get_data_slice d m ps ds = Done s -> evaluate_slice s p = Done t ->
            evaluate_slice full p = Done t).
    Proof.
      destruct (loading [] [[]]) as (full & E & F1 & F2).
      { constructor; [|constructor]. discriminate. }
      exists full. split; [exact E|].
      assert (A : forall p, has_path st p -> evaluate_slice full p = Done (at_path root st p)).
      { intros p H. apply F1; [|exact H]. right. exists [], p. split; [now left|reflexivity]. }
      split; [exact A|]. split.
      - intros p N. destruct (evaluate_slice full p) as [t|e] eqn:Q.
        + destruct (F2 p t Q) as [H _]. easy.
        + unfold SliceManagerModel.evaluate_slice in Q. destruct (slice_schema _ _ p); congruence.
      - intros ps ds s p t L Q.
        assert (V : Forall (has_path st) (ps ++ ds)) by (apply loads_iff; now exists s).
        destruct (loading ps ds V) as (s' & L' & _ & R). assert (s' = s) as -> by congruence.
        destruct (R p t Q) as [H ->]. now apply A.
    Qed.

    Lemma rev_shows : shows d m st.
    Proof.
      intros p desc. unfold SliceManagerModel.get_data_slice_at.
      assert (Q : forall ps ds, In p (ps ++ ds) -> (forall q, In q (ps ++ ds) -> q = p) ->
        (has_path st p -> andthen (get_data_slice d m ps ds) (fun s => evaluate_slice s p)
           = Done (at_path root st p))
        /\ (~ has_path st p -> andthen (get_data_slice d m ps ds) (fun s => evaluate_slice s p)
           = Raised (SchemaError (InvalidArgument p)))).
      { intros ps ds I U. split; intros H.
        - destruct (loading ps ds) as (s & E & F & _).
          { apply Forall_forall. intros q J. now rewrite (U q J). }
          rewrite E. cbn [andthen]. apply F; [|exact H]. left. exists []. now rewrite app_nil_r.
        - destruct (refuses ps ds) as (q & J & _ & E).
          { intros F. rewrite Forall_forall in F. now apply H, F. }
          rewrite E, (U q J). reflexivity. }
      destruct desc; apply Q; cbn; intuition.
    Qed.
  End Load.

  (** * Other directories and managers *)

  Lemma get_data_slice_extends d d' m st : rev_ok d (m_revisions m) (m_schema m) st ->
    extends d d' -> forall ps ds, get_data_slice d' m ps ds = get_data_slice d m ps ds.
  Proof.
    intros O E ps ds.
    destruct (extends_same lx ty struct root_schema d d' _ _ st O E) as (_ & E2 & _).
    unfold SliceManagerModel.get_data_slice.
    destruct (helper_of lx pop root_schema m) as [h|]; [|reflexivity]. cbn [andthen].
    destruct (of_result (names_needed_to h ps ds)) as [ns|]; [|reflexivity]. cbn [andthen].
    assert (NB : needed_bag_names d' m ns = needed_bag_names d m ns).
    { induction ns as [|n ns IH]; [reflexivity|]. cbn [needed_bag_names]. unfold data_bag_names.
      rewrite E2. destruct (index_get _ n); [|reflexivity]. now rewrite IH. }
    rewrite NB. clear NB. destruct (needed_bag_names d m ns) as [l|] eqn:L; [|reflexivity]. cbn [andthen].
    destruct (of_result (schema_bag_for h ns)) as [f|]; [|reflexivity]. cbn [andthen].
    do 3 f_equal.
    assert (LL : forall n, In n l -> n < d_fresh d).
    { revert l L. induction ns as [|n ns IH]; intros l L.
      - cbn in L. assert (l = []) as -> by congruence. easy.
      - cbn [needed_bag_names] in L. unfold data_bag_names in L.
        destruct (index_get (full_index d (m_revisions m)) n) as [l1|] eqn:G; [|discriminate].
        destruct (needed_bag_names d m ns) as [l2|]; [|discriminate]. cbn [andthen] in L.
        assert (l = l1 ++ l2) as -> by congruence. intros k I. apply in_app_or in I as [I|I].
        + apply (ro_fresh _ _ _ _ _ _ _ _ O), in_or_app. left.
          exact (ro_index _ _ _ _ _ _ _ _ O n l1 G k I).
        + now apply (IH l2). }
    destruct E as [_ [x [X1 X2]] _ _ _]. rewrite X1.
    now rewrite (minimal_old _ _ _ (d_fresh d)).
  Qed.

  Lemma update_extends (A : state -> change -> Prop) d ms ks sts m u c d' m' r st : dirs_ok A d ms ks sts -> In m ms ->
    nth_error sts (m_number m) = Some st ->
    valid_change st u \/ (exists e, plan_update d m u = Raised e) ->
    update d m u c = (d', m', r) -> extends d d'.
  Proof.
    destruct ST as (C & P & SO & RT & RP & RE). intros W I NS V E.
    unfold SliceManagerModel.update in E.
    destruct (plan_update d m u) as [p|e] eqn:PE.
    2: { assert (d' = d) as -> by congruence. apply extends_refl. }
    destruct V as [V|[e V]]; [|congruence].
    destruct (update_facts lx pop C P ty struct SO root root_schema RT RP A d ms ks sts m u st p W I NS V PE)
      as (X1 & X2 & X3 & _).
    cbv zeta in E. destruct c.
    - assert (d' = d) as -> by congruence. apply extends_refl.
    - assert (d' = write_data d p) as -> by congruence. exact X1.
    - assert (d' = write_schema (write_data d p) p) as -> by congruence. exact X2.
    - assert (d' = write_index (write_schema (write_data d p) p) p) as -> by congruence. exact X3.
    - unfold write_metadata in E. destruct (Nat.ltb _ _).
      + assert (d' = write_index (write_schema (write_data d p) p) p) as -> by congruence. exact X3.
      + set (d3 := write_index (write_schema (write_data d p) p) p) in *.
        apply (extends_trans d d3); [exact X3|].
        assert (d' = Dir (d_initial_index d3) (d_data d3) (d_schema d3) (d_index d3)
                      (d_meta d3 ++ [next_revisions m u p]) (d_fresh d3)) as -> by congruence.
        apply (same_revisions d3); reflexivity.
  Qed.

  Section Replacing.
    Variables (d : dir) (ms : list manager) (ks : list revision_kind) (sts : list state).
    Hypothesis H : history replacing d ms ks sts.

    Let W := history_dirs replacing (fun st u A => A) d ms ks sts H.

    Lemma view_loads m st : In m ms -> nth_error sts (m_number m) = Some st ->
      rev_ok d (m_revisions m) (m_schema m) st.
    Proof.
      intros I N. destruct (manager_rev replacing _ _ _ _ m W I) as (st' & N' & _ & _ & O).
      assert (st' = st) as -> by congruence. exact O.
    Qed.

    Lemma managers_show m : In m ms ->
      exists st, nth_error sts (m_number m) = Some st /\ shows d m st.
    Proof.
      intros I. destruct (manager_rev replacing _ _ _ _ m W I) as (st & N & _ & _ & O).
      exists st. split; [exact N|]. exact (rev_shows d m st O).
    Qed.

    Lemma revisions m : In m ms -> length ks = length sts /\ m_number m < length sts
      /\ revision_history m = firstn (S (m_number m)) ks.
    Proof.
      intros I. destruct (manager_rev replacing _ _ _ _ m W I) as (st & N & M & _ & _).
      split; [exact (wi_kind _ _ _ _ _ _ _ _ _ _ W)|].
      split; [apply nth_error_Some; congruence|].
      exact (wi_kinds _ _ _ _ _ _ _ _ _ _ W _ _ M).
    Qed.

    Lemma replay k st st' : nth_error sts k = Some st -> nth_error sts (S k) = Some st' ->
      exists u, nth_error ks (S k) = Some (AttributeUpdate (u_path u) (u_attr u))
        /\ valid_change st u /\ replacing st u /\ after st u st'.
    Proof. exact (wi_after _ _ _ _ _ _ _ _ _ _ W k st st'). Qed.

    Lemma opening i ro :
      match i with
      | Some k =>
          if Nat.ltb k (length sts)
          then exists m, create_from_dir d i ro = Done m /\ m_number m = k /\ m_read_only m = ro
          else create_from_dir d i ro = Raised IndexOutOfBounds
      | None =>
          exists m, create_from_dir d i ro = Done m /\ S (m_number m) = length sts
            /\ m_read_only m = ro
      end.
    Proof.
      pose proof (wi_meta _ _ _ _ _ _ _ _ _ _ W) as M. pose proof (wi_some _ _ _ _ _ _ _ _ _ _ W) as NE.
      unfold create_from_dir. destruct i as [k|].
      - destruct (Nat.ltb k (length sts)) eqn:LT.
        + apply Nat.ltb_lt in LT. rewrite <- M in LT. apply nth_error_Some in LT.
          destruct (nth_error (d_meta d) k) as [revs|]; [|easy]. eexists. split; [reflexivity|]. now split.
        + apply Nat.ltb_ge in LT. rewrite <- M in LT. apply nth_error_None in LT. now rewrite LT.
      - assert (L : length (d_meta d) - 1 < length (d_meta d)).
        { rewrite M. destruct sts; [easy|]. cbn. lia. }
        pose proof L as L'. apply nth_error_Some in L.
        destruct (nth_error (d_meta d) (length (d_meta d) - 1)) as [revs|]; [|easy].
        eexists. split; [reflexivity|]. cbn. split; [lia|reflexivity].
    Qed.

    Lemma update_effect m u c d' m' st : In m ms -> nth_error sts (m_number m) = Some st ->
      valid_change st u -> replacing st u -> update d m u c = (d', m', Some (Done tt)) ->
      m_read_only m = false /\ S (m_number m) = length sts
      /\ m_number m' = length sts /\ m_read_only m' = false
      /\ (exists st', after st u st')
      /\ (forall st', after st u st' -> shows d' m' st').
    Proof.
      destruct ST as (C & P & SO & RT & RP & RE). intros I NS V R E.
      pose proof E as E0. unfold SliceManagerModel.update in E0.
      destruct (plan_update d m u) as [p|e] eqn:PE; [|congruence].
      destruct (update_facts lx pop C P ty struct SO root root_schema RT RP replacing d ms ks sts m u st p
                  W I NS V PE) as (_ & _ & _ & _ & _ & _ & RO & (st0 & A0) & _).
      destruct (update_ok lx pop C P ty struct SO root root_schema RT RP replacing (fun st u A => A)
                  d ms ks sts m u c d' m' st st0 W I NS V R E A0) as (N1 & _ & N2).
      split; [exact RO|]. split; [exact N1|]. split; [exact N2|]. split.
      { cbv zeta in E0. destruct c; try congruence. destruct (write_metadata _ _ _); [|congruence].
        assert (m' = Manager (next_revisions m u p) (S (m_number m))
                       (schema_updated (m_schema m) (snd (p_schema p))) false) as -> by congruence.
        reflexivity. }
      split; [now exists st0|]. intros st' A.
      destruct (update_ok lx pop C P ty struct SO root root_schema RT RP replacing (fun st u A => A)
                  d ms ks sts m u c d' m' st st' W I NS V R E A) as (_ & W' & _).
      destruct (manager_rev replacing _ _ _ _ m' W' (or_introl eq_refl)) as (s & N & _ & _ & O).
      rewrite N2, nth_error_app2, Nat.sub_diag in N by lia. cbn in N.
      assert (s = st') as -> by congruence. exact (rev_shows d' m' st' O).
    Qed.

    Lemma isolation m u c d' m' r st : In m ms -> nth_error sts (m_number m) = Some st ->
      valid_change st u \/ (exists e, plan_update d m u = Raised e) ->
      update d m u c = (d', m', r) ->
      forall m2, In m2 ms -> same_view d m2 d' m2.
    Proof.
      intros I NS V E m2 I2. split; [reflexivity|]. split; [reflexivity|]. intros ps ds.
      destruct (manager_rev replacing _ _ _ _ m2 W I2) as (st2 & _ & _ & _ & O2).
      apply (get_data_slice_extends d d' m2 st2 O2).
      exact (update_extends replacing d ms ks sts m u c d' m' r st W I NS V E).
    Qed.

    Lemma failing m u c d' m' r st : In m ms -> nth_error sts (m_number m) = Some st ->
      valid_change st u \/ (exists e, plan_update d m u = Raised e) ->
      update d m u c = (d', m', r) -> r <> Some (Done tt) ->
      m' = m /\ forall i ro, create_from_dir d' i ro = create_from_dir d i ro.
    Proof.
      destruct ST as (C & P & SO & RT & RP & RE). intros I NS V E NR.
      destruct (no_update_ok lx pop C P ty struct SO root root_schema RT RP replacing d ms ks sts m u c
                  d' m' st r W I NS V E NR) as (-> & M & X & _).
      split; [reflexivity|]. intros i ro. unfold create_from_dir. rewrite M.
      destruct (nth_error (d_meta d) _) as [revs|] eqn:N; [|reflexivity].
      destruct (revision_of lx ty struct root root_schema replacing _ _ _ _ _ _ W N) as (s & _ & O).
      destruct (extends_same lx ty struct root_schema d d' _ _ s O X) as (E1 & _ & _).
      now rewrite E1.
    Qed.

    (** Updates that pass all checks. *)
    Lemma succeeding m u at_id st : In m ms -> nth_error sts (m_number m) = Some st ->
      m_read_only m = false ->
      schema_along (st_child st) (SNode root_schema) (u_path u) = Some (SNode at_id) ->
      change_ok ty struct root lx st u at_id -> struct at_id = None ->
      supported (u_schemas u) (u_schema u) ->
      length (targets_of root st (u_path u)) = length (u_values u) ->
      exists d' m', update d m u NoCut
        = (d', m', Some (if Nat.eqb (S (m_number m)) (length sts) then Done tt
                         else Raised ConcurrentUpdate)).
    Proof.
      destruct ST as (C & P & SO & RT & RP & RE). intros I NS RO AT U AE US UL.
      destruct (plan_total lx pop C P ty struct root root_schema RT RP d _ _ st
                  (view_loads m st I NS) m eq_refl eq_refl RO u at_id AT U AE US UL) as [p PE].
      unfold SliceManagerModel.update. rewrite PE. cbv zeta. unfold write_metadata.
      change (d_meta (write_index (write_schema (write_data d p) p) p)) with (d_meta d).
      rewrite (wi_meta _ _ _ _ _ _ _ _ _ _ W).
      assert (L : m_number m < length sts) by (apply nth_error_Some; congruence).
      destruct (Nat.eqb_spec (S (m_number m)) (length sts)) as [Q|Q].
      - assert (Nat.ltb (S (m_number m)) (length sts) = false) as -> by (apply Nat.ltb_ge; lia).
        eexists _, _. reflexivity.
      - assert (Nat.ltb (S (m_number m)) (length sts) = true) as -> by (apply Nat.ltb_lt; lia).
        eexists _, _. reflexivity.
    Qed.

    Lemma branching m i : In m ms ->
      if Nat.ltb (m_number m) i
      then branch d m i = Raised IndexOutOfBounds
      else exists d' m' st, branch d m i = Done (d', m')
        /\ nth_error sts i = Some st
        /\ history replacing d' [m'] [BranchOf i] [st] /\ shows d' m' st
        /\ m_read_only m' = false /\ revision_history m' = [BranchOf i].
    Proof.
      destruct ST as (C & P & SO & RT & RP & RE). intros I.
      destruct (manager_rev replacing _ _ _ _ m W I) as (st & N & M & _ & _).
      pose proof (meta_length _ _ _ _ _ _ _ _ _ _ _ _ W M) as LR.
      destruct (Nat.ltb_spec (m_number m) i) as [L|L].
      - unfold branch. rewrite LR.
        assert (Nat.ltb i (S (m_number m)) = false) as -> by (apply Nat.ltb_ge; lia). reflexivity.
      - assert (LS : m_number m < length sts) by (apply nth_error_Some; congruence).
        assert (LI : i < length sts) by lia. apply nth_error_Some in LI.
        destruct (nth_error sts i) as [sti|] eqn:NI; [|easy].
        destruct (branch d m i) as [[d' m']|e] eqn:B.
        + exists d', m', sti. split; [reflexivity|]. split; [reflexivity|].
          assert (H' : history replacing d' [m'] [BranchOf i] [sti])
            by now apply (history_branch _ _ _ _ _ _ _ d ms ks sts m i d' m' sti).
          split; [exact H'|].
          pose proof (history_dirs replacing (fun st u A => A) _ _ _ _ H') as W'.
          destruct (manager_rev replacing _ _ _ _ m' W' (or_introl eq_refl)) as (s & N' & _ & _ & O).
          destruct (m_number m') as [|j] eqn:MN; [|destruct j; discriminate].
          cbn in N'. assert (s = sti) as -> by congruence.
          split; [exact (rev_shows d' m' sti O)|]. unfold branch in B.
          destruct (negb _); [discriminate|]. cbv zeta in B.
          match type of B with Done (?a, ?b) = _ => assert (m' = b) as -> by congruence end.
          now split.
        + exfalso. unfold branch in B. rewrite LR in B.
          assert (Q : Nat.ltb i (S (m_number m)) = true) by (apply Nat.ltb_lt; lia).
          rewrite Q in B. discriminate.
    Qed.
  End Replacing.

  (** The first revision. *)
  Lemma first_revision (A : state -> change -> Prop) d ms ks sts : history A d ms ks sts ->
    (hd_error ks = Some Creation /\ hd_error sts = Some initial_state)
    \/ exists i, hd_error ks = Some (BranchOf i).
  Proof.
    intros H. induction H; try assumption; cbn; eauto.
    - destruct IHhistory as [[K S]|[j K]]; [left|right].
      + destruct ks; [discriminate|]. destruct sts; [discriminate|]. now split.
      + exists j. destruct ks; [discriminate|]. exact K.
  Qed.

  Lemma read_only_refuses d m u c : m_read_only m = true ->
    update d m u c = (d, m, Some (Raised ReadOnly)).
  Proof.
    intros RO. unfold SliceManagerModel.update, SliceManagerModel.plan_update. now rewrite RO.
  Qed.

  (** * Slices that are put together *)

  Lemma combining d ms ks sts m st ps1 ds1 ps2 ds2 : history keeping d ms ks sts -> In m ms ->
    nth_error sts (m_number m) = Some st ->
    Forall (has_path st) ((ps1 ++ ds1) ++ (ps2 ++ ds2)) ->
    exists s1 s2, get_data_slice d m ps1 ds1 = Done s1 /\ get_data_slice d m ps2 ds2 = Done s2
      /\ (forall p, asked (ps1 ++ ps2) (ds1 ++ ds2) p -> has_path st p ->
            evaluate_slice (slice_updated s1 s2) p = Done (at_path root st p))
      /\ (forall p t, evaluate_slice (slice_updated s1 s2) p = Done t ->
            has_path st p /\ t = at_path root st p).
  Proof.
    destruct ST as (C & P & SO & RT & RP & RE). intros H I N V.
    assert (KR : forall st u, keeping st u -> replacing st u)
      by (intros; now apply keeping_replacing).
    pose proof (history_dirs keeping KR d ms ks sts H) as W.
    destruct (manager_rev keeping _ _ _ _ m W I) as (st' & N' & M & _ & O).
    assert (st' = st) as -> by congruence.
    pose proof (history_filed lx pop C P ty struct SO root root_schema RT RP RE keeping
                  (fun st u A => A) d ms ks sts H _ _ M) as F.
    destruct (combined_ok lx pop P ty struct root root_schema RT RP d _ _ st m ps1 ds1 ps2 ds2
                O (wi_dir _ _ _ _ _ _ _ _ _ _ W) F eq_refl eq_refl V) as (s1 & s2 & L1 & L2 & CO).
    exists s1, s2. split; [exact L1|]. split; [exact L2|].
    assert (R : forall p t, evaluate_slice (slice_updated s1 s2) p = Done t ->
                has_path st p /\ t = at_path root st p).
    { intros p t E. unfold SliceManagerModel.evaluate_slice in E.
      destruct (slice_schema (s_schema (slice_updated s1 s2)) (SNode root_schema) p) as [y|] eqn:SS;
        [|discriminate].
      destruct (proj1 (CO p) y SS) as [Q1 Q2]. split; [|congruence].
      unfold SliceManagerSpec.has_path. congruence. }
    split; [|exact R]. intros p A HP.
    apply Forall_app in V as [V1 V2].
    destruct (loading d m st O ps1 ds1 V1) as (s1' & L1' & A1 & _).
    assert (s1' = s1) as -> by congruence.
    destruct (loading d m st O ps2 ds2 V2) as (s2' & L2' & A2 & _).
    assert (s2' = s2) as -> by congruence.
    assert (Q : evaluate_slice s1 p = Done (at_path root st p)
                \/ evaluate_slice s2 p = Done (at_path root st p)).
    { assert (asked ps1 ds1 p \/ asked ps2 ds2 p) as [B|B]; [|left; now apply A1|right; now apply A2].
      destruct A as [[q J]|(r & t & J & ->)].
      - rewrite !in_app_iff in J. destruct J as [[J|J]|[J|J]];
          [left|right|left|right]; left; exists q; apply in_or_app; tauto.
      - apply in_app_or in J as [J|J]; [left|right]; right; now exists r, t. }
    assert (NE : slice_schema (s_schema (slice_updated s1 s2)) (SNode root_schema) p <> None).
    { apply (proj2 (CO p)). unfold SliceManagerModel.evaluate_slice in Q.
      destruct (slice_schema (s_schema s1) (SNode root_schema) p); [left; discriminate|].
      destruct (slice_schema (s_schema s2) (SNode root_schema) p); [right; discriminate|].
      destruct Q; discriminate. }
    unfold SliceManagerModel.evaluate_slice.
    destruct (slice_schema (s_schema (slice_updated s1 s2)) (SNode root_schema) p) as [y|] eqn:SS; [|easy].
    destruct (proj1 (CO p) y SS) as [_ Q2]. now rewrite Q2.
  Qed.
End Main.
