(** The invariant of a persistence directory over all histories. *)
From Coq Require Import String.
From Coq Require Import NArith ZArith List Bool PeanoNat Lia Permutation.
From Verif Require Import PathModel PathSpec PathProofs PathGenProofs PathCodecModel
  GraphModel GraphSpec GraphProofs GraphAnalysisProofs GraphHelperProofs
  SliceManagerModel SliceManagerSpec SliceManagerDataProofs SliceManagerProcessProofs
  SliceManagerLoadProofs SliceManagerUpdateProofs.
Import ListNotations.
Local Open Scope list_scope.
Local Open Scope nat_scope.

Lemma nth_error_snoc {A} (l : list A) x k y : nth_error (l ++ [x]) k = Some y ->
  (k < length l /\ nth_error l k = Some y) \/ (k = length l /\ y = x).
Proof.
  intros E. destruct (Nat.lt_ge_cases k (length l)) as [L|L].
  - left. rewrite nth_error_app1 in E by exact L. now split.
  - right. rewrite nth_error_app2 in E by exact L.
    destruct (k - length l) as [|j] eqn:Q.
    + cbn in E. split; [lia|congruence].
    + cbn in E. destruct j; discriminate.
Qed.

Lemma minimal_minimal {A} (l : list (nat * A)) ns ms :
  (forall n, In n ms -> In n ns) -> minimal (minimal l ns) ms = minimal l ms.
Proof.
  intros H. unfold minimal. induction l as [|[n b] l IH]; [reflexivity|]. cbn [filter fst].
  destruct (memn n ns) eqn:E; cbn [filter fst].
  - now rewrite IH.
  - destruct (memn n ms) eqn:F; [|exact IH]. apply memn_in in F. apply H, memn_in in F. congruence.
Qed.

Section Histories.
  Variable lx : lexicon.
  Variable pop : list text -> option (text * list text).
  Hypothesis C : codec_ok lx.
  Hypothesis P : pop_ok pop.
  Variable ty : N -> text.
  Variable struct : text -> option node.
  Hypothesis SO : struct_ok struct.
  Variable root : N.
  Variable root_schema : text.
  Hypothesis RT : ty root = root_schema.
  Hypothesis RP : plain (SNode root_schema).
  Hypothesis RE : struct root_schema = None.

  Local Notation rev_ok := (rev_ok lx ty struct root_schema).
  Variable allowed : state -> change -> Prop.
  Local Notation history := (history ty struct root root_schema allowed lx pop).
  Local Notation replacing := (replacing ty root root_schema).
  Local Notation after := (after ty root root_schema).
  Local Notation valid_change := (valid_change ty struct root root_schema lx).

  Record dirs_ok (d : dir) (ms : list manager) (ks : list revision_kind) (sts : list state)
    : Prop := {
    wi_dir : dir_ok d;
    wi_meta : length (d_meta d) = length sts;
    wi_kind : length ks = length sts;
    wi_some : sts <> [];
    wi_rev : forall k revs st, nth_error (d_meta d) k = Some revs ->
      nth_error sts k = Some st -> rev_ok d revs (schema_of d revs) st;
    wi_kinds : forall k revs, nth_error (d_meta d) k = Some revs ->
      map r_kind revs = firstn (S k) ks;
    wi_prefix : forall j k revs, nth_error (d_meta d) k = Some revs -> j <= k ->
      nth_error (d_meta d) j = Some (firstn (S j) revs);
    wi_mgr : forall m, In m ms -> nth_error (d_meta d) (m_number m) = Some (m_revisions m)
      /\ m_schema m = schema_of d (m_revisions m);
    wi_after : forall k st st', nth_error sts k = Some st -> nth_error sts (S k) = Some st' ->
      exists u, nth_error ks (S k) = Some (AttributeUpdate (u_path u) (u_attr u))
        /\ valid_change st u /\ allowed st u /\ after st u st' }.

  Lemma same_revisions d d' : d_initial_index d' = d_initial_index d ->
    d_data d' = d_data d -> d_schema d' = d_schema d -> d_index d' = d_index d ->
    d_fresh d' = d_fresh d -> extends d d'.
  Proof.
    intros E1 E2 E3 E4 E5. split; try congruence; try lia;
      exists []; rewrite app_nil_r; now split.
  Qed.

  Lemma extends_schema d d' revs b st : rev_ok d revs b st -> extends d d' ->
    schema_of d' revs = schema_of d revs.
  Proof.
    intros O E. rewrite (ro_schema _ _ _ _ _ _ _ _ O).
    exact (ro_schema _ _ _ _ _ _ _ _ (rev_ok_extends lx ty struct root root_schema d d' revs b st O E)).
  Qed.

  (** The same metadata in an extended directory. *)
  Lemma dirs_ok_extends d d' m ms ks sts : dirs_ok d ms ks sts -> extends d d' -> dir_ok d' ->
    d_meta d' = d_meta d -> In m ms -> dirs_ok d' (m :: ms) ks sts.
  Proof.
    intros W E D M I.
    assert (S : forall k revs, nth_error (d_meta d) k = Some revs -> exists st,
              nth_error sts k = Some st /\ rev_ok d revs (schema_of d revs) st).
    { intros k revs N. assert (L : k < length sts).
      { rewrite <- (wi_meta _ _ _ _ W). apply nth_error_Some. congruence. }
      apply nth_error_Some in L. destruct (nth_error sts k) as [st|] eqn:NS; [|easy].
      exists st. split; [reflexivity|]. exact (wi_rev _ _ _ _ W k revs st N NS). }
    destruct W. constructor; try rewrite M; try assumption.
    - intros k revs st N NS. pose proof (wi_rev0 k revs st N NS) as O.
      rewrite (extends_schema d d' revs _ st O E). now apply (rev_ok_extends _ _ _ root _ d).
    - assert (Q : forall m0, In m0 ms -> nth_error (d_meta d) (m_number m0) = Some (m_revisions m0)
              /\ m_schema m0 = schema_of d' (m_revisions m0)).
      { intros m0 I0. destruct (wi_mgr0 m0 I0) as [Q1 Q2]. split; [exact Q1|].
        destruct (S _ _ Q1) as (st & _ & O). now rewrite (extends_schema d d' _ _ st O E). }
      intros m0 [<-|I0]; now apply Q.
  Qed.

  Lemma new_ok : dirs_ok (new_dir root_schema) [new_manager] [Creation] [initial_state].
  Proof.
    assert (CN : forall id a, child [] id a = None) by (intros id a; now destruct a).
    constructor; try reflexivity.
    - constructor; cbn; easy.
    - discriminate.
    - intros [|k] revs st E1 E2; [|destruct k; discriminate].
      cbn in E1, E2. assert (revs = [Revision [] [] [] Creation]) as -> by congruence.
      assert (st = initial_state) as -> by congruence.
      constructor.
      + reflexivity.
      + intros id a. symmetry. apply CN.
      + apply bag_ok_nil.
      + intros id a x E. change (child [] id a = Some x) in E. rewrite CN in E. discriminate.
      + cbn. rewrite RE. now exists [].
      + reflexivity.
      + intros o a x n ns E. change (child [] (ty o) a = Some x) in E. rewrite CN in E. discriminate.
      + intros id a x n E. change (child [] id a = Some x) in E. rewrite CN in E. discriminate.
      + cbn. now rewrite text_eqb_refl.
      + intros o a x c i E. change (child [] (ty o) a = Some x) in E. rewrite CN in E. discriminate.
      + discriminate.
      + discriminate.
      + easy.
      + intros n l. cbn. destruct (text_eqb root_schema n); [|discriminate].
        intros E. assert (l = []) as -> by congruence. easy.
    - intros [|k] revs E; [|destruct k; discriminate].
      cbn in E. now assert (revs = [Revision [] [] [] Creation]) as -> by congruence.
    - intros j [|k] revs E L; [|destruct k; discriminate].
      assert (j = 0) as -> by lia. cbn in E |- *.
      now assert (revs = [Revision [] [] [] Creation]) as -> by congruence.
    - intros m [<-|[]]. now split.
    - intros [|k] st st' _ E; [discriminate|destruct k; discriminate].
  Qed.

  Lemma open_ok d ms ks sts i ro m : dirs_ok d ms ks sts -> create_from_dir d i ro = Done m ->
    dirs_ok d (m :: ms) ks sts.
  Proof.
    intros W E. unfold create_from_dir in E.
    set (k := match i with Some i => i | None => length (d_meta d) - 1 end) in *.
    destruct (nth_error (d_meta d) k) as [revs|] eqn:N; [|discriminate].
    assert (m = Manager revs k (schema_of d revs) ro) as -> by congruence.
    destruct W. constructor; try assumption.
    intros m0 [<-|I0]; [now split|now apply wi_mgr0].
  Qed.

  Lemma copy_ok d ms ks sts m : dirs_ok d ms ks sts -> In m ms ->
    dirs_ok d (readonly_copy m :: ms) ks sts.
  Proof.
    intros W I. destruct W. constructor; try assumption.
    intros m0 [<-|I0]; [|now apply wi_mgr0]. exact (wi_mgr0 m I).
  Qed.

  (** What an update does, when it has a plan. *)
  Lemma update_facts d ms ks sts m u st p : dirs_ok d ms ks sts -> In m ms ->
    nth_error sts (m_number m) = Some st -> valid_change st u ->
    plan_update lx pop root root_schema d m u = Done p ->
    let d1 := write_data d p in
    let d2 := write_schema d1 p in
    let d3 := write_index d2 p in
    extends d d1 /\ extends d d2 /\ extends d d3 /\ dir_ok d1 /\ dir_ok d2 /\ dir_ok d3
    /\ m_read_only m = false
    /\ (exists st', after st u st')
    /\ (forall st', replacing st u -> after st u st' ->
          rev_ok d3 (next_revisions m u p) (schema_of d3 (next_revisions m u p)) st'
          /\ schema_of d3 (next_revisions m u p)
             = schema_updated (m_schema m) (snd (p_schema p))).
  Proof.
    intros W I NS (at_id & AT & CO) E d1 d2 d3.
    destruct (wi_mgr _ _ _ _ W m I) as [Q1 Q2].
    pose proof (wi_rev _ _ _ _ W _ _ _ Q1 NS) as O. rewrite <- Q2 in O.
    pose proof (wi_dir _ _ _ _ W) as D.
    destruct (plan_split lx pop C P ty struct root root_schema RT RP d (m_revisions m) (m_schema m) st
                O m eq_refl eq_refl u at_id AT CO p E) as (af & st1 & nm & fr & PP).
    destruct (plan_extends lx ty root d (m_revisions m) (m_schema m) st m u at_id p af st1 nm fr PP)
      as (X1 & X2 & X3).
    destruct (plan_dir_ok lx ty struct SO root root_schema RT RP d (m_revisions m) (m_schema m) st
                O D m u at_id AT CO p af st1 nm fr PP) as (Y1 & Y2 & Y3).
    split; [exact X1|]. split; [exact X2|]. split; [exact X3|].
    split; [exact Y1|]. split; [exact Y2|]. split; [exact Y3|].
    split; [apply PP|]. split.
    - exact (after_exists lx ty struct SO root root_schema RT RP d (m_revisions m) (m_schema m) st
               O m u at_id AT CO p af st1 nm fr PP).
    - intros st' R (at_id' & AT' & A1 & A2 & A3).
      assert (at_id' = at_id) by congruence. subst at_id'.
      pose proof (step_ok lx ty struct SO root root_schema RT RP d (m_revisions m) (m_schema m) st
                    O D m eq_refl u at_id AT CO p af st1 nm fr PP st' A1 A2 A3 (R at_id AT)) as K.
      fold d1 in K. fold d2 in K. fold d3 in K.
      pose proof (ro_schema _ _ _ _ _ _ _ _ K) as KS. rewrite KS. split; [exact K|].
      now rewrite (pp_plan _ _ _ _ _ _ _ _ _ _ _ _ _ _ _ PP).
  Qed.

  Lemma firstn_snoc {A} (l : list A) x k : k <= length l -> firstn k (l ++ [x]) = firstn k l.
  Proof. intros L. rewrite firstn_app. replace (k - length l) with 0 by lia. now rewrite firstn_O, app_nil_r. Qed.

  Lemma meta_length d ms ks sts k revs : dirs_ok d ms ks sts ->
    nth_error (d_meta d) k = Some revs -> length revs = S k.
  Proof.
    intros W E. assert (L : k < length (d_meta d)) by (apply nth_error_Some; congruence).
    rewrite <- (map_length r_kind), (wi_kinds _ _ _ _ W k revs E), firstn_length.
    rewrite (wi_kind _ _ _ _ W), <- (wi_meta _ _ _ _ W). lia.
  Qed.

  Hypothesis AL : forall st u, allowed st u -> replacing st u.

  Lemma update_ok d ms ks sts m u c d' m' st st' : dirs_ok d ms ks sts -> In m ms ->
    nth_error sts (m_number m) = Some st -> valid_change st u -> allowed st u ->
    update lx pop root root_schema d m u c = (d', m', Some (Done tt)) -> after st u st' ->
    S (m_number m) = length sts
    /\ dirs_ok d' (m' :: ms) (ks ++ [AttributeUpdate (u_path u) (u_attr u)]) (sts ++ [st'])
    /\ m_number m' = length sts.
  Proof.
    intros W I NS V AU E A. unfold update in E.
    destruct (plan_update lx pop root root_schema d m u) as [p|e] eqn:PE; [|congruence].
    destruct (update_facts d ms ks sts m u st p W I NS V PE)
      as (X1 & X2 & X3 & Y1 & Y2 & Y3 & RO & _ & H).
    destruct (H st' (AL st u AU) A) as [K KS]. clear H.
    cbv zeta in E. destruct c; try congruence.
    set (d3 := write_index (write_schema (write_data d p) p) p) in *.
    unfold write_metadata in E. change (d_meta d3) with (d_meta d) in E.
    destruct (Nat.ltb (S (m_number m)) (length (d_meta d))) eqn:LT; [congruence|].
    apply Nat.ltb_ge in LT.
    destruct (wi_mgr _ _ _ _ W m I) as [Q1 Q2].
    assert (L : m_number m < length (d_meta d)) by (apply nth_error_Some; congruence).
    pose proof (wi_meta _ _ _ _ W) as WM. pose proof (wi_kind _ _ _ _ W) as WK.
    assert (NX : S (m_number m) = length (d_meta d)) by lia.
    assert (d' = Dir (d_initial_index d3) (d_data d3) (d_schema d3) (d_index d3)
                  (d_meta d ++ [next_revisions m u p]) (d_fresh d3)) as -> by congruence.
    assert (m' = Manager (next_revisions m u p) (S (m_number m))
                   (schema_updated (m_schema m) (snd (p_schema p))) false) as -> by congruence.
    set (d4 := Dir _ _ _ _ _ _).
    assert (X4 : extends d3 d4) by (apply (same_revisions d3 d4); reflexivity).
    assert (Y4 : dir_ok d4) by (destruct Y3; constructor; assumption).
    assert (X : extends d d4) by (apply (extends_trans d d3 d4); assumption).
    split; [lia|]. split; [|cbn; lia].
    constructor.
    - exact Y4.
    - change (d_meta d4) with (d_meta d ++ [next_revisions m u p]). rewrite !app_length. cbn. lia.
    - rewrite !app_length. cbn. lia.
    - destruct sts; discriminate.
    - intros k revs s E1 E2. change (d_meta d4) with (d_meta d ++ [next_revisions m u p]) in E1.
      apply nth_error_snoc in E1 as [[L1 E1]|[L1 E1]]; apply nth_error_snoc in E2 as [[L2 E2]|[L2 E2]]; try lia.
      + pose proof (wi_rev _ _ _ _ W k revs s E1 E2) as O.
        rewrite (extends_schema d d4 revs _ s O X). now apply (rev_ok_extends _ _ _ root _ d).
      + subst revs s. rewrite (extends_schema d3 d4 _ _ st' K X4). now apply (rev_ok_extends _ _ _ root _ d3).
    - intros k revs E1. change (d_meta d4) with (d_meta d ++ [next_revisions m u p]) in E1.
      apply nth_error_snoc in E1 as [[L1 E1]|[L1 E1]].
      + rewrite firstn_snoc by lia. exact (wi_kinds _ _ _ _ W k revs E1).
      + subst revs. unfold next_revisions. rewrite map_app. cbn [map r_kind].
        rewrite (wi_kinds _ _ _ _ W _ _ Q1).
        rewrite firstn_all2 by lia. rewrite firstn_all2; [reflexivity|]. rewrite app_length. cbn. lia.
    - intros j k revs E1 LE. change (d_meta d4) with (d_meta d ++ [next_revisions m u p]) in *.
      apply nth_error_snoc in E1 as [[L1 E1]|[L1 E1]].
      + rewrite nth_error_app1 by lia. exact (wi_prefix _ _ _ _ W j k revs E1 LE).
      + subst revs. unfold next_revisions.
        pose proof (meta_length _ _ _ _ _ _ W Q1) as LR.
        destruct (Nat.eq_dec j (length (d_meta d))) as [->|NE].
        * rewrite nth_error_app2, Nat.sub_diag by lia. cbn [nth_error]. f_equal.
          symmetry. apply firstn_all2. rewrite app_length. cbn. lia.
        * rewrite nth_error_app1 by lia. rewrite firstn_snoc by lia.
          apply (wi_prefix _ _ _ _ W j (m_number m)); [exact Q1|lia].
    - assert (OLD : forall m0, In m0 ms -> nth_error (d_meta d4) (m_number m0) = Some (m_revisions m0)
              /\ m_schema m0 = schema_of d4 (m_revisions m0)).
      { intros m0 I0. destruct (wi_mgr _ _ _ _ W m0 I0) as [Z1 Z2].
        assert (Z : m_number m0 < length (d_meta d)) by (apply nth_error_Some; congruence).
        split; [change (d_meta d4) with (d_meta d ++ [next_revisions m u p]); now rewrite nth_error_app1 by exact Z|].
        assert (Z3 : m_number m0 < length sts) by lia. apply nth_error_Some in Z3.
        destruct (nth_error sts (m_number m0)) as [s0|] eqn:N0; [|easy].
        pose proof (wi_rev _ _ _ _ W _ _ _ Z1 N0) as O0.
        now rewrite (extends_schema d d4 _ _ s0 O0 X). }
      intros m0 [<-|I0]; [|now apply OLD]. cbn [m_number m_revisions m_schema]. split.
      + change (d_meta d4) with (d_meta d ++ [next_revisions m u p]). rewrite NX, nth_error_app2, Nat.sub_diag by lia. reflexivity.
      + rewrite (extends_schema d3 d4 _ _ st' K X4). now rewrite KS.
    - intros k s s' E1 E2.
      apply nth_error_snoc in E2 as [[L2 E2]|[L2 E2]].
      + apply nth_error_snoc in E1 as [[L1 E1]|[L1 E1]]; [|lia].
        destruct (wi_after _ _ _ _ W k s s' E1 E2) as (u0 & U1 & U2 & U3). exists u0.
        split; [|now split]. rewrite nth_error_app1; [exact U1|]. lia.
      + apply nth_error_snoc in E1 as [[L1 E1]|[L1 E1]]; [|lia]. subst s'.
        assert (k = m_number m) as -> by lia. assert (s = st) as -> by congruence.
        exists u. split; [|now split]. rewrite nth_error_app2 by lia.
        replace (S (m_number m) - length ks) with 0 by lia. reflexivity.
  Qed.

  Lemma no_update_ok d ms ks sts m u c d' m' st r : dirs_ok d ms ks sts -> In m ms ->
    nth_error sts (m_number m) = Some st ->
    valid_change st u \/ (exists e, plan_update lx pop root root_schema d m u = Raised e) ->
    update lx pop root root_schema d m u c = (d', m', r) -> r <> Some (Done tt) ->
    m' = m /\ d_meta d' = d_meta d /\ extends d d' /\ dirs_ok d' (m' :: ms) ks sts.
  Proof.
    intros W I NS V E NR. unfold update in E.
    destruct (plan_update lx pop root root_schema d m u) as [p|e] eqn:PE.
    2: { assert (d' = d /\ m' = m) as [-> ->] by (split; congruence).
         split; [reflexivity|]. split; [reflexivity|]. split; [apply extends_refl|].
         apply (dirs_ok_extends d); [exact W|apply extends_refl|apply W|reflexivity|exact I]. }
    destruct V as [V|[e V]]; [|congruence].
    destruct (update_facts d ms ks sts m u st p W I NS V PE)
      as (X1 & X2 & X3 & Y1 & Y2 & Y3 & RO & _ & _).
    cbv zeta in E.
    assert (Q : extends d d' /\ dir_ok d' /\ d_meta d' = d_meta d /\ m' = m).
    { destruct c.
      - assert (d' = d /\ m' = m) as [-> ->] by (split; congruence).
        split; [apply extends_refl|]. split; [apply W|]. now split.
      - assert (d' = write_data d p /\ m' = m) as [-> ->] by (split; congruence). now split.
      - assert (d' = write_schema (write_data d p) p /\ m' = m) as [-> ->] by (split; congruence).
        now split.
      - assert (d' = write_index (write_schema (write_data d p) p) p /\ m' = m) as [-> ->]
          by (split; congruence).
        now split.
      - destruct (write_metadata _ (S (m_number m)) (next_revisions m u p)) as [d4|e] eqn:WM.
        + congruence.
        + assert (d' = write_index (write_schema (write_data d p) p) p /\ m' = m) as [-> ->]
            by (split; congruence).
          now split. }
    destruct Q as (X & Y & M & ->). split; [reflexivity|]. split; [exact M|]. split; [exact X|].
    now apply (dirs_ok_extends d).
  Qed.

  Lemma branch_ok d ms ks sts m i d' m' st : dirs_ok d ms ks sts -> In m ms ->
    branch d m i = Done (d', m') -> nth_error sts i = Some st ->
    dirs_ok d' [m'] [BranchOf i] [st].
  Proof.
    intros W I E NS. unfold branch in E.
    destruct (Nat.ltb i (length (m_revisions m))) eqn:LT; [|discriminate]. cbn [negb] in E.
    apply Nat.ltb_lt in LT. cbv zeta in E.
    set (revs := firstn (S i) (m_revisions m)) in *.
    set (revs' := [Revision (flat_map r_data revs) (flat_map r_schema revs)
                     (flat_map r_index revs) (BranchOf i)]) in *.
    set (d0 := Dir (d_initial_index d) _ _ _ [revs'] (d_fresh d)) in *.
    assert (d' = d0 /\ m' = Manager revs' 0 (schema_of d0 revs') false) as [-> ->] by (split; congruence).
    destruct (wi_mgr _ _ _ _ W m I) as [Q1 Q2].
    pose proof (meta_length _ _ _ _ _ _ W Q1) as LR.
    assert (N : nth_error (d_meta d) i = Some revs).
    { apply (wi_prefix _ _ _ _ W i (m_number m)); [exact Q1|lia]. }
    pose proof (wi_rev _ _ _ _ W _ _ _ N NS) as O.
    pose proof (wi_dir _ _ _ _ W) as D.
    assert (F1 : flat_map r_data revs' = flat_map r_data revs) by (cbn; apply app_nil_r).
    assert (F2 : flat_map r_schema revs' = flat_map r_schema revs) by (cbn; apply app_nil_r).
    assert (F3 : flat_map r_index revs' = flat_map r_index revs) by (cbn; apply app_nil_r).
    assert (S1 : schema_of d0 revs' = schema_of d revs).
    { unfold schema_of. rewrite F2. cbn [d_schema d0]. now rewrite minimal_minimal. }
    assert (S2 : full_index d0 revs' = full_index d revs).
    { unfold full_index. rewrite F3. cbn [d_index d_initial_index d0]. now rewrite minimal_minimal. }
    assert (S3 : forall ns, loaded d0 (full_index d0 revs') ns = loaded d (full_index d revs) ns).
    { intros ns. rewrite S2. unfold loaded. cbn [d_data d0]. rewrite minimal_minimal; [reflexivity|].
      intros n J. apply in_bag_names in J as (x & l & _ & G & J).
      exact (ro_index _ _ _ _ _ _ _ _ O x l G n J). }
    constructor; try reflexivity.
    - constructor; cbn [d_data d_schema d_index d_fresh d0].
      + intros n b J. apply in_minimal in J as [J _]. exact (do_data d D n b J).
      + intros n b J. apply in_minimal in J as [J _]. exact (do_schema d D n b J).
      + intros n b J. apply in_minimal in J as [J _]. exact (do_index d D n b J).
      + intros n b s c J. apply in_minimal in J as [J _]. exact (do_wf d D n b s c J).
    - discriminate.
    - intros [|k] revs0 s E1 E2; [|destruct k; discriminate]. cbn in E1, E2.
      assert (revs0 = revs') as -> by congruence. assert (s = st) as -> by congruence.
      destruct O. constructor; rewrite ?S1; try assumption; try reflexivity.
      + intros ns s E0. rewrite S3. now apply ro_none.
      + intros o a x n ns H1 H2 H3. rewrite S3. now apply (ro_data o a x n ns).
      + intros id a x n H1 H2. rewrite S2. now apply (ro_names id a x n).
      + now rewrite S2.
      + rewrite F1, F2, F3. exact ro_fresh.
      + intros n l. rewrite S2, F1. apply ro_index.
    - intros [|k] revs0 E1; [|destruct k; discriminate]. cbn in E1.
      now assert (revs0 = revs') as -> by congruence.
    - intros j [|k] revs0 E1 L; [|destruct k; discriminate]. assert (j = 0) as -> by lia.
      cbn in E1 |- *. now assert (revs0 = revs') as -> by congruence.
    - intros m0 [<-|[]]. now split.
    - intros [|k] s s' _ E2; [discriminate|destruct k; discriminate].
  Qed.

  Theorem history_ok d ms ks sts : history d ms ks sts -> dirs_ok d ms ks sts.
  Proof.
    intros H. induction H.
    - exact new_ok.
    - now apply (open_ok d ms ks sts i ro m).
    - now apply copy_ok.
    - now apply (update_ok d ms ks sts m u c d' m' st st').
    - now apply (no_update_ok d ms ks sts m u c d' m' st r).
    - now apply (branch_ok d ms ks sts m i d' m' st).
  Qed.
End Histories.
