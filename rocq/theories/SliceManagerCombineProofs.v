(** Slices that were loaded one after the other and then put together. *)
From Coq Require Import String.
From Coq Require Import NArith ZArith List Bool PeanoNat Lia.
From Verif Require Import PathModel PathSpec PathProofs PathGenProofs PathCodecModel
  GraphModel GraphSpec GraphProofs GraphAnalysisProofs GraphHelperProofs
  SliceManagerModel SliceManagerSpec SliceManagerDataProofs SliceManagerProcessProofs
  SliceManagerLoadProofs SliceManagerUpdateProofs SliceManagerHistoryProofs.
Import ListNotations.
Local Open Scope list_scope.
Local Open Scope nat_scope.

(** * Putting the same entries twice *)

Fixpoint entry (d : list (item * item)) (k : item) : option item :=
  match d with
  | [] => None
  | (k', v) :: d => if item_eqb k' k then Some v else entry d k
  end.

Lemma item_eqb_refl i : item_eqb i i = true.
Proof. now apply item_eqb_eq. Qed.

Lemma entry_put d k v k' : entry (put d k v) k' = if item_eqb k k' then Some v else entry d k'.
Proof.
  induction d as [|[k0 v0] d IH]; cbn; [reflexivity|].
  destruct (item_eqb k0 k) eqn:E; cbn.
  - apply item_eqb_eq in E. subst k0. now destruct (item_eqb k k').
  - rewrite IH. destruct (item_eqb k0 k') eqn:F; [|reflexivity].
    apply item_eqb_eq in F. subst k0. destruct (item_eqb k k') eqn:G; [|reflexivity].
    apply item_eqb_eq in G. subst k'. now rewrite item_eqb_refl in E.
Qed.

Lemma put_all_app d e f : put_all d (e ++ f) = put_all (put_all d e) f.
Proof. unfold put_all. apply fold_left_app. Qed.

Lemma entry_put_all e : forall d k, entry (put_all d e) k
  = match entry (rev e) k with Some v => Some v | None => entry d k end.
Proof.
  induction e as [|[k0 v0] e IH] using rev_ind; intros d k; [reflexivity|].
  rewrite put_all_app. cbn [put_all fold_left fst snd]. fold (put_all d e).
  rewrite entry_put, rev_unit. cbn [entry]. destruct (item_eqb k0 k); [reflexivity|apply IH].
Qed.

Lemma put_present d k v : In k (map fst d) -> map fst (put d k v) = map fst d.
Proof.
  induction d as [|[k0 v0] d IH]; cbn; [easy|]. intros I.
  destruct (item_eqb k0 k) eqn:E; [reflexivity|]. cbn. rewrite IH; [reflexivity|].
  destruct I as [->|I]; [|exact I]. now rewrite item_eqb_refl in E.
Qed.

Lemma put_all_present e : forall d, (forall k, In k (map fst e) -> In k (map fst d)) ->
  map fst (put_all d e) = map fst d.
Proof.
  induction e as [|[k v] e IH]; intros d H; [reflexivity|]. rewrite put_all_cons, IH.
  - apply put_present. apply H. now left.
  - intros k' I. apply put_keys. right. apply H. now right.
Qed.

Lemma put_all_keys e : forall d k, In k (map fst (put_all d e)) <-> In k (map fst d) \/ In k (map fst e).
Proof.
  induction e as [|[k0 v0] e IH]; intros d k; [cbn; tauto|].
  rewrite put_all_cons, IH, put_keys. cbn. intuition congruence.
Qed.

Lemma entries_equal d : forall d', map fst d = map fst d' -> NoDup (map fst d) ->
  (forall k, entry d k = entry d' k) -> d = d'.
Proof.
  induction d as [|[k v] d IH]; intros [|[k' v'] d'] M N E; try discriminate; [reflexivity|].
  cbn in M. injection M as -> M. inversion N as [|? ? N1 N2]; subst.
  assert (v = v').
  { specialize (E k'). cbn in E. rewrite item_eqb_refl in E. congruence. }
  subst v'. f_equal. apply IH; [exact M|exact N2|].
  intros k. specialize (E k). cbn in E. destruct (item_eqb k' k) eqn:Q; [|exact E].
  apply item_eqb_eq in Q. subst k.
  assert (NI : forall l, ~ In k' (map fst l) -> entry l k' = None).
  { induction l as [|[a c] l IHl]; cbn; [reflexivity|]. intros H.
    destruct (item_eqb a k') eqn:Q; [apply item_eqb_eq in Q; tauto|apply IHl; tauto]. }
  rewrite (NI d N1), NI; [reflexivity|]. now rewrite <- M.
Qed.

Lemma put_all_again e d : NoDup (map fst d) -> put_all (put_all d e) e = put_all d e.
Proof.
  intros N. apply entries_equal.
  - apply put_all_present. intros k I. apply put_all_keys. now right.
  - now apply put_all_nodup, put_all_nodup.
  - intros k. rewrite !entry_put_all. now destruct (entry (rev e) k).
Qed.

Lemma put_all_nil e : NoDup (map fst e) -> put_all [] e = e.
Proof.
  assert (Q : forall l k, NoDup (map fst (l ++ k)) -> put_all l k = l ++ k).
  { intros l k. revert l. induction k as [|[s x] k IH]; intros l N.
    - now rewrite app_nil_r.
    - rewrite put_all_cons.
      assert (E : put l s x = l ++ [(s, x)]).
      { assert (NI : ~ In s (map fst l)).
        { rewrite map_app in N. apply NoDup_remove_2 in N. intros I. apply N, in_or_app. now left. }
        clear -NI. induction l as [|[t y] l IH]; [reflexivity|]. cbn.
        destruct (item_eqb t s) eqn:E; [apply item_eqb_eq in E; subst; destruct NI; now left|].
        rewrite IH; [reflexivity|]. intros I. apply NI. now right. }
      rewrite E, IH; now rewrite <- app_assoc. }
  exact (Q [] e).
Qed.

(** * Composing again what was composed *)

Definition contents_at (s : slot) (bags : list bag) : list content :=
  flat_map (fun b => match bag_get b s with Some c => [c] | None => [] end) bags.
Definition over_content (acc : option content) (c : content) : option content :=
  Some (over acc c).

Lemma fold_contents s bags : forall acc,
  fold_left (over_bag s) bags acc = fold_left over_content (contents_at s bags) acc.
Proof.
  induction bags as [|b bags IH]; intros acc; [reflexivity|]. cbn [fold_left contents_at flat_map].
  rewrite fold_left_app, <- IH. f_equal. unfold over_bag, contents_at.
  now destruct (bag_get b s).
Qed.

Lemma contents_cases l :
  (exists es, l = map CEntries es)
  \/ (exists w, forall acc, fold_left over_content l acc = Some w).
Proof.
  induction l as [|c l IH] using rev_ind; [left; now exists []|].
  destruct c as [v|i|e]; try (right; eexists; intros acc; rewrite fold_left_app; cbn;
    unfold over_content, over; destruct (fold_left _ l acc) as [[]|]; reflexivity).
  destruct IH as [[es ->]|[w H]].
  - left. exists (es ++ [e]). now rewrite map_app.
  - right. exists (over (Some w) (CEntries e)). intros acc. rewrite fold_left_app, H. reflexivity.
Qed.

Lemma fold_entries es : forall d,
  fold_left over_content (map CEntries es) (Some (CEntries d))
  = Some (CEntries (put_all d (concat es))).
Proof.
  induction es as [|e es IH]; intros d; [reflexivity|]. cbn [map fold_left concat].
  rewrite put_all_app. apply IH.
Qed.

Lemma fold_again l v : (forall c, In c l -> content_wf c) ->
  fold_left over_content l None = Some v -> fold_left over_content l (Some v) = Some v.
Proof.
  intros W E. destruct (contents_cases l) as [[es ->]|[w H]]; [|now rewrite H in E |- *].
  destruct es as [|e es]; [discriminate|]. cbn [map fold_left] in E |- *.
  assert (N : NoDup (map fst e)) by exact (W (CEntries e) (or_introl eq_refl)).
  unfold over_content at 2 in E. cbn [over] in E. rewrite fold_entries in E.
  assert (v = CEntries (put_all e (concat es))) as -> by congruence.
  unfold over_content at 2. cbn [over]. rewrite fold_entries. do 2 f_equal.
  rewrite <- put_all_app.
  assert (Q : put_all e (concat es) = put_all [] (e ++ concat es)).
  { rewrite put_all_app. now rewrite put_all_nil. }
  rewrite Q. apply put_all_again. constructor.
Qed.

Lemma composed_again l k s v :
  (forall b c, In b k -> bag_get b s = Some c -> content_wf c) ->
  composed l s = None \/ composed l s = v ->
  composed k s = None \/ composed k s = v ->
  (composed (l ++ k) s = None \/ composed (l ++ k) s = v)
  /\ (composed l s = v \/ composed k s = v -> composed (l ++ k) s = v).
Proof.
  intros W L K. rewrite composed_app.
  assert (Q : composed k s = None -> fold_left (over_bag s) k (composed l s) = composed l s).
  { intros E. apply fold_absent. intros b I. destruct (bag_get b s) as [c|] eqn:G; [|reflexivity].
    exfalso. assert (H : forall acc, fold_left (over_bag s) k acc <> None); [|now apply (H None)].
    clear -I G. induction k as [|b' k IH]; [easy|]. intros acc. cbn [fold_left].
    destruct I as [->|I]; [|now apply IH].
    unfold over_bag at 2. rewrite G. clear. generalize (over acc c) as x.
    induction k as [|b' k IH]; intros x; [discriminate|]. cbn [fold_left]. unfold over_bag at 2.
    destruct (bag_get b' s); apply IH. }
  destruct (composed k s) as [w|] eqn:CK.
  - destruct K as [K|K]; [discriminate|]. subst v.
    assert (R : fold_left (over_bag s) k (composed l s) = Some w).
    { destruct L as [->| ->].
      - now rewrite <- composed_fold.
      - rewrite fold_contents. rewrite composed_fold, fold_contents in CK.
        apply fold_again; [|exact CK]. intros c I. unfold contents_at in I.
        apply in_flat_map in I as [b [I J]]. destruct (bag_get b s) as [c'|] eqn:G; [|easy].
        destruct J as [->|[]]. exact (W b c I G). }
    rewrite R. split; [now right|reflexivity].
  - rewrite Q by reflexivity. split; [exact L|].
    intros [H|H]; [exact H|]. subst v. now destruct L.
Qed.

Section Combine.
  Variable lx : lexicon.
  Variable pop : list text -> option (text * list text).
  Hypothesis C : codec_ok lx.
  Hypothesis P : pop_ok pop.
  Variable ty : N -> text.
  Variable struct : text -> option node.
  Hypothesis SO : struct_ok struct.
  Variable root : N.
  Variable root_schema : text.
  Hypothesis RT : ty root = root_schema.
  Hypothesis RP : plain (SNode root_schema).
  Hypothesis RE : struct root_schema = None.

  Local Notation rev_ok := (rev_ok lx ty struct root_schema).
  Local Notation after := (after ty root root_schema).
  Local Notation valid_change := (valid_change ty struct root root_schema lx).
  Local Notation replacing := (replacing ty root root_schema).
  Local Notation keeping := (keeping root_schema).

  (** Every bag is loaded only for names that its facts belong to. *)
  Definition filed_ok (d : dir) (revs : list revision) : Prop :=
    forall ns g s c, In g (loaded d (full_index d revs) ns) -> In (s, c) g ->
      exists n a x, In n ns /\ child (schema_of d revs) (ty (fst s)) a = Some x
        /\ field_of a = snd s /\ names lx (Some (SNode (ty (fst s)), a)) x n.

  (** So that what is loaded of a field is nothing or all. *)
  Lemma loaded_all d revs b st : rev_ok d revs b st -> filed_ok d revs -> forall ns s,
    composed (loaded d (full_index d revs) ns) s = None
    \/ composed (loaded d (full_index d revs) ns) s = st_data st s.
  Proof.
    intros O F ns s. destruct (composed (loaded d (full_index d revs) ns) s) as [v|] eqn:E;
      [|now left]. right. rewrite <- E.
    assert (exists g c, In g (loaded d (full_index d revs) ns) /\ In (s, c) g) as (g & c & I & J).
    { destruct (existsb (fun g => match bag_get g s with Some _ => true | None => false end)
                  (loaded d (full_index d revs) ns)) eqn:X.
      - apply existsb_exists in X as [g [I G]]. destruct (bag_get g s) as [c|] eqn:B; [|discriminate].
        exists g, c. split; [exact I|now apply bag_get_in].
      - rewrite composed_fold, fold_absent in E; [discriminate|].
        intros g I. destruct (bag_get g s) as [c|] eqn:B; [|reflexivity]. exfalso.
        assert (Q : existsb (fun g => match bag_get g s with Some _ => true | None => false end)
                  (loaded d (full_index d revs) ns) = true); [|congruence].
        apply existsb_exists. exists g. split; [exact I|now rewrite B]. }
    destruct (F ns g s c I J) as (n & a & x & I1 & CH & FA & NM).
    rewrite (ro_schema _ _ _ _ _ _ _ _ O) in CH.
    destruct s as [o f]. cbn [fst snd] in *. subst f.
    exact (ro_data _ _ _ _ _ _ _ _ O o a x n ns CH NM I1).
  Qed.

  Lemma filed_extends d d' revs b st : rev_ok d revs b st -> extends d d' ->
    filed_ok d revs -> filed_ok d' revs.
  Proof.
    intros O E F ns g s c I J.
    destruct (extends_same lx ty struct root_schema d d' revs b st O E) as (E1 & E2 & E3).
    rewrite E3 in I. rewrite E1. exact (F ns g s c I J).
  Qed.

  Lemma filed_step d revs b st m u at_id p af st1 nm fr : rev_ok d revs b st -> dir_ok d ->
    m_revisions m = revs ->
    schema_along (st_child st) (SNode root_schema) (u_path u) = Some (SNode at_id) ->
    change_ok ty struct root lx st u at_id -> keeps_schemas st u at_id ->
    plan_parts lx ty root d revs b st m u at_id p af st1 nm fr ->
    filed_ok d revs ->
    filed_ok (write_index (write_schema (write_data d p) p) p) (next_revisions m u p).
  Proof.
    intros O D M1 AT U K PP F ns g s c I J.
    rewrite (loaded_new lx ty root d revs b st D m M1 u at_id p af st1 nm fr PP ns) in I.
    rewrite (new_schema lx ty struct root root_schema d revs b st O D m M1 u at_id p af st1 nm fr PP).
    assert (NB := nb_child lx ty struct SO root root_schema RT RP d revs b st O m u at_id AT U p af st1 nm fr PP).
    apply in_app_or in I as [I|I].
    - destruct (F ns g s c I J) as (n & a & x & I1 & CH & FA & NM).
      rewrite (ro_schema _ _ _ _ _ _ _ _ O) in CH. exists n, a, x.
      split; [exact I1|]. split; [|now split]. rewrite NB.
      destruct (update_child u at_id (ty (fst s)) a) as [y|] eqn:UC; [|exact CH].
      rewrite (K (ty (fst s)) a x y); [reflexivity| |exact UC]. now rewrite (ro_child _ _ _ _ _ _ _ _ O).
    - destruct (news_belong lx ty struct SO root root_schema RT RP d revs b st O D m M1 u at_id AT U
                  p af st1 nm fr PP ns g s c I J) as (n & a & x & I1 & CH & FA & NM).
      exists n, a, x. split; [exact I1|]. split; [|now split]. now rewrite NB, CH.
  Qed.

  Lemma keeping_replacing st u : keeping st u -> replacing st u.
  Proof.
    intros K at_id AT o s x y C1 C2 NE. destruct NE. exact (K at_id AT _ _ x y C1 C2).
  Qed.

  Section History.
    Variable allowed : state -> change -> Prop.
    Hypothesis AL : forall st u, allowed st u -> keeping st u.
    Local Notation history := (history ty struct root root_schema allowed lx pop).
    Local Notation dirs_ok := (dirs_ok lx ty struct root root_schema allowed).

    Let AR st u (A : allowed st u) : replacing st u := keeping_replacing st u (AL st u A).

    Lemma revision_of d ms ks sts k revs : dirs_ok d ms ks sts ->
      nth_error (d_meta d) k = Some revs ->
      exists st, nth_error sts k = Some st /\ rev_ok d revs (schema_of d revs) st.
    Proof.
      intros W N. assert (L : k < length sts).
      { rewrite <- (wi_meta _ _ _ _ _ _ _ _ _ _ W). apply nth_error_Some. congruence. }
      apply nth_error_Some in L. destruct (nth_error sts k) as [st|] eqn:NS; [|easy].
      exists st. split; [reflexivity|]. exact (wi_rev _ _ _ _ _ _ _ _ _ _ W k revs st N NS).
    Qed.

    Lemma history_filed d ms ks sts : history d ms ks sts -> forall k revs,
      nth_error (d_meta d) k = Some revs -> filed_ok d revs.
    Proof.
      assert (HK := history_ok lx pop C P ty struct SO root root_schema RT RP RE allowed AR).
      intros H. induction H as [|d ms ks sts i ro m H IH E|d ms ks sts m H IH I
        |d ms ks sts m u c d' m' st st' H IH I NS V AU E A
        |d ms ks sts m u c d' m' st r H IH I NS V E NR
        |d ms ks sts m i d' m' st H IH I E NS]; intros k revs N.
      - intros ns g s c I. destruct k as [|k]; [|destruct k; discriminate].
        cbn in N. assert (revs = [Revision [] [] [] Creation]) as -> by congruence.
        unfold loaded in I. cbn in I. easy.
      - now apply (IH k).
      - now apply (IH k).
      - pose proof (HK _ _ _ _ H) as W. unfold update in E.
        destruct (plan_update lx pop root root_schema d m u) as [p|e] eqn:PE; [|congruence].
        destruct V as (at_id & AT & CO).
        destruct (wi_mgr _ _ _ _ _ _ _ _ _ _ W m I) as [Q1 Q2].
        pose proof (wi_rev _ _ _ _ _ _ _ _ _ _ W _ _ _ Q1 NS) as O. rewrite <- Q2 in O.
        destruct (plan_split lx pop C P ty struct root root_schema RT RP d (m_revisions m) (m_schema m) st
                    O m eq_refl eq_refl u at_id AT CO p PE) as (af & st1 & nm & fr & PP).
        pose proof (filed_step d (m_revisions m) (m_schema m) st m u at_id p af st1 nm fr O
                      (wi_dir _ _ _ _ _ _ _ _ _ _ W) eq_refl AT CO (AL st u AU at_id AT) PP
                      (IH _ _ Q1)) as F.
        destruct (update_facts lx pop C P ty struct SO root root_schema RT RP allowed d ms ks sts m u st p
                    W I NS (ex_intro _ at_id (conj AT CO)) PE)
          as (X1 & X2 & X3 & Y1 & Y2 & Y3 & RO & _ & K).
        destruct (K st' (AR st u AU) A) as [K1 _]. clear K.
        cbv zeta in E. destruct c; try congruence.
        set (d3 := write_index (write_schema (write_data d p) p) p) in *.
        unfold write_metadata in E. change (d_meta d3) with (d_meta d) in E.
        destruct (Nat.ltb (S (m_number m)) (length (d_meta d))); [congruence|].
        assert (d' = Dir (d_initial_index d3) (d_data d3) (d_schema d3) (d_index d3)
                      (d_meta d ++ [next_revisions m u p]) (d_fresh d3)) as -> by congruence.
        set (d4 := Dir _ _ _ _ _ _) in *.
        assert (X4 : extends d3 d4) by (apply (same_revisions d3 d4); reflexivity).
        change (d_meta d4) with (d_meta d ++ [next_revisions m u p]) in N.
        apply nth_error_snoc in N as [[_ N]|[_ N]].
        + destruct (revision_of _ _ _ _ _ _ W N) as (s0 & _ & O0).
          apply (filed_extends d d4 revs _ s0 O0); [now apply (extends_trans d d3 d4)|now apply (IH k)].
        + subst revs. now apply (filed_extends d3 d4 _ _ st' K1).
      - pose proof (HK _ _ _ _ H) as W.
        destruct (no_update_ok lx pop C P ty struct SO root root_schema RT RP allowed d ms ks sts m u c d'
                    m' st r W I NS V E NR) as (_ & M & X & _).
        rewrite M in N. destruct (revision_of _ _ _ _ _ _ W N) as (s0 & _ & O0).
        apply (filed_extends d d' revs _ s0 O0 X). now apply (IH k).
      - pose proof (HK _ _ _ _ H) as W. unfold branch in E.
        destruct (Nat.ltb i (length (m_revisions m))) eqn:LT; [|discriminate]. cbn [negb] in E.
        apply Nat.ltb_lt in LT. cbv zeta in E.
        set (revs1 := firstn (S i) (m_revisions m)) in *.
        set (revs' := [Revision (flat_map r_data revs1) (flat_map r_schema revs1)
                         (flat_map r_index revs1) (BranchOf i)]) in *.
        set (d0 := Dir (d_initial_index d) _ _ _ [revs'] (d_fresh d)) in *.
        assert (d' = d0) as -> by congruence.
        destruct k as [|k]; [|destruct k; discriminate]. cbn in N.
        assert (revs = revs') as -> by congruence.
        destruct (wi_mgr _ _ _ _ _ _ _ _ _ _ W m I) as [Q1 Q2].
        pose proof (meta_length _ _ _ _ _ _ _ _ _ _ _ _ W Q1) as LR.
        assert (N1 : nth_error (d_meta d) i = Some revs1).
        { apply (wi_prefix _ _ _ _ _ _ _ _ _ _ W i (m_number m)); [exact Q1|lia]. }
        pose proof (wi_rev _ _ _ _ _ _ _ _ _ _ W _ _ _ N1 NS) as O.
        assert (F2 : flat_map r_schema revs' = flat_map r_schema revs1) by (cbn; apply app_nil_r).
        assert (F3 : flat_map r_index revs' = flat_map r_index revs1) by (cbn; apply app_nil_r).
        assert (S1 : schema_of d0 revs' = schema_of d revs1).
        { unfold schema_of. rewrite F2. cbn [d_schema d0]. now rewrite minimal_minimal. }
        assert (S2 : full_index d0 revs' = full_index d revs1).
        { unfold full_index. rewrite F3. cbn [d_index d_initial_index d0]. now rewrite minimal_minimal. }
        assert (S3 : forall ns, loaded d0 (full_index d0 revs') ns = loaded d (full_index d revs1) ns).
        { intros ns. rewrite S2. unfold loaded. cbn [d_data d0]. rewrite minimal_minimal; [reflexivity|].
          intros n J. apply in_bag_names in J as (x & l & _ & G & J).
          exact (ro_index _ _ _ _ _ _ _ _ O x l G n J). }
        intros ns g s c J1 J2. rewrite S3 in J1. rewrite S1.
        exact (IH i revs1 N1 ns g s c J1 J2).
    Qed.
  End History.

  (** Two slices of the same revision, put together. *)
  Lemma combined_ok d revs b st m ps1 ds1 ps2 ds2 : rev_ok d revs b st -> dir_ok d ->
    filed_ok d revs -> m_revisions m = revs -> m_schema m = b ->
    Forall (fun p => schema_along (st_child st) (SNode root_schema) p <> None)
      ((ps1 ++ ds1) ++ (ps2 ++ ds2)) ->
    exists s1 s2, get_data_slice lx pop root_schema d m ps1 ds1 = Done s1
      /\ get_data_slice lx pop root_schema d m ps2 ds2 = Done s2
      /\ forall p,
        (forall y, slice_schema (s_schema (slice_updated s1 s2)) (SNode root_schema) p = Some y ->
           schema_along (st_child st) (SNode root_schema) p = Some y
           /\ evaluate (composed (s_bags (slice_updated s1 s2))) p (Some (Obj root)) = at_path root st p)
        /\ (slice_schema (s_schema s1) (SNode root_schema) p <> None
            \/ slice_schema (s_schema s2) (SNode root_schema) p <> None ->
            slice_schema (s_schema (slice_updated s1 s2)) (SNode root_schema) p <> None).
  Proof.
    intros O D F M1 M2 V. apply Forall_app in V as [V1 V2].
    destruct (load_ok lx pop P ty struct root root_schema RT RP d revs b st O m M1 M2 ps1 ds1 V1)
      as (s1 & ns1 & L1 & B1 & F1 & _ & _).
    destruct (load_ok lx pop P ty struct root root_schema RT RP d revs b st O m M1 M2 ps2 ds2 V2)
      as (s2 & ns2 & L2 & B2 & F2 & _ & _).
    exists s1, s2. split; [exact L1|]. split; [exact L2|].
    set (facts := s_schema s2 ++ s_schema s1).
    change (s_schema (slice_updated s1 s2)) with facts.
    change (s_bags (slice_updated s1 s2)) with (s_bags s1 ++ s_bags s2).
    assert (CH : forall id a z, In (id, a, z) facts -> child b id a = Some z).
    { intros id a z I. apply in_app_or in I as [I|I]; [now apply F2|now apply F1]. }
    assert (R : right_for ty st facts (composed (s_bags s1 ++ s_bags s2))).
    { intros id a z o E T. apply fact_find_in in E. pose proof (CH _ _ _ E) as CZ.
      rewrite <- T in CZ. split.
      - rewrite B1, B2.
        destruct (composed_again (loaded d (full_index d revs) ns1) (loaded d (full_index d revs) ns2)
                    (o, field_of a) (st_data st (o, field_of a))) as [_ Q].
        + intros g c I G. unfold loaded in I. apply in_map_iff in I as [[n g'] [EQ I]]. cbn in EQ. subst g'.
          apply in_minimal in I as [I _]. apply bag_get_in in G. exact (do_wf d D n g _ c I G).
        + exact (loaded_all d revs b st O F ns1 _).
        + exact (loaded_all d revs b st O F ns2 _).
        + apply Q. unfold facts in E. apply in_app_or in E as [E|E].
          * right. destruct (F2 _ _ _ E) as [_ (n & NM & I)]. rewrite <- T in NM.
            exact (ro_data _ _ _ _ _ _ _ _ O o a z n ns2 CZ NM I).
          * left. destruct (F1 _ _ _ E) as [_ (n & NM & I)]. rewrite <- T in NM.
            exact (ro_data _ _ _ _ _ _ _ _ O o a z n ns1 CZ NM I).
      - intros i c DA J. exact (ro_typed _ _ _ _ _ _ _ _ O o a z c i CZ DA J). }
    intros p. split.
    - intros y E. split.
      + revert E. generalize (SNode root_schema) as x. revert p y.
        induction p as [|a p IH]; intros y x E; [exact E|]. cbn in E |- *.
        destruct x as [id| | |]; try discriminate.
        destruct (fact_find facts id a) as [z|] eqn:FF; [|discriminate].
        apply fact_find_in in FF. rewrite (ro_child _ _ _ _ _ _ _ _ O), (CH _ _ _ FF). now apply IH.
      + exact (proj1 (evaluate_agrees lx ty struct root_schema d revs b st O m M1 M2 facts _ R p (SNode root_schema) (Some (Obj root)) y RT E)).
    - assert (W : forall l, (forall id a z, In (id, a, z) l -> In (id, a, z) facts) -> forall p x,
                slice_schema l x p <> None -> slice_schema facts x p <> None).
      { intros l IL. induction p0 as [|a p0 IH]; intros x NE; [exact NE|]. cbn in NE |- *.
        destruct x as [id| | |]; try easy.
        destruct (fact_find l id a) as [z|] eqn:FF; [|easy].
        apply fact_find_in, IL in FF. destruct (in_fact_find facts id a z FF) as [z' G]. rewrite G.
        apply fact_find_in in G. pose proof (CH _ _ _ FF). pose proof (CH _ _ _ G).
        assert (z' = z) as -> by congruence. now apply IH. }
      intros [NE|NE]; [apply (W (s_schema s1))|apply (W (s_schema s2))]; try exact NE;
        intros id a z I; apply in_or_app; tauto.
  Qed.
End Combine.
