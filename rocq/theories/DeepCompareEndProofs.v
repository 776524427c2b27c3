From Coq Require Import String List Bool Arith NArith ZArith Lia Permutation.
From Verif Require Import DeepCompareModel DeepCompareSpec DeepCompareOrderProofs DeepCompareStepProofs DeepCompareRunProofs DeepCompareFindProofs DeepCompareProofs.
Import ListNotations.
Local Open Scope string_scope.
Local Open Scope nat_scope.
Local Open Scope list_scope.

Lemma filter_le {A} (f g : A -> bool) l : (forall q, g q = true -> f q = true) -> length (filter g l) <= length (filter f l).
Proof.
  intros H. induction l as [|x l IH]; cbn; [lia|]. specialize (H x).
  destruct (g x) eqn:G, (f x) eqn:F; cbn; try lia; try discriminate (H eq_refl).
Qed.
Lemma filter_lt {A} (f g : A -> bool) l x : (forall q, g q = true -> f q = true) -> In x l -> f x = true -> g x = false ->
  S (length (filter g l)) <= length (filter f l).
Proof.
  intros H IN F G. induction l as [|y l IH]; [contradiction|]. assert (Q := filter_le f g l H).
  cbn. destruct IN as [->|IN].
  - rewrite F, G. cbn. lia.
  - specialize (IH IN). specialize (H y). destruct (g y) eqn:Gy, (f y) eqn:Fy; cbn; try lia; try discriminate (H eq_refl).
Qed.
Lemma type_refl s : a_type s -> item_eqb s s = true.
Proof. intros [(k & n & ->)|[d ->]]; apply item_eqb_same; constructor; reflexivity. Qed.
Lemma equal_or_nan_refl x : equal_or_nan x x = true.
Proof.
  unfold equal_or_nan. destruct (is_nan x) eqn:N; [reflexivity|]. cbn. apply item_eqb_same. constructor. exact N.
Qed.
Lemma pair_refl l r : a_type (n_schema l) -> a_type (n_schema r) -> pair_eqb (l, r) (l, r) = true.
Proof. intros A B. unfold pair_eqb. cbn [fst snd]. rewrite !equal_or_nan_refl, !type_refl; auto. Qed.

Section End.
Variables (p : params) (lb rb : bag).
Hypothesis Wl : wf_bag lb.
Hypothesis Wr : wf_bag rb.
Variables ul ur : list node.
Hypothesis Tl : forall n, In n ul -> a_type (n_schema n).
Hypothesis Tr : forall n, In n ur -> a_type (n_schema n).
Hypothesis Cl : forall n f n', In n ul -> goes lb n f n' -> In n' ul.
Hypothesis Cr : forall n f n', In n ur -> goes rb n f n' -> In n' ur.

Definition fresh (m : list (node * node * rnode)) (q : node * node) : bool :=
  match find_token q m with None => true | Some _ => false end.
Definition todo (st : state) : nat := length (s_stack st) + length (filter (fresh (s_tokens st)) (list_prod ul ur)).
Definition inside (st : state) : Prop := forall t l r, In (t, l, r) (s_stack st) -> In l ul /\ In r ur.

Lemma create_token_same st l r st' t : create_token st l r = Ok (st', t) -> s_tokens st' = s_tokens st /\ s_stack st' = s_stack st.
Proof.
  unfold create_token, token_like. destruct (has_value (n_item l)).
  - intros H. destruct (n_item l);
      (assert (X1 := f_equal (fun z => match z with Ok a => fst a | Err _ => st' end) H); cbn [fst] in X1; subst st'; auto).
  - destruct (has_value (n_item r)); [discriminate|]. intros H.
    assert (X1 := f_equal (fun z => match z with Ok a => fst a | Err _ => st' end) H). cbn [fst] in X1. subst st'. auto.
Qed.
Lemma add_todo st l r st' t : inside st -> In l ul -> In r ur -> add_to_compare st l r = Ok (st', t) ->
  inside st' /\ todo st' <= todo st.
Proof.
  intros I L R. unfold add_to_compare. destruct (find_token (l, r) (s_tokens st)) eqn:F.
  { intros H. assert (st' = st) by congruence. subst. auto. }
  intros H. inv_bind H. destruct a as [s1 t1]. apply create_token_same in E. destruct E as [E1 E2].
  assert (X1 := f_equal (fun z => match z with Ok a => fst a | Err _ => st' end) H). cbn [fst] in X1. subst st'. clear H.
  split.
  - intros u a b [X|X].
    + assert (a = l) by congruence. assert (b = r) by congruence. subst. auto.
    + rewrite E2 in X. eapply I; eauto.
  - unfold todo. cbn [s_stack s_tokens length]. rewrite E1, E2.
    enough (S (length (filter (fresh ((l, r, t1) :: s_tokens st)) (list_prod ul ur))) <= length (filter (fresh (s_tokens st)) (list_prod ul ur))) by lia.
    apply filter_lt with (x := (l, r)).
    + intros q. unfold fresh. cbn [find_token]. destruct (pair_eqb (l, r) q); auto. discriminate.
    + apply in_prod; auto.
    + unfold fresh. rewrite F. reflexivity.
    + unfold fresh. cbn [find_token]. rewrite pair_refl; auto.
Qed.

Lemma save_same st t k v st' : save_transition st t k v = Ok st' -> s_tokens st' = s_tokens st /\ s_stack st' = s_stack st.
Proof.
  unfold save_transition. destruct (is_dict_key k); [intros H; assert (st' = st) by congruence; subst; auto|].
  destruct t; try discriminate; intros H;
    (assert (X1 := f_equal (fun z => match z with Ok a => a | Err _ => st' end) H); cbn in X1; subst st'; auto).
Qed.
Lemma save_diff_same st t k d st' : save_diff st t k d = Ok st' -> s_tokens st' = s_tokens st /\ s_stack st' = s_stack st.
Proof.
  unfold save_diff. destruct (is_dict_key k); [intros H; assert (st' = st) by congruence; subst; auto|].
  unfold create_diff. intros H. apply save_same in H. exact H.
Qed.
Lemma same_todo st st' : s_tokens st' = s_tokens st -> s_stack st' = s_stack st -> inside st -> inside st' /\ todo st' <= todo st.
Proof. intros A B I. unfold inside, todo. rewrite A, B. auto. Qed.

Section Pair.
Variables (l r : node) (t : rnode) (ls rs : item) (lts rts : tset).
Hypothesis L : In l ul.
Hypothesis R : In r ur.
Lemma step_todo st s st' : inside st -> step_true lb rb l r ls rs lts rts s ->
  do_step p lb rb t (n_item l) ls (n_item r) rs lts rts st s = Ok st' -> inside st' /\ todo st' <= todo st.
Proof.
  intros I ST H. destruct s as [k|k|k k']; cbn [do_step] in H.
  - inv_bind H. unfold lhs_only in H.
    destruct (p_partial p && negb (item_or_value k)); [assert (st' = st) by congruence; subst; auto|].
    destruct (negb (has_value (n_item a)) && negb (p_schemas p)); [assert (st' = st) by congruence; subst; auto|].
    apply save_diff_same in H. apply same_todo; tauto.
  - inv_bind H. unfold rhs_only in H.
    destruct (negb (has_value (n_item a)) && negb (p_schemas p)); [assert (st' = st) by congruence; subst; auto|].
    apply save_diff_same in H. apply same_todo; tauto.
  - inv_bind H. inv_bind H. destruct ST as (_ & f & _ & _ & GL & GR).
    destruct (equal p a a0).
    + inv_bind H. destruct a1 as [s1 to].
      destruct (add_todo _ _ _ _ _ I (Cl _ _ _ L (GL _ E)) (Cr _ _ _ R (GR _ E0)) E1) as [A B].
      apply save_same in H. destruct (same_todo s1 st' ltac:(tauto) ltac:(tauto) A). split; [auto|lia].
    + unfold both_mismatch in H. destruct (p_partial p && negb (item_or_value k) && negb (has_value (n_item a0)));
        [assert (st' = st) by congruence; subst; auto|]. apply save_diff_same in H. apply same_todo; tauto.
Qed.
Lemma steps_todo ss : forall st st', inside st -> (forall s, In s ss -> step_true lb rb l r ls rs lts rts s) ->
  do_steps p lb rb t (n_item l) ls (n_item r) rs lts rts st ss = Ok st' -> inside st' /\ todo st' <= todo st.
Proof.
  induction ss as [|s ss IH]; intros st st' I ST H; cbn [do_steps] in H.
  - assert (st' = st) by congruence. subst. auto.
  - inv_bind H. destruct (step_todo _ _ _ I (ST s (or_introl eq_refl)) E) as [A B].
    destruct (IH _ _ A (fun x X => ST x (or_intror X)) H). split; [auto|lia].
Qed.
End Pair.
Lemma pair_todo st t l r st' : inside st -> In l ul -> In r ur -> compare_pair p lb rb st t l r = Ok st' ->
  inside st' /\ todo st' <= todo st.
Proof.
  intros I L R H. unfold compare_pair in H. inv_bind H. inv_bind H. inv_bind H. inv_bind H.
  eapply (steps_todo l r t a a0 a1 a2 L R); [exact I| |exact H]. apply (steps_true _ _ Wl Wr _ _ _ _ _ _ E E0 E1 E2).
Qed.

Lemma pop_todo st t l r rest : s_stack st = (t, l, r) :: rest -> inside st ->
  let s := mkState (s_tokens st) rest (s_next st) (s_edges st) (s_marked st) in
  In l ul /\ In r ur /\ inside s /\ S (todo s) = todo st.
Proof.
  intros E I. destruct (I t l r) as [A B]; [rewrite E; left; reflexivity|]. cbv zeta. split; [auto|]. split; [auto|]. split.
  - intros u a b X. apply (I u). rewrite E. right. exact X.
  - unfold todo. rewrite E. reflexivity.
Qed.
Lemma deep_ends fuel : forall st, inside st -> todo st <= fuel -> deep_compare fuel p lb rb st <> None.
Proof.
  induction fuel as [|fuel IH]; intros st I T; cbn; destruct (s_stack st) as [|[[t l] r] rest] eqn:E; try discriminate.
  - unfold todo in T. rewrite E in T. cbn in T. lia.
  - destruct (pop_todo _ _ _ _ _ E I) as (A & B & C & D).
    destruct (compare_pair p lb rb _ t l r) as [st'|] eqn:P; [|discriminate].
    destruct (pair_todo _ _ _ _ _ C A B P) as [F G]. apply IH; auto. lia.
Qed.

(** ** Nothing fails when everything can be read *)
Hypothesis Rl : forall n, In n ul -> readable lb n.
Hypothesis Rr : forall n, In n ur -> readable rb n.

Lemma add_total st l r : alike p l r -> exists x, add_to_compare st l r = Ok x.
Proof.
  intros A. unfold add_to_compare. destruct (find_token (l, r) (s_tokens st)); eauto. unfold create_token.
  destruct (has_value (n_item l)) eqn:H.
  - unfold token_like. destruct (n_item l); cbn; eauto.
  - destruct (has_value (n_item r)) eqn:H'.
    + exfalso. destruct (alike_kind _ _ _ A) as [M _]. assert (X : n_item l = Missing) by (destruct (n_item l); cbn in H; congruence).
      apply M in X. rewrite X in H'. discriminate.
    + cbn. eauto.
Qed.
Lemma save_total st t k v : (exists tk n, t = RTok tk n) -> exists st', save_transition st t k v = Ok st'.
Proof. intros (tk & n & ->). unfold save_transition. destruct (is_dict_key k); eauto. Qed.
Lemma save_diff_total st t k d : (exists tk n, t = RTok tk n) -> exists st', save_diff st t k d = Ok st'.
Proof. intros H. unfold save_diff. destruct (is_dict_key k); eauto. unfold create_diff. apply save_total. exact H. Qed.

Lemma pair_total st l r t n : In l ul -> In r ur -> alike p l r -> token_ok n l t ->
  exists st', compare_pair p lb rb st t l r = Ok st'.
Proof.
  intros L R AL TK. destruct (Rl _ L) as (ls & lts & RL & TL & BL), (Rr _ R) as (rs & rts & RR & TR & BR).
  unfold compare_pair. rewrite RL, RR. cbn [bind]. rewrite TL, TR. cbn [bind].
  pose proof (steps_merged _ _ Wl Wr l r ls rs lts rts TL TR) as [MA MB MC _].
  pose proof (steps_true _ _ Wl Wr _ _ _ _ _ _ RL RR TL TR) as ST.
  fold (steps lts rts).
  assert (TT : forall s, In s (steps lts rts) -> exists tk n, t = RTok tk n).
  { intros s S. destruct t as [x|tk m|m d]; [|eauto|contradiction]. exfalso. destruct TK as (-> & HV & NO).
    assert (P : primitive (n_item l)) by (apply value_primitive; auto). specialize (ST s S).
    destruct s as [k|k|k k']; cbn [step_true] in ST.
    - apply MA in S. destruct S as [S _]. destruct (BL k S) as [n' B]. destruct ST as (_ & f & _ & G & _).
      eapply (goes_primitive lb); [exact Wl|exact P|apply (G n'); exact B].
    - apply MB in S. destruct S as [S _]. destruct (BR k S) as [n' B]. destruct ST as (_ & f & _ & G & _).
      eapply (goes_primitive rb); [exact Wr|exact (proj1 (alike_primitive _ _ _ AL) P)|apply (G n'); exact B].
    - apply MC in S. destruct S as [S _]. destruct (BL k S) as [n' B]. destruct ST as (_ & f & _ & _ & G & _).
      eapply (goes_primitive lb); [exact Wl|exact P|apply (G n'); exact B]. }
  assert (G : forall ss st, incl ss (steps lts rts) -> exists st', do_steps p lb rb t (n_item l) ls (n_item r) rs lts rts st ss = Ok st').
  { induction ss as [|s ss IH]; intros st1 IN; cbn [do_steps]; eauto.
    assert (S : In s (steps lts rts)) by (apply IN; left; reflexivity).
    assert (X : exists st2, do_step p lb rb t (n_item l) ls (n_item r) rs lts rts st1 s = Ok st2).
    { pose proof (TT s S) as TS. destruct s as [k|k|k k']; cbn [do_step].
      - apply MA in S. destruct S as [S _]. destruct (BL k S) as [n' ->]. cbn [bind]. unfold lhs_only.
        destruct (p_partial p && negb (item_or_value k)); eauto. destruct (negb (has_value (n_item n')) && negb (p_schemas p)); eauto.
        apply save_diff_total. exact TS.
      - apply MB in S. destruct S as [S _]. destruct (BR k S) as [n' ->]. cbn [bind]. unfold rhs_only.
        destruct (negb (has_value (n_item n')) && negb (p_schemas p)); eauto. apply save_diff_total. exact TS.
      - apply MC in S. destruct S as (S & S' & _). destruct (BL k S) as [n' ->]. destruct (BR k' S') as [n2 ->]. cbn [bind].
        destruct (equal p n' n2) eqn:Q.
        + apply equal_iff in Q. destruct (add_total st1 n' n2 Q) as [[s1 to] ->]. cbn [bind]. apply save_total. exact TS.
        + unfold both_mismatch. destruct (p_partial p && negb (item_or_value k) && negb (has_value (n_item n2))); eauto.
          apply save_diff_total. exact TS. }
    destruct X as [st2 ->]. cbn [bind]. apply IH. intros x X. apply IN. right. exact X. }
  apply G. apply incl_refl.
Qed.
Lemma deep_total n0 fuel : forall st, inside st -> inv p lb rb n0 st None -> todo st <= fuel ->
  exists st', deep_compare fuel p lb rb st = Some (Ok st').
Proof.
  induction fuel as [|fuel IH]; intros st I V T; cbn; destruct (s_stack st) as [|[[t l] r] rest] eqn:E; eauto.
  - unfold todo in T. rewrite E in T. cbn in T. lia.
  - destruct (pop_todo _ _ _ _ _ E I) as (A & B & C & D).
    assert (IP := inv_pop _ _ _ _ _ _ _ _ _ (s_marked st) V E).
    destruct (iv_tok _ _ _ _ _ _ V l r t) as [AL TK]. { apply (iv_stack _ _ _ _ _ _ V). rewrite E. left. reflexivity. }
    destruct (pair_total (mkState (s_tokens st) rest (s_next st) (s_edges st) (s_marked st)) l r t _ A B AL TK) as [st' P].
    rewrite P. destruct (pair_todo _ _ _ _ _ C A B P) as [F G]. apply IH; auto; [|lia]. eapply pair_ok; eauto.
Qed.
End End.

Lemma items_inside p ls rs ul ur : forall l r st st' roots, inside ul ur st ->
  (forall x, In x l -> In (mkNode x ls) ul) -> (forall x, In x r -> In (mkNode x rs) ur) ->
  compare_items p ls rs st l r = Ok (st', roots) -> inside ul ur st'.
Proof.
  induction l as [|x l IH]; intros [|y r] st st' roots I L R H; cbn [compare_items] in H;
    try (assert (st' = st) by congruence; subst; exact I).
  inv_bind H. destruct a as [s1 t]. inv_bind H. destruct a as [s2 ts]. cbn [fst snd] in H.
  assert (st' = s2) by congruence. subst st'. eapply (IH r s1); [| | |exact E0].
  - destruct (equal p (mkNode x ls) (mkNode y rs)).
    + unfold add_to_compare in E. destruct (find_token _ _); [assert (s1 = st) by congruence; subst; exact I|].
      inv_bind E. destruct a as [s3 t3]. apply create_token_same in E1. destruct E1 as [_ E1].
      assert (X1 := f_equal (fun z => match z with Ok a => fst a | Err _ => s1 end) E). cbn [fst] in X1. subst s1.
      intros u a b [X|X].
      * assert (a = mkNode x ls) by congruence. assert (b = mkNode y rs) by congruence. subst. split; [apply L|apply R]; left; reflexivity.
      * rewrite E1 in X. eapply I; eauto.
    + unfold create_diff in E. assert (X1 := f_equal (fun z => match z with Ok a => fst a | Err _ => s1 end) E). cbn [fst] in X1. subst s1. exact I.
  - intros z Z. apply L. right. exact Z.
  - intros z Z. apply R. right. exact Z.
Qed.
Lemma items_total p ls rs : forall l r st, exists x, compare_items p ls rs st l r = Ok x.
Proof.
  induction l as [|x l IH]; intros [|y r] st; cbn [compare_items]; eauto.
  assert (X : exists q, (if equal p (mkNode x ls) (mkNode y rs) then add_to_compare st (mkNode x ls) (mkNode y rs)
    else Ok (create_diff st (DMismatch (mkNode x ls) (mkNode y rs) (schema_mismatch p (mkNode x ls) (mkNode y rs))))) = Ok q).
  { destruct (equal p (mkNode x ls) (mkNode y rs)) eqn:Q; eauto. apply equal_iff in Q. eapply add_total; eauto. }
  destruct X as [[s1 t] ->]. cbn [bind]. destruct (IH r s1) as [[s2 ts] ->]. cbn [bind]. eauto.
Qed.

Lemma deep_more p lb rb fuel : forall st x fuel', deep_compare fuel p lb rb st = Some x -> fuel <= fuel' ->
  deep_compare fuel' p lb rb st = Some x.
Proof.
  induction fuel as [|fuel IH]; intros st x fuel' H L; destruct fuel' as [|fuel']; try lia; cbn in *;
    destruct (s_stack st) as [|[[t l] r] rest]; auto; try discriminate.
  destruct (compare_pair p lb rb _ t l r); auto. apply IH; auto. lia.
Qed.
Lemma find_more order st max_count fuel : forall f x fuel', find_loop order st max_count fuel f = Some x -> fuel <= fuel' ->
  find_loop order st max_count fuel' f = Some x.
Proof.
  induction fuel as [|fuel IH]; intros f x fuel' H L; destruct fuel' as [|fuel']; try lia; cbn in *;
    destruct (f_stack f); auto; try discriminate.
  destruct (process order st max_count f); auto. apply IH; auto. lia.
Qed.

(** The search does not fail when it meets no ObjectIds *)
Lemma process_total order st max_count roots f : (forall path x, ~ rpath order st roots path (RVal x)) -> finv order st max_count roots f ->
  exists f', process order st max_count f = Ok f'.
Proof.
  intros N I. unfold process. destruct (f_stack f) as [|[[n k] b] rest] eqn:E; eauto.
  assert (S := fi_stack _ _ _ _ _ I). rewrite E in S. destruct S as [S _].
  destruct n as [x|tk m|m d]; [exfalso; eapply N; eauto| |]; cbn [bind];
    match goal with |- context [pop_done ?a ?b] => destruct (pop_done a b) end; eauto.
Qed.
Lemma loop_total order st max_count roots fuel : (forall path x, ~ rpath order st roots path (RVal x)) ->
  forall f, finv order st max_count roots f -> uinv order st max_count roots f None -> top_open (f_stack f) ->
  forall e, find_loop order st max_count fuel f <> Some (Err e).
Proof.
  intros N. induction fuel as [|fuel IH]; intros f I U T e; cbn; destruct (f_stack f) eqn:E; try discriminate.
  destruct (process_total _ _ _ _ _ N I) as [f' P]. rewrite P. rewrite <- E in T.
  destruct (process_inv _ _ _ _ _ _ I U T P) as (I' & U' & T' & _). apply IH; auto.
Qed.
