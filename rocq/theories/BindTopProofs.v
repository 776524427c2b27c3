(** Proofs about partial application of functors to values. *)
From Coq Require Import String List Bool Arith Lia Relations.
From Verif Require Import SignatureModel SignatureSpec SignatureProofs FunctorModel FunctorSpec FunctorProofs FunctorCallProofs
  AutoVarModel AutoVarProofs AutoVarTopProofs BindModel BindSpec BindProofs.
Import ListNotations.
Local Open Scope string_scope.
Local Open Scope nat_scope.
Local Open Scope list_scope.

(** ** Names *)
Lemma arg_name_inj i j : arg_name i = arg_name j -> i = j.
Proof. apply numbered_inj. Qed.
Lemma arg_names_nodup n : NoDup (arg_names n).
Proof.
  unfold arg_names. generalize 0 as k. induction n as [|n IH]; intros k; cbn; constructor; [|apply IH].
  intros I. apply in_map_iff in I. destruct I as (j & E & J). apply arg_name_inj in E. apply in_seq in J. lia.
Qed.
Lemma arg_names_in n x : In x (arg_names n) <-> exists i, i < n /\ x = arg_name i.
Proof.
  unfold arg_names. rewrite in_map_iff. split.
  - intros (i & <- & I). apply in_seq in I. exists i. split; [lia|reflexivity].
  - intros (i & I & ->). exists i. split; [reflexivity|]. apply in_seq. lia.
Qed.
Lemma arg_names_length n : length (arg_names n) = n.
Proof. unfold arg_names. rewrite map_length, seq_length. reflexivity. Qed.
Definition own := ["returns"; "__signature__"; "_aux_fn"; "_aux_fn_compute_variables"; "_aux_fn_variables"].
Lemma arg_name_own i : ~ In (arg_name i) own.
Proof. intros [H|[H|[H|[H|[H|[]]]]]]; discriminate. Qed.
Lemma names_of_combine {A} (l : list string) (l' : list A) : length l = length l' -> map fst (combine l l') = l.
Proof. revert l'. induction l as [|x l IH]; intros [|y l'] E; try discriminate; cbn; [reflexivity|]. rewrite IH; [reflexivity|cbn in E; congruence]. Qed.

Lemma nodup_app {A} (l l' : list A) : NoDup l -> NoDup l' -> (forall x, In x l -> ~ In x l') -> NoDup (l ++ l').
Proof.
  induction l as [|x l IH]; intros H H' D; [exact H'|]. inversion H; subst. cbn. constructor.
  - rewrite in_app_iff. intros [I|I]; [contradiction|]. apply (D x (or_introl eq_refl) I).
  - apply IH; auto. intros y Y. apply D. right. exact Y.
Qed.
Lemma nodup_app_l {A} (l l' : list A) : NoDup (l ++ l') -> NoDup l.
Proof.
  induction l as [|x l IH]; cbn; intros H; [constructor|]. inversion H; subst. constructor; [|auto].
  intros I. apply H2. apply in_app_iff. auto.
Qed.
Lemma all_names_nodup k names l : good_names k names -> (forall n, In n l <-> n = "_aux_fn" \/ In n (arg_names k) \/ In n names) ->
  NoDup l -> NoDup ("returns" :: l ++ ["__signature__"]).
Proof.
  intros [_ G] L ND. constructor.
  - rewrite in_app_iff. intros [I|[I|[]]]; [|discriminate]. apply L in I. destruct I as [I|[I|I]]; [discriminate| |].
    + apply arg_names_in in I. destruct I as (i & _ & E). apply (arg_name_own i). rewrite <- E. left. reflexivity.
    + apply (proj1 (G _ I)). cbn. tauto.
  - apply nodup_snoc; [exact ND|]. intros I. apply L in I. destruct I as [I|[I|I]]; [discriminate| |].
    + apply arg_names_in in I. destruct I as (i & _ & E). apply (arg_name_own i). rewrite <- E. cbn. tauto.
    + apply (proj1 (G _ I)). cbn. tauto.
Qed.
Lemma good_disjoint k names n : good_names k names -> In n names -> n <> "_aux_fn" /\ ~ In n (arg_names k).
Proof.
  intros [_ G] I. destruct (G n I) as [A B]. split; [intros ->; apply A; cbn; tauto|].
  intros J. apply arg_names_in in J. destruct J as (i & L & E). apply (B i L E).
Qed.

(** ** dict.update *)
Lemma put_new {A} n (x : A) l : ~ In n (map fst l) -> put n x l = l ++ [(n, x)].
Proof.
  induction l as [|[m y] l IH]; cbn; [reflexivity|]. intros N. destruct (String.eqb_spec n m) as [->|E]; [exfalso; apply N; auto|].
  rewrite IH; auto.
Qed.
Lemma put_all_new {A} (new : list (string * A)) : forall l, NoDup (map fst (l ++ new)) -> put_all new l = l ++ new.
Proof.
  unfold put_all. induction new as [|[n x] new IH]; intros l ND; cbn; [rewrite app_nil_r; reflexivity|].
  rewrite put_new.
  - rewrite IH; rewrite <- app_assoc; [reflexivity|exact ND].
  - intros I. rewrite map_app in ND. cbn in ND. apply NoDup_remove_2 in ND. apply ND. rewrite in_app_iff. auto.
Qed.

Section Top.
Variables (V op bag : Type).
Local Notation expr := (expr V op).
Local Notation slice := (slice V op).
Local Notation functor := (functor V op).
Variable self_default : V.
Variable as_object : list (param V) -> V.
Variable ops : operators op.
Variable op_with_bag : op.
Variable token : V.
Variable eval_op : op -> list (option V) -> option V.
Variable with_bag : bag -> V -> V.
Variable bag_value : bag -> V.
Variable tuple_value : list V -> V.
Variable named_value : list (string * V) -> V.
Variable names_value : list string -> V.
Variable number_value : nat -> V.
Variable text_value : string -> V.
Variable object_of : functor -> V.
Variable apply : V -> V -> list V -> list (string * V) -> option V.
Hypothesis op_with_bag_ok : forall b v, eval_op op_with_bag [Some v; Some (bag_value b)] = Some (with_bag b v).
Hypothesis comp : computes ops token eval_op tuple_value named_value names_value number_value text_value apply.
Local Notation call := (call op_with_bag token eval_op with_bag bag_value tuple_value named_value).
Local Notation create_bind := (create_bind self_default as_object ops names_value).
Local Notation bind := (bind self_default as_object ops names_value number_value text_value object_of).
Local Notation create_functor := (create_functor self_default as_object).
Local Notation plain_call := (plain_call V op bag self_default as_object ops op_with_bag token eval_op with_bag bag_value tuple_value
  named_value names_value number_value text_value apply op_with_bag_ok comp).
Local Notation lam := (capturing_lambda ops names_value).
Local Notation expr_fn := (expr_fn V op self_default as_object).

Lemma made_ok r (g : functor) : made V op r = Made g -> r = Ok g.
Proof. destruct r; cbn; congruence. Qed.

Lemma vars_in (fn : slice) names (args : list slice) (kwargs : list (string * slice)) x :
  In x (kwargs ++ combine names args ++ [("_aux_fn", fn)]) <-> x = ("_aux_fn", fn) \/ In x (combine names args) \/ In x kwargs.
Proof. rewrite !in_app_iff. cbn. split; [intros [H|[H|[H|[]]]]; auto|intros [H|[H|H]]; auto]. Qed.
Lemma vars_names (fn : slice) (args : list slice) (kwargs : list (string * slice)) : good_names (length args) (map fst kwargs) ->
  NoDup (map fst (kwargs ++ combine (arg_names (length args)) args ++ [("_aux_fn", fn)]))
  /\ forall n, In n (map fst (kwargs ++ combine (arg_names (length args)) args ++ [("_aux_fn", fn)])) <->
       n = "_aux_fn" \/ In n (arg_names (length args)) \/ In n (map fst kwargs).
Proof.
  intros G. rewrite !map_app, names_of_combine by apply arg_names_length. cbn [map fst]. split.
  - apply nodup_app; [apply G| |].
    + apply nodup_snoc; [apply arg_names_nodup|]. intros I. apply arg_names_in in I. destruct I as (i & _ & E).
      apply (arg_name_own i). rewrite <- E. cbn. tauto.
    + intros x X. destruct (good_disjoint _ _ _ G X) as [A B]. rewrite in_app_iff. intros [I|[I|[]]]; [contradiction|congruence].
  - intros n. rewrite !in_app_iff. cbn. split; [intros [H|[H|[H|[]]]]; auto|intros [H|[H|H]]; auto].
Qed.

(** The operator kd.functor.bind *)
Theorem create_bind_call fn rt args kwargs g b fv avs kvs pos kw v :
  create_bind fn rt args kwargs = Made g -> good_names (length args) (map fst kwargs) ->
  item_value with_bag b (snd fn) fv -> Forall2 (fun s x => item_value with_bag b (snd s) x) args avs ->
  Forall2 (fun s x => fst s = fst x /\ item_value with_bag b (snd (snd s)) (snd x)) kwargs kvs ->
  call b g (pos ++ map snd kw) (map fst kw) = Ok v <->
  NoDup (map fst kw) /\ apply rt fv (avs ++ pos) (override kvs kw) = Some v.
Proof.
  intros M G FV AV KV. unfold BindModel.create_bind in M.
  destruct (negb (fst fn =? 0)); [discriminate|]. destruct (negb (present (snd fn))); [discriminate|].
  apply made_ok in M. destruct (vars_names fn args kwargs G) as [ND NI].
  eapply plain_call; [|apply G|apply arg_names_length|exact M|apply vars_in|exact FV|exact AV|exact KV].
  apply (all_names_nodup (length args) (map fst kwargs)); assumption.
Qed.

(** ** Python *)
Lemma filter_all {A} (p : A -> bool) l : (forall x, In x l -> p x = true) -> filter p l = l.
Proof. induction l as [|x l IH]; intros H; cbn; [reflexivity|]. rewrite (H x (or_introl eq_refl)). f_equal. apply IH. intros y Y. apply H. right. exact Y. Qed.
Lemma expr_fn_made e sg vars g : NoDup ("returns" :: map fst vars ++ ["__signature__"]) ->
  (In "auto_variables" (map fst vars) -> occurs "V" "auto_variables" e) ->
  expr_fn (0, Quote e) sg vars = Made g -> create_functor (0, Quote e) sg vars = Ok g.
Proof.
  intros ND AUTO. unfold BindModel.expr_fn. destruct (existsb _ vars); [discriminate|]. intros M. apply made_ok in M.
  destruct (in_dec string_dec "auto_variables" (map fst vars)) as [I|N].
  - exfalso. specialize (AUTO I).
    set (vs := filter (fun x : string * slice => negb (String.eqb (fst x) "auto_variables")) vars) in M.
    assert (SUB : forall n, In n (map fst vs) -> In n (map fst vars) /\ n <> "auto_variables").
    { intros n J. apply in_map_iff in J. destruct J as (x & <- & J). apply filter_In in J. destruct J as [J K]. split; [apply List.in_map; exact J|].
      intros E. rewrite E in K. discriminate. }
    inversion ND as [|? ? N1 N2]; subst. apply nodup_snoc_inv in N2. destruct N2 as [N2 N3].
    assert (ND' : NoDup ("returns" :: map fst vs ++ ["__signature__"])).
    { constructor.
      - rewrite in_app_iff in *. intros [J|J]; [|apply N1; auto]. apply N1. left. apply SUB. exact J.
      - apply nodup_snoc; [|intros J; apply N3; apply SUB; exact J]. clear - N2. unfold vs.
        induction vars as [|[n x] vars IH]; cbn; [constructor|]. inversion N2; subst. destruct (negb (String.eqb n "auto_variables")); cbn; [|auto].
        constructor; [|auto]. intros J. apply H1. apply in_map_iff in J. destruct J as (y & <- & J). apply filter_In in J. apply List.in_map. apply J. }
    apply (create_iff V op self_default as_object _ _ _ _ ND') in M.
    destruct M as (_ & _ & _ & _ & (s & _ & EQ) & _ & _ & RE).
    assert (R : reachable g "auto_variables").
    { apply rt_step. exists e. split; [rewrite EQ; reflexivity|exact AUTO]. }
    destruct (RE _ R) as [Q|Q]; [discriminate|]. apply SUB in Q. destruct Q as [_ Q]. apply Q. reflexivity.
  - rewrite filter_all in M; [exact M|]. intros [n s] J. cbn [fst]. destruct (String.eqb_spec n "auto_variables") as [->|]; [|reflexivity].
    exfalso. apply N. change "auto_variables" with (fst ("auto_variables", s)). apply List.in_map. exact J.
Qed.

Lemma not_expr b (s : slice) v : item_value with_bag b (snd s) v -> is_expr s = false.
Proof. destruct s as [[|r] i]; [|reflexivity]. cbn. intros H. inversion H; reflexivity. Qed.

Theorem bind_call is_fn fn rt vt args kwargs g b fv avs kvs pos kw v :
  bind is_fn fn rt vt args kwargs = Made g -> good_names (length args) (map fst kwargs) ->
  item_value with_bag b (snd fn) fv -> Forall2 (fun s x => item_value with_bag b (snd s) x) args avs ->
  Forall2 (fun s x => fst s = fst x /\ item_value with_bag b (snd (snd s)) (snd x)) kwargs kvs ->
  call b g (pos ++ map snd kw) (map fst kw) = Ok v <->
  NoDup (map fst kw) /\ apply rt fv (avs ++ pos) (override kvs kw) = Some v.
Proof.
  intros M G FV AV KV. unfold BindModel.bind in M. destruct is_fn; [|discriminate]. cbn [negb] in M.
  assert (NE : existsb is_expr (args ++ map snd kwargs) = false).
  { apply not_true_iff_false. intros E. apply existsb_exists in E. destruct E as (s & I & E). apply in_app_iff in I. destruct I as [I|I].
    - destruct (Forall2_In_l _ _ _ _ AV I) as (y & _ & Q). apply not_expr in Q. congruence.
    - apply in_map_iff in I. destruct I as ([n s'] & <- & I). destruct (Forall2_In_l _ _ _ _ KV I) as (y & _ & _ & Q). apply not_expr in Q. cbn in Q, E. congruence. }
  rewrite NE in M. set (names := arg_names (length args)) in *.
  assert (LN : length names = length args) by apply arg_names_length.
  assert (ND : NoDup (map fst ([("_aux_fn", fn)] ++ kwargs ++ combine names args))
          /\ forall n, In n (map fst ([("_aux_fn", fn)] ++ kwargs ++ combine names args)) <-> n = "_aux_fn" \/ In n names \/ In n (map fst kwargs)).
  { destruct (vars_names fn args kwargs G) as [A B]. fold names in A, B. split.
    - rewrite !map_app in *. cbn [map fst app] in *. rewrite app_assoc in A. apply nodup_snoc_inv in A. constructor; tauto.
    - intros n. rewrite <- B. rewrite !map_app, !in_app_iff. tauto. }
  destruct ND as [ND NI].
  assert (P1 : put_all kwargs [("_aux_fn", fn)] = [("_aux_fn", fn)] ++ kwargs).
  { apply put_all_new. rewrite !map_app in *. rewrite app_assoc in ND. apply nodup_app_l in ND. exact ND. }
  change aux_fn with "_aux_fn" in M. rewrite P1 in M.
  rewrite put_all_new in M by (rewrite <- app_assoc; exact ND). rewrite <- app_assoc in M.
  assert (ND' : NoDup ("returns" :: map fst ([("_aux_fn", fn)] ++ kwargs ++ combine names args) ++ ["__signature__"])).
  { apply (all_names_nodup (length args) (map fst kwargs)); assumption. }
  apply expr_fn_made in M; [|exact ND'|intros I; apply lam_variables; apply NI; exact I].
  eapply plain_call; [exact ND'|apply G|exact LN|exact M| |exact FV|exact AV|exact KV].
  intros x. rewrite !in_app_iff. cbn. split; [intros [[H|[]]|[H|H]]; auto|intros [H|[H|H]]; auto].
Qed.

(** ** When it can be made *)
Lemma lam_legal rt names knames : legal (lam rt names knames) = true.
Proof.
  assert (L : forall l : list string, forallb legal (map (variable (V := V) (op := op)) l) = true) by (induction l; cbn; auto).
  cbn. rewrite !L. reflexivity.
Qed.
Theorem create_bind_iff fn rt args kwargs :
  good_names (length args) (map fst kwargs) ->
  (forall e, snd fn <> Quote e) -> (forall s e, In s args -> snd s <> Quote e) -> (forall n s e, In (n, s) kwargs -> snd s <> Quote e) ->
  (exists g, create_bind fn rt args kwargs = Made g) <->
  fst fn = 0 /\ (forall v, snd fn <> Missing v) /\ (forall s, In s args -> fst s = 0) /\ (forall n s, In (n, s) kwargs -> fst s = 0).
Proof.
  intros G QF QA QK. destruct (vars_names fn args kwargs G) as [ND NI].
  assert (ND' := all_names_nodup _ _ _ G NI ND). set (names := arg_names (length args)) in *.
  assert (LN : length names = length args) by apply arg_names_length.
  unfold BindModel.create_bind. destruct fn as [r i]. cbn [fst snd] in *.
  destruct (Nat.eqb_spec r 0) as [->|N]; cbn [negb]; [|split; [intros [g H]; discriminate|intros [H _]; contradiction]].
  destruct (present i) eqn:P; cbn [negb].
  2:{ split; [intros [g H]; discriminate|]. intros (_ & H & _). destruct i; try discriminate. exfalso. apply (H v). reflexivity. }
  fold names. change aux_fn with "_aux_fn". split.
  - intros [g M]. apply made_ok in M. apply (create_iff V op self_default as_object _ _ _ _ ND') in M.
    destruct M as (_ & _ & _ & VR & _). split; [reflexivity|]. split; [intros v ->; discriminate|]. split.
    + intros s I. apply (In_nth_error args) in I. destruct I as [k I].
      assert (K : k < length names) by (rewrite LN; apply nth_error_Some; congruence).
      destruct (nth_error names k) as [n|] eqn:NK; [|apply nth_error_None in NK; lia].
      assert (J : In (n, s) (combine names args)).
      { clear - I NK. revert I NK. generalize names as nm. clearbody names. revert k. induction args as [|x l IH]; intros [|k] [|m nm] I NK; try discriminate; cbn in *.
        - left. congruence.
        - right. apply (IH k); assumption. }
      destruct s as [r' i']. apply (VR n r' i'). apply vars_in. auto.
    + intros n [r' i'] I. apply (VR n r' i'). apply vars_in. auto.
  - intros (_ & _ & RA & RK).
    set (vars := kwargs ++ combine names args ++ [("_aux_fn", (0, i))]) in *.
    assert (RV : forall n rank j, In (n, (rank, j)) vars -> rank = 0).
    { intros n rank j I. apply vars_in in I. destruct I as [I|[I|I]]; [congruence| |].
      - apply in_combine_r in I. apply (RA _ I).
      - apply (RK _ _ I). }
    assert (QV : forall n s e, In (n, s) vars -> snd s <> Quote e).
    { intros n s e I. apply vars_in in I. destruct I as [I|[I|I]].
      - injection I as -> ->. apply QF.
      - apply in_combine_r in I. apply (QA _ e I).
      - apply (QK _ _ e I). }
    set (sg := SignatureObject (op := op) (as_object args_kwargs) args_kwargs).
    set (f := ("returns", Quote (lam rt names (map fst kwargs))) :: map (fun x => (fst x, snd (snd x))) vars ++ [("__signature__", sg)]).
    exists f. assert (C : creates self_default as_object (0, Quote (lam rt names (map fst kwargs))) (args_kwargs_signature V op as_object) vars f).
    { assert (LQ : forall x q, lookup x f = Some (Quote q) -> x = "returns" /\ q = lam rt names (map fst kwargs)).
      { intros x q L. unfold f in L. cbn [lookup] in L. destruct (String.eqb_spec x "returns") as [->|N]; [split; congruence|].
        exfalso. apply lookup_in in L. apply in_app_iff in L. destruct L as [L|[L|[]]]; [|unfold sg in L; congruence].
        apply in_map_iff in L. destruct L as ([n s] & E & I). cbn in E. injection E as _ E. apply (QV n s q I E). }
      assert (ST : forall x y, needs f x y -> x = "returns" /\ In y (map fst vars)).
      { intros x y (q & L & O). destruct (LQ x q L) as [-> ->]. split; [reflexivity|]. apply lam_variables in O. apply NI. exact O. }
      assert (NR : ~ In "returns" (map fst vars)).
      { inversion ND'; subst. rewrite in_app_iff in *. tauto. }
      split; [reflexivity|]. split; [cbn; intros; discriminate|]. split; [reflexivity|]. split; [exact RV|]. split; [|split; [|split]].
      - exists sg. split; [|reflexivity]. left. exists (as_object args_kwargs), args_kwargs. split; [reflexivity|]. split; [apply rest_valid|reflexivity].
      - intros x _ CY. unfold on_cycle in CY. assert (F : x = "returns").
        { clear - CY ST. apply clos_trans_t1n in CY. inversion CY; match goal with H : needs f _ _ |- _ => apply ST in H; tauto end. }
        assert (T : In x (map fst vars)).
        { clear - CY ST. apply clos_trans_tn1 in CY. inversion CY; match goal with H : needs f _ _ |- _ => apply ST in H; tauto end. }
        subst x. contradiction.
      - intros x e _ L S. destruct (LQ x e L) as [-> ->]. apply legal_iff in S. rewrite lam_legal in S. discriminate.
      - intros x R. apply clos_rt_rtn1 in R. inversion R; subst; [left; reflexivity|right].
        match goal with H : needs f _ _ |- _ => apply ST in H; apply H end. }
    apply (create_iff V op self_default as_object _ _ _ _ ND') in C. apply (f_equal (made V op)) in C. exact C.
Qed.

End Top.
