(** Proofs about partial application of functors to expressions, and consequences. *)
From Coq Require Import String List Bool Arith Lia Relations.
From Verif Require Import SignatureModel SignatureSpec SignatureProofs FunctorModel FunctorSpec FunctorProofs FunctorCallProofs
  AutoVarModel AutoVarProofs AutoVarTopProofs BindModel BindSpec BindProofs BindTopProofs.
Import ListNotations.
Local Open Scope string_scope.
Local Open Scope nat_scope.
Local Open Scope list_scope.

Lemma lookup_combine {A} (l : list string) : forall (l' : list A) k n v, NoDup l -> nth_error l k = Some n -> nth_error l' k = Some v ->
  lookup n (combine l l') = Some v.
Proof.
  induction l as [|m l IH]; intros l' k n v ND E E'; [destruct k; discriminate|]. inversion ND as [|? ? N1 N2]; subst.
  destruct l' as [|w l']; [destruct k; discriminate|]. destruct k as [|k]; cbn in *.
  - injection E as ->. injection E' as ->. rewrite String.eqb_refl. reflexivity.
  - destruct (String.eqb_spec n m) as [->|N]; [exfalso; apply N1; apply nth_error_In in E; exact E|]. apply (IH l' k); assumption.
Qed.
Lemma lookup_app_l {A} n (l l' : list (string * A)) v : lookup n l = Some v -> lookup n (l ++ l') = Some v.
Proof. intros E. rewrite lookup_app, E. reflexivity. Qed.
Lemma Forall2_total {A B} (R : A -> B -> Prop) l : (forall x, In x l -> exists y, R x y) -> exists l', Forall2 R l l'.
Proof.
  induction l as [|x l IH]; intros H; [exists []; constructor|]. destruct (H x (or_introl eq_refl)) as [y Y].
  destruct IH as [l' L]; [intros z Z; apply H; right; exact Z|]. exists (y :: l'). constructor; assumption.
Qed.
Lemma forall2_map_l {A B C} (R : B -> C -> Prop) (f : A -> B) l l' : Forall2 R (map f l) l' <-> Forall2 (fun x y => R (f x) y) l l'.
Proof.
  revert l'. induction l as [|x l IH]; intros [|y l']; cbn; split; intros H; try (inversion H; fail); try constructor.
  - inversion H; assumption.
  - inversion H; subst. apply IH. assumption.
  - inversion H; assumption.
  - inversion H; subst. apply IH. assumption.
Qed.
Lemma forall2_imp {A B} (R Q : A -> B -> Prop) l l' : (forall x y, In x l -> R x y -> Q x y) -> Forall2 R l l' -> Forall2 Q l l'.
Proof.
  intros H F. induction F as [|x y l l' R1 F IH]; constructor; [apply H; [left; reflexivity|exact R1]|]. apply IH. intros a b I. apply H. right. exact I.
Qed.

(** ** The default signature *)
Section Default.
Variables (V : Type).
Variables (self : V) (named : list string) (ud : V -> V).
Definition dps : list (param V) :=
  [mkParam "self" PositionalOnly (Some (0, self))] ++ map (fun n => mkParam n KeywordOnly None) named ++ [mkParam "__extra_inputs__" VarKeyword None].
Lemma dps_positions : positions dps = 1.
Proof.
  unfold positions, dps. cbn. rewrite filter_app. cbn. rewrite app_nil_r. f_equal.
  clear. induction named as [|n l IH]; cbn; [reflexivity|exact IH].
Qed.
Lemma dps_in p : In p dps <-> p = mkParam "self" PositionalOnly (Some (0, self)) \/ (exists n, In n named /\ p = mkParam n KeywordOnly None)
  \/ p = mkParam "__extra_inputs__" VarKeyword None.
Proof.
  unfold dps. rewrite !in_app_iff, in_map_iff. cbn. split.
  - intros [[H|[]]|[(n & <- & I)|[H|[]]]]; eauto.
  - intros [->|[(n & I & ->)| ->]]; eauto.
Qed.
Lemma dps_names : map p_name dps = "self" :: named ++ ["__extra_inputs__"].
Proof. unfold dps. cbn. rewrite map_app, map_map. cbn. rewrite map_id. reflexivity. Qed.

Variables (pos : list V) (kw : list (string * V)) (r : list (bound V)).
Hypothesis valid : valid_parameters dps.
Hypothesis B : binds ud dps pos kw r.
Lemma dps_bound : NoDup (map fst kw) /\ length pos <= 1 /\ (forall n, In n named -> In n (map fst kw)).
Proof.
  destruct B as (ND & _ & POS & _ & L & VAL). split; [exact ND|]. split.
  - rewrite <- dps_positions. apply POS. intros p I K. apply dps_in in I. destruct I as [->|[(n & _ & ->)| ->]]; discriminate.
  - intros n N. assert (I : In (mkParam n KeywordOnly None) dps) by (apply dps_in; eauto).
    apply In_nth_error in I. destruct I as [i I]. destruct (VAL i _ I) as (v & _ & Q).
    inversion Q; subst;
      match goal with
      | H : by_position _ |- _ => destruct H; discriminate
      | H : p_default _ = Some _ |- _ => discriminate H
      | H : p_kind _ = _ |- _ => discriminate H
      | H : In (p_name _, _) kw |- _ => apply (List.in_map fst) in H; exact H
      end.
Qed.
Variable bv : bound V -> V.
Hypothesis bv_plain : forall v, bv (Plain v) = v.
Lemma dps_lookup_self rest : lookup "self" (combine (map p_name dps) (map bv r) ++ rest) = Some (hd (ud self) pos).
Proof.
  destruct B as (ND & _ & _ & _ & L & VAL). destruct (VAL 0 _ eq_refl) as (v & E & Q). apply lookup_app_l.
  apply (lookup_combine _ _ 0); [apply valid|reflexivity|]. rewrite nth_error_map, E. cbn. f_equal.
  inversion Q as [? ? w P N|? ? w P| ? ? rank d P N K D| |]; subst;
    try match goal with H : p_kind _ = _ |- _ => discriminate H end.
  - rewrite bv_plain. destruct pos; [discriminate|]. cbn in *. congruence.
  - destruct P; discriminate.
  - rewrite bv_plain. cbn in D. injection D as <- <-. destruct pos; [reflexivity|]. specialize (N (or_introl eq_refl)). discriminate.
Qed.
Lemma dps_lookup_named rest n : In n named -> lookup n (combine (map p_name dps) (map bv r) ++ rest) = lookup n kw.
Proof.
  destruct B as (ND & _ & _ & _ & L & VAL). intros N. assert (I : In (mkParam n KeywordOnly None) dps) by (apply dps_in; eauto).
  apply In_nth_error in I. destruct I as [i I]. destruct (VAL i _ I) as (v & E & Q).
  assert (exists w, v = Plain w /\ In (n, w) kw) as (w & -> & W).
  { inversion Q; subst;
      match goal with
      | H : by_position _ |- _ => destruct H; discriminate
      | H : p_default _ = Some _ |- _ => discriminate H
      | H : p_kind _ = _ |- _ => discriminate H
      | H : In (p_name _, ?w) kw |- _ => exists w; split; [reflexivity|exact H]
      end. }
  rewrite (lookup_nodup kw n w ND W). apply lookup_app_l. apply (lookup_combine _ _ i); [apply valid| |].
  - rewrite nth_error_map. unfold at_ in I. rewrite I. reflexivity.
  - rewrite nth_error_map, E. cbn. rewrite bv_plain. reflexivity.
Qed.
End Default.

Section Expressions.
Variables (V op bag : Type).
Local Notation expr := (expr V op).
Local Notation slice := (slice V op).
Local Notation functor := (functor V op).
Variable self_default : V.
Variable as_object : list (param V) -> V.
Variable ops : operators op.
Variable op_with_bag : op.
Variable token : V.
Variable eval_op : op -> list (option V) -> option V.
Variable with_bag : bag -> V -> V.
Variable bag_value : bag -> V.
Variable tuple_value : list V -> V.
Variable named_value : list (string * V) -> V.
Variable names_value : list string -> V.
Variable number_value : nat -> V.
Variable text_value : string -> V.
Variable object_of : functor -> V.
Variable apply : V -> V -> list V -> list (string * V) -> option V.
Hypothesis op_with_bag_ok : forall b v, eval_op op_with_bag [Some v; Some (bag_value b)] = Some (with_bag b v).
Hypothesis comp : computes ops token eval_op tuple_value named_value names_value number_value text_value apply.
Local Notation call := (call op_with_bag token eval_op with_bag bag_value tuple_value named_value).
Local Notation bind := (bind self_default as_object ops names_value number_value text_value object_of).
Local Notation create_functor := (create_functor self_default as_object).
Local Notation compute_functor := (compute_functor self_default as_object ops names_value).
Local Notation denotes := (denotes token eval_op with_bag).
Local Notation eval := (eval token eval_op).
Local Notation bound_outcome := (bound_outcome with_bag token eval_op).
Local Notation tuple_of := (tuple_of_variables V op ops).
Local Notation named_of := (named_tuple_of_variables V op ops names_value).

Variables (args : list slice) (kwargs : list (string * slice)).
Hypothesis good : good_names (length args) (map fst kwargs).
Hypothesis simple : forall s e, In s (args ++ map snd kwargs) -> snd s = Quote e -> (forall n, ~ occurs "V" n e) /\ ~ occurs "I" "__bag" e.
Local Notation used := (used_input args kwargs).
Local Notation names := (arg_names (length args)).
Local Notation vars := (kwargs ++ combine names args).
Definition computing : expr := Call (o_tuple ops) [tuple_of names; named_of (map fst kwargs)].

Lemma computing_inputs n : ~ occurs "I" n computing.
Proof. rewrite <- names_in_iff. cbn. rewrite !names_variables. cbn. tauto. Qed.
Lemma computing_variables n : occurs "V" n computing <-> In n names \/ In n (map fst kwargs).
Proof. rewrite <- names_in_iff. cbn. rewrite !names_variables. cbn. rewrite !app_nil_r, in_app_iff. reflexivity. Qed.

Lemma vars_nodup : NoDup (map fst vars) /\ NoDup ("returns" :: map fst vars ++ ["__signature__"]).
Proof.
  destruct (vars_names V op (0, Primitive self_default) args kwargs good) as [A B].
  pose proof (all_names_nodup _ _ _ good B A) as C. rewrite app_assoc in *.
  rewrite map_app in A, C. cbn [map fst] in A, C. apply nodup_snoc_inv in A. destruct A as [A1 A2]. split; [exact A1|].
  inversion C as [|? ? C1 C2]; subst. constructor.
  - rewrite !in_app_iff in *. tauto.
  - apply nodup_snoc; [exact A1|]. apply nodup_snoc_inv in C2. destruct C2 as [_ C2]. rewrite in_app_iff in C2. tauto.
Qed.
Lemma arg_in i s : nth_error args i = Some s -> In (arg_name i, s) (combine names args).
Proof.
  intros E. assert (N : nth_error names i = Some (arg_name i)).
  { unfold arg_names. rewrite nth_error_map. assert (i < length args) by (apply nth_error_Some; congruence).
    rewrite (nth_error_nth' (seq 0 (length args)) 0) by (rewrite seq_length; assumption). rewrite seq_nth by assumption. reflexivity. }
  revert E N. generalize names as nm. generalize (arg_name i) as n. revert i. clear. induction args as [|x l IH]; intros [|i] n [|m nm] E N; try discriminate; cbn in *.
  - left. congruence.
  - right. apply (IH i); assumption.
Qed.

Lemma compute_created h : compute_functor args kwargs = Made h -> create_functor (0, Quote computing) (missing_signature V op self_default) vars = Ok h.
Proof.
  intros M. unfold BindModel.compute_functor in M. destruct vars_nodup as [N1 N2]. rewrite put_all_new in M by exact N1.
  apply expr_fn_made in M; [exact M|exact N2|]. intros I. apply computing_variables.
  rewrite map_app, in_app_iff, names_of_combine in I by apply arg_names_length. tauto.
Qed.

Section Compute.
Variable h : functor.
Hypothesis made_h : compute_functor args kwargs = Made h.
Lemma h_facts : has_attr "returns" h /\ has_attr "__signature__" h /\ acyclic h /\ plain h /\ defined h
  /\ lookup "returns" h = Some (Quote computing)
  /\ (forall n s, In (n, s) vars -> reachable h n /\ lookup n h = Some (snd s))
  /\ exists v named, lookup "__signature__" h = Some (SignatureObject v (dps V self_default named)) /\ valid_parameters (dps V self_default named)
     /\ (forall n, In n named <-> n <> "self" /\ used n)
     /\ (forall n, wants h n -> In n (map p_name (dps V self_default named)) \/ n = "__bag").
Proof.
  pose proof (compute_created h made_h) as C. destruct vars_nodup as [N1 N2].
  apply (create_iff V op self_default as_object _ _ _ _ N2) in C.
  destruct (created_signature V op self_default as_object _ _ _ _ N2 C) as (HR & AC & PL & DEF & (v & ps & LS & VP & W)).
  specialize (W (ex_intro _ self_default eq_refl)).
  destruct C as (_ & _ & _ & VR & (s & SF & E) & _ & _ & RE).
  assert (LR : lookup "returns" h = Some (Quote computing)) by (rewrite E; reflexivity).
  assert (HS : has_attr "__signature__" h) by (eexists; split; [exact LS|intros; discriminate]).
  split; [exact HR|]. split; [exact HS|]. split; [exact AC|]. split; [exact PL|]. split; [exact DEF|]. split; [exact LR|].
  apply NoDup_cons_iff in N2. destruct N2 as [M1 M2]. apply nodup_snoc_inv in M2. destruct M2 as [_ M3]. rewrite in_app_iff in M1.
  assert (LV : forall n s, In (n, s) vars -> reachable h n /\ lookup n h = Some (snd s)).
  { intros n sl I. assert (IN : In n (map fst vars)) by (change n with (fst (n, sl)); apply List.in_map; exact I). split.
    - apply rt_step. exists computing. split; [exact LR|]. apply computing_variables.
      rewrite map_app, in_app_iff, names_of_combine in IN by apply arg_names_length. tauto.
    - rewrite E. cbn [lookup]. destruct (String.eqb_spec n "returns") as [->|NR]; [exfalso; tauto|].
      apply lookup_app_l. apply lookup_nodup; [rewrite map_map; exact N1|]. apply in_map_iff. exists (n, sl). auto. }
  split; [exact LV|].
  assert (s = SignatureObject v ps).
  { rewrite E in LS. cbn [lookup] in LS. cbn in LS. rewrite lookup_app in LS.
    rewrite (proj2 (lookup_none "__signature__" _)) in LS by (rewrite map_map; exact M3). cbn in LS. congruence. }
  subst s. destruct SF as [(v' & ps' & Q & _)|(v' & named & ps' & _ & _ & _ & NM & _ & PS & SO)]; [discriminate|].
  injection SO as _ <-. exists v, named. subst ps. split; [exact LS|]. split; [exact VP|]. split; [|exact W].
  intros n. rewrite NM. split; intros [A O].
  - destruct O as (e & I & O). split; [exact A|]. destruct I as [I|I]; [cbn in I; injection I as <-; exfalso; apply (computing_inputs n O)|].
    apply in_map_iff in I. destruct I as ([m sl] & Q & I). cbn in Q. exists sl, e. split; [|auto].
    apply in_app_iff in I. apply in_app_iff. destruct I as [I|I]; [right; change sl with (snd (m, sl)); apply List.in_map; exact I|].
    left. apply in_combine_r in I. exact I.
  - split; [exact A|]. destruct O as (e & e' & I' & Q & O). exists e'. split; [|exact O]. right. rewrite <- Q.
    apply in_app_iff in I'. destruct I' as [I'|I'].
    + apply In_nth_error in I'. destruct I' as [i I']. apply arg_in in I'. apply in_map_iff. exists (arg_name i, e). split; [reflexivity|].
      apply in_app_iff. right. exact I'.
    + apply in_map_iff in I'. destruct I' as ([m sl] & <- & I'). apply in_map_iff. exists (m, sl). split; [reflexivity|]. apply in_app_iff. auto.
Qed.

Lemma occurs_container c n (e : expr) : occurs c n e -> ~ strange e -> c = "I" \/ c = "V".
Proof.
  intros O. induction O as [|o l a I O IH]; intros S.
  - destruct (string_dec c "I"); [auto|]. destruct (string_dec c "V"); [auto|]. exfalso. apply S. constructor; assumption.
  - apply IH. intros Q. apply S. econstructor; eassumption.
Qed.
Local Notation self b := (with_bag b self_default).
Local Notation outcome b pos kw := (bound_outcome b (expression_inputs (self b) pos kw)).
Local Notation inputs_of := (inputs_of bag_value tuple_value named_value).

Lemma h_var b pos kw r den named n s x : valid_parameters (dps V self_default named) -> (forall n, In n named <-> n <> "self" /\ used n) ->
  binds (with_bag b) (dps V self_default named) pos kw r -> denotes b h (inputs_of b (dps V self_default named) r) den ->
  In (n, s) vars -> outcome b pos kw (snd s) x <-> den n = Some x.
Proof.
  intros VP NM B D I. destruct h_facts as (_ & _ & _ & PL & _ & _ & LV & _). destruct (LV n s I) as [R L].
  assert (IS : In s (args ++ map snd kwargs)).
  { apply in_app_iff in I. apply in_app_iff. destruct I as [I|I]; [right; change s with (snd (n, s)); apply List.in_map; exact I|].
    left. apply in_combine_r in I. exact I. }
  rewrite (D n (snd s) R L). destruct (snd s) as [e|v|v|v ps|v] eqn:SN.
  - assert (E : eval (fun c m => if String.eqb c "V" then den m else inputs_of b (dps V self_default named) r m) e
              = eval (fun _ m => expression_inputs (self b) pos kw m) e).
    { apply eval_ext. intros c m O. destruct (simple s e IS SN) as [NV NB].
      destruct (occurs_container c m e O (PL n e R L)) as [-> | ->]; [|exfalso; apply (NV m O)]. cbn [String.eqb].
      change (String.eqb "I" "V") with false. cbn iota. unfold FunctorSpec.inputs_of, expression_inputs.
      destruct (String.eqb_spec m "self") as [->|NS].
      - apply (dps_lookup_self V self_default named (with_bag b) pos kw r VP B). reflexivity.
      - apply (dps_lookup_named V self_default named (with_bag b) pos kw r VP B); [reflexivity|]. apply NM. split; [exact NS|].
        exists s, e. auto. }
    rewrite E. split; [|intros Q; apply OutcomeOfExpr; exact Q]. intros Q. inversion Q as [? ? Q'|? ? Q']; subst; [exact Q'|inversion Q'].
  - split; [intros Q; inversion Q as [|? ? Q']; inversion Q'; reflexivity|]. intros Q. injection Q as <-. apply OutcomeOfItem. constructor.
  - split; [intros Q; inversion Q as [|? ? Q']; inversion Q'; reflexivity|]. intros Q. injection Q as <-. apply OutcomeOfItem. constructor.
  - split; [intros Q; inversion Q as [|? ? Q']; inversion Q'; reflexivity|]. intros Q. injection Q as <-. apply OutcomeOfItem. constructor.
  - split; [intros Q; inversion Q as [|? ? Q']; inversion Q'; reflexivity|]. intros Q. injection Q as <-. apply OutcomeOfItem. constructor.
Qed.

Lemma den_args (P : slice -> V -> Prop) (den : string -> option V) (nm : list string) (l : list slice) avs : length nm = length l ->
  (forall n s x, In (n, s) (combine nm l) -> P s x -> den n = Some x) -> Forall2 P l avs -> map den nm = map Some avs.
Proof.
  intros LEN IN F. revert nm LEN IN. induction F as [|s x l avs H F IH]; intros [|n nm] LEN IN; try discriminate; [reflexivity|].
  cbn. rewrite (IN n s x (or_introl eq_refl) H). f_equal. apply IH; [cbn in LEN; congruence|]. intros n' s' x' I. apply IN. right. exact I.
Qed.
Lemma den_kwargs (P : slice -> V -> Prop) (den : string -> option V) (l : list (string * slice)) kvs :
  (forall n s x, In (n, s) l -> P s x -> den n = Some x) -> Forall2 (fun s x => fst s = fst x /\ P (snd s) (snd x)) l kvs ->
  map den (map fst kvs) = map Some (map snd kvs) /\ map fst l = map fst kvs.
Proof.
  intros IN F. induction F as [|[n s] [m x] l kvs [E H] F IH]; [split; reflexivity|]. cbn in E, H. subst m. cbn.
  rewrite (IN n s x (or_introl eq_refl) H). destruct IH as [A B]; [intros n' s' x' I; apply IN; right; exact I|].
  rewrite A. split; [reflexivity|]. f_equal. exact B.
Qed.

Local Notation outcomes b pos kw := (bound_outcomes with_bag token eval_op b (expression_inputs (self b) pos kw) args kwargs).
Lemma h_returns b pos kw r den named w : valid_parameters (dps V self_default named) -> (forall n, In n named <-> n <> "self" /\ used n) ->
  binds (with_bag b) (dps V self_default named) pos kw r -> denotes b h (inputs_of b (dps V self_default named) r) den ->
  den "returns" = Some w <-> exists avs kvs, outcomes b pos kw avs kvs /\ w = tuple_value [tuple_value avs; named_value kvs].
Proof.
  intros VP NM B D. pose proof (fun n s x => h_var b pos kw r den named n s x VP NM B D) as HV.
  destruct h_facts as (_ & _ & _ & _ & _ & LR & _).
  assert (E : den "returns" = eval_op (o_tuple ops) [eval_op (o_tuple ops) (map den names);
            eval_op (o_named ops) (Some (names_value (map fst kwargs)) :: map den (map fst kwargs))]).
  { rewrite (D "returns" _ (rt_refl _ _ _) LR). unfold computing, tuple_of_variables, named_tuple_of_variables. cbn [FunctorModel.eval map].
    rewrite !map_map. reflexivity. }
  assert (MAIN : forall avs kvs, outcomes b pos kw avs kvs -> den "returns" = Some (tuple_value [tuple_value avs; named_value kvs])).
  { intros avs kvs [FA FK].
    assert (DA : map den names = map Some avs).
    { apply (den_args (fun s x => outcome b pos kw (snd s) x) den names args avs); [apply arg_names_length| |exact FA].
      intros n s x I Q. apply (HV n s x); [apply in_app_iff; auto|exact Q]. }
    destruct (den_kwargs (fun s x => outcome b pos kw (snd s) x) den kwargs kvs) as [DK KN]; [|exact FK|].
    { intros n s x I Q. apply (HV n s x); [apply in_app_iff; auto|exact Q]. }
    rewrite E, DA, KN, DK, (of_tuple _ _ _ _ _ _ _ _ _ _ _ comp), (of_named _ _ _ _ _ _ _ _ _ _ _ comp) by (rewrite <- KN; apply good).
    apply (of_tuple _ _ _ _ _ _ _ _ _ _ _ comp [tuple_value avs; named_value kvs]). }
  split.
  - intros R. pose proof (strict _ _ _ _ _ _ _ _ _ _ _ comp) as ST.
    assert (SOME : forall n, In n names \/ In n (map fst kwargs) -> den n <> None).
    { intros n N Q. assert (M : forall l : list string, In n l -> In None (map den l)) by (intros l I; rewrite <- Q; apply List.in_map; exact I).
      rewrite E in R. rewrite (ST (o_tuple ops)) in R; [discriminate|cbn; tauto|]. destruct N as [N|N].
      - left. apply ST; [cbn; tauto|]. apply M. exact N.
      - right. left. apply ST; [cbn; tauto|]. right. apply M. exact N. }
    assert (exists avs, Forall2 (fun s x => outcome b pos kw (snd s) x) args avs) as [avs FA].
    { apply Forall2_total. intros s I. apply In_nth_error in I. destruct I as [i I]. apply arg_in in I.
      destruct (den (arg_name i)) as [x|] eqn:Q.
      - exists x. apply (HV (arg_name i) s x); [apply in_app_iff; auto|exact Q].
      - exfalso. apply (SOME (arg_name i)); [|exact Q]. left. apply in_combine_l in I. exact I. }
    assert (exists kvs, Forall2 (fun s x => fst s = fst x /\ outcome b pos kw (snd (snd s)) (snd x)) kwargs kvs) as [kvs FK].
    { apply Forall2_total. intros [n s] I. destruct (den n) as [x|] eqn:Q.
      - exists (n, x). split; [reflexivity|]. apply (HV n s x); [apply in_app_iff; auto|exact Q].
      - exfalso. apply (SOME n); [|exact Q]. right. change n with (fst (n, s)). apply List.in_map. exact I. }
    exists avs, kvs. assert (O : outcomes b pos kw avs kvs) by (split; assumption). split; [exact O|].
    rewrite (MAIN avs kvs O) in R. congruence.
  - intros (avs & kvs & O & ->). apply MAIN. exact O.
Qed.

Lemma count_nodup (l : list string) n : NoDup l -> count_occ string_dec l n <= 1.
Proof. intros H. apply NoDup_count_occ. exact H. Qed.
Lemma h_call b pos kw w : call b h (pos ++ map snd kw) (map fst kw) = Ok w <->
  NoDup (map fst kw) /\ length pos <= 1 /\ (forall n, used n -> n <> "self" -> In n (map fst kw))
  /\ exists avs kvs, outcomes b pos kw avs kvs /\ w = tuple_value [tuple_value avs; named_value kvs].
Proof.
  destruct h_facts as (HR & HS & AC & PL & DEF & _ & _ & v & named & LS & VP & NM & W).
  assert (NB : ~ wants h "__bag" \/ ~ In "__bag" (map p_name (dps V self_default named))).
  { right. rewrite dps_names. intros [Q|Q]; [discriminate|]. apply in_app_iff in Q. destruct Q as [Q|[Q|[]]]; [|discriminate].
    apply NM in Q. destruct Q as (_ & s & e & I & SN & O). apply (proj2 (simple s e I SN) O). }
  rewrite (call_iff V op bag op_with_bag token eval_op with_bag bag_value tuple_value named_value op_with_bag_ok b h pos kw w). split.
  - intros (sv & ps & r & den & _ & L & _ & _ & _ & _ & B & _ & _ & D & R). rewrite LS in L. injection L as <- <-.
    destruct (dps_bound V self_default named (with_bag b) pos kw r B) as (A1 & A2 & A3).
    split; [exact A1|]. split; [exact A2|]. split; [intros n U N; apply A3; apply NM; auto|].
    apply (h_returns b pos kw r den named w VP NM B D). exact R.
  - intros (ND & LP & GIVEN & O).
    assert (EB : exists r, binds (with_bag b) (dps V self_default named) pos kw r).
    { assert (CS : exists sg, create_signature (dps V self_default named) = Good sg /\ sg = mkSig (dps V self_default named) (keyword_index 0 (dps V self_default named))).
      { eexists. split; [|reflexivity]. apply create_signature_iff. auto. }
      destruct CS as (sg & CS & ->).
      destruct (bind_arguments with_bag (mkSig (dps V self_default named) (keyword_index 0 (dps V self_default named))) (pos ++ map snd kw) (map fst kw) (Some b)) as [r|e] eqn:BA.
      - exists r. apply (bind_iff V bag with_bag _ pos kw (Some b) VP r). exact BA.
      - exfalso. pose proof (bind_complaint V bag with_bag _ pos kw (Some b) VP e BA) as C.
        destruct e; cbn [complaint_holds] in C; try contradiction.
        + destruct C as ((p' & I' & K' & N') & [(i & p & A & N & BP & _)|C]); [|pose proof (count_nodup _ name ND); lia].
          unfold at_ in A. apply nth_error_In in A. apply dps_in in A. destruct A as [->|[(n & _ & ->)| ->]]; try (destruct BP; discriminate).
          apply dps_in in I'. destruct I' as [->|[(n & In' & ->)| ->]]; try (destruct K'; discriminate).
          apply NM in In'. destruct In' as [In' _]. apply In'. cbn in N, N'. congruence.
        + destruct C as (_ & _ & C). pose proof (count_nodup _ name ND). lia.
        + destruct C as (_ & C & P). rewrite dps_positions in C. lia.
        + destruct C as (C & _). apply (C (mkParam "__extra_inputs__" VarKeyword None)); [|reflexivity]. apply dps_in. auto.
        + destruct C as (i & p & A & N & DN & TR & _ & K). unfold at_ in A. apply nth_error_In in A. apply dps_in in A.
          destruct A as [->|[(n & I & ->)| ->]]; [discriminate| |apply TR; right; reflexivity].
          cbn in N. subst n. apply K; [right; reflexivity|]. apply NM in I. destruct I as [I1 I2]. apply GIVEN; assumption. }
    destruct EB as [r B].
    destruct (den_exists V op bag op_with_bag token eval_op with_bag bag_value op_with_bag_ok) with (f := h) (b := b)
      (inputs := combine (map p_name (dps V self_default named)) (map (fun x => match x with Plain v => v | Tuple l => tuple_value l | NamedTuple l => named_value l end) r) ++ [("__bag", bag_value b)]) as [den D]; auto.
    + intros WB. destruct NB as [NB|NB]; [contradiction|]. rewrite lookup_app, (proj2 (lookup_none "__bag" _)); [reflexivity|].
      intros I. apply NB. apply in_map_iff in I. destruct I as ([m x] & Q & I). cbn in Q. subst m. apply in_combine_l in I. exact I.
    + exists v, (dps V self_default named), r, den. repeat (split; [assumption|]). split; [intros WB; destruct NB; [contradiction|assumption]|].
      split; [exact D|]. apply (h_returns b pos kw r den named w VP NM B D). exact O.
Qed.
End Compute.
Local Notation self b := (with_bag b self_default).
Local Notation outcomes b pos kw := (bound_outcomes with_bag token eval_op b (expression_inputs (self b) pos kw) args kwargs).

Theorem bind_expr_call has_type is_fn fn rt vt g b fv pos kw v :
  bind is_fn fn rt vt args kwargs = Made g -> existsb is_expr (args ++ map snd kwargs) = true ->
  ~ In "_aux_fn_compute_variables" (map fst kwargs) -> ~ In "_aux_fn_variables" (map fst kwargs) ->
  (forall h, compute_functor args kwargs = Made h -> runs has_type apply (call b) (with_bag b (object_of h)) h) ->
  item_value with_bag b (snd fn) fv ->
  call b g (pos ++ map snd kw) (map fst kw) = Ok v <->
  NoDup (map fst kw) /\ length pos <= 1 /\ (forall n, used n -> n <> "self" -> In n (map fst kw))
  /\ exists avs kvs, outcomes b pos kw avs kvs /\ has_type vt (tuple_value [tuple_value avs; named_value kvs]) = true
     /\ apply rt fv (avs ++ pos) (override kvs kw) = Some v.
Proof.
  intros M EX NC NV RUNS FV. unfold BindModel.bind in M. destruct is_fn; [|discriminate]. cbn [negb] in M. rewrite EX in M.
  destruct (compute_functor args kwargs) as [h|] eqn:MH; [|discriminate]. specialize (RUNS h eq_refl).
  set (three := [(aux_fn, fn); (compute_variables, (0, Object (object_of h)));
                 (computed_variables, (0, Quote (Call (o_call ops) [variable compute_variables; Input "I" "args"; Lit vt; Input "I" "kwargs"; Token])))]) in M.
  set (xs := map (fun i => (arg_name i, computed_arg V op ops number_value i)) (seq 0 (length args))) in M.
  set (ys := map (fun n => (n, computed_kwarg V op ops number_value text_value n)) (map fst kwargs)) in M.
  assert (XN : map fst xs = names) by (unfold xs; rewrite map_map; reflexivity).
  assert (YN : map fst ys = map fst kwargs) by (unfold ys; rewrite map_map; cbn [fst]; apply map_id).
  assert (OWN : forall n, In n (map fst three) -> In n own) by (intros n [<-|[<-|[<-|[]]]]; cbn; tauto).
  assert (ND : NoDup (map fst (three ++ xs ++ ys))).
  { rewrite !map_app, XN, YN. apply nodup_app; [|apply nodup_app|].
    - repeat constructor; cbn; intros H; repeat destruct H as [H|H]; try discriminate; try contradiction.
    - apply arg_names_nodup.
    - apply good.
    - intros x X Y. apply (proj2 (good_disjoint _ _ _ good Y)). exact X.
    - intros x X Y. apply in_app_iff in Y. destruct Y as [Y|Y].
      + apply arg_names_in in Y. destruct Y as (i & _ & ->). apply (arg_name_own i). apply OWN. exact X.
      + destruct X as [<-|[<-|[<-|[]]]]; [apply (proj1 (good_disjoint _ _ _ good Y)); reflexivity|apply NC; exact Y|apply NV; exact Y]. }
  assert (IN : forall n, In n (map fst (three ++ xs ++ ys)) <-> In n (map fst three) \/ In n names \/ In n (map fst kwargs)).
  { intros n. rewrite !map_app, XN, YN, !in_app_iff. reflexivity. }
  assert (P1 : put_all xs three = three ++ xs).
  { apply put_all_new. rewrite app_assoc, map_app in ND. apply nodup_app_l in ND. exact ND. }
  rewrite P1 in M. rewrite put_all_new in M by (rewrite <- app_assoc; exact ND). rewrite <- app_assoc in M.
  assert (ND' : NoDup ("returns" :: map fst (three ++ xs ++ ys) ++ ["__signature__"])).
  { constructor; [|apply nodup_snoc; [exact ND|]].
    - rewrite in_app_iff, IN. intros [[H|[H|H]]|[H|[]]]; [| | |discriminate].
      + repeat destruct H as [H|H]; try discriminate; contradiction.
      + apply arg_names_in in H. destruct H as (i & _ & H). apply (arg_name_own i). rewrite <- H. cbn. tauto.
      + apply (proj1 (proj2 good _ H)). cbn. tauto.
    - rewrite IN. intros [H|[H|H]].
      + repeat destruct H as [H|H]; try discriminate; contradiction.
      + apply arg_names_in in H. destruct H as (i & _ & H). apply (arg_name_own i). rewrite <- H. cbn. tauto.
      + apply (proj1 (proj2 good _ H)). cbn. tauto. }
  apply expr_fn_made in M; [|exact ND'|].
  2:{ intros H. apply IN in H. apply lam_variables. destruct H as [H|[H|H]]; auto. repeat destruct H as [H|H]; try discriminate; contradiction. }
  destruct (created_ready V op self_default as_object _ _ _ ND' M) as (R & VL & _).
  { intros n. apply lam_inputs. }
  { intros x r q n I O. rewrite !in_app_iff in I. destruct I as [I|[I|I]].
    - destruct I as [I|[I|[I|[]]]].
      + injection I as _ ->. inversion FV.
      + injection I as _ _ Q. discriminate.
      + injection I as _ _ Q. subst q. apply names_in_iff in O. cbn in O. cbn. tauto.
    - apply in_map_iff in I. destruct I as (i & I & _). injection I as _ _ Q. subst q. apply names_in_iff in O. cbn in O. contradiction.
    - apply in_map_iff in I. destruct I as (i & I & _). injection I as _ _ Q. subst q. apply names_in_iff in O. cbn in O. contradiction. }
  destruct (ready_den V op bag op_with_bag token eval_op with_bag bag_value tuple_value named_value op_with_bag_ok _ _ b pos kw R) as [den D].
  rewrite (ready_call V op bag op_with_bag token eval_op with_bag bag_value tuple_value named_value op_with_bag_ok _ _ b pos kw den v R D).
  pose proof (fun n => ready_reach V op ops names_value g rt names (map fst kwargs) n R) as RR.
  assert (LX : forall i, i < length args -> lookup (arg_name i) g = Some (snd (computed_arg V op ops number_value i))).
  { intros i I. apply VL. rewrite !in_app_iff. right. left. apply in_map_iff. exists i. split; [reflexivity|]. apply in_seq. lia. }
  assert (LY : forall n, In n (map fst kwargs) -> lookup n g = Some (snd (computed_kwarg V op ops number_value text_value n))).
  { intros n I. apply VL. rewrite !in_app_iff. right. right. apply in_map_iff. exists n. auto. }
  assert (DX : forall i, i < length args -> den (arg_name i) =
            eval_op (o_nth ops) [eval_op (o_nth ops) [den computed_variables; Some (number_value 0)]; Some (number_value i)]).
  { intros i I. rewrite (D _ _ (RR _ (or_intror (or_introl (proj2 (arg_names_in _ _) (ex_intro _ i (conj I eq_refl)))))) (LX i I)). reflexivity. }
  assert (DY : forall n, In n (map fst kwargs) -> den n =
            eval_op (o_field ops) [eval_op (o_nth ops) [den computed_variables; Some (number_value 1)]; Some (text_value n)]).
  { intros n I. rewrite (D _ _ (RR _ (or_intror (or_intror I))) (LY n I)). reflexivity. }
  assert (SOMEONE : exists n, (In n names \/ In n (map fst kwargs)) /\ (exists q, lookup n g = Some (Quote q) /\ occurs "V" computed_variables q)
            /\ (den computed_variables = None -> den n = None)).
  { pose proof (strict _ _ _ _ _ _ _ _ _ _ _ comp) as ST.
    apply existsb_exists in EX. destruct EX as (s & I & _). apply in_app_iff in I. destruct I as [I|I].
    - assert (L0 : 0 < length args) by (destruct args; [contradiction|cbn; lia]). exists (arg_name 0).
      split; [left; apply arg_names_in; eauto|]. split; [eexists; split; [apply (LX 0 L0)|]; apply names_in_iff; cbn; tauto|].
      intros Q. rewrite (DX 0 L0), Q. apply ST; [cbn; tauto|]. left. apply ST; [cbn; tauto|]. left. reflexivity.
    - apply in_map_iff in I. destruct I as ([n s'] & _ & I). apply (List.in_map fst) in I. cbn in I. exists n.
      split; [auto|]. split; [eexists; split; [apply (LY n I)|]; apply names_in_iff; cbn; tauto|].
      intros Q. rewrite (DY n I), Q. apply ST; [cbn; tauto|]. left. apply ST; [cbn; tauto|]. left. reflexivity. }
  destruct SOMEONE as (n0 & N0 & (q0 & L0 & O0) & Z0).
  assert (R0 : reachable g computed_variables).
  { eapply rt_trans; [apply (RR n0); tauto|]. apply rt_step. exists q0. auto. }
  assert (LC := proj2 (VL computed_variables _ (or_intror (or_intror (or_introl eq_refl))))). cbn [snd] in LC.
  assert (R1 : reachable g compute_variables).
  { eapply rt_trans; [exact R0|]. apply rt_step. eexists. split; [exact LC|]. apply names_in_iff. cbn. tauto. }
  assert (LH := proj2 (VL compute_variables _ (or_intror (or_introl eq_refl)))). cbn [snd] in LH.
  assert (DH := D _ _ R1 LH). cbn iota in DH.
  assert (DC : NoDup (map fst kw) -> den computed_variables =
            match call b h (pos ++ map snd kw) (map fst kw) with Ok w => if has_type vt w then Some w else None | Err _ => None end).
  { intros NK. rewrite (D _ _ R0 LC). cbn [FunctorModel.eval map].
    change (FunctorModel.eval token eval_op (fun c n => if String.eqb c "V" then den n else lookup n (ins V bag bag_value tuple_value named_value b pos kw)) (variable compute_variables)) with (den compute_variables).
    rewrite DH. cbn [String.eqb]. change (eval_op (o_call ops) [Some (with_bag b (object_of h)); Some (tuple_value pos); Some vt; Some (named_value kw); Some token] =
      match call b h (pos ++ map snd kw) (map fst kw) with Ok w => if has_type vt w then Some w else None | Err _ => None end).
    rewrite (of_call _ _ _ _ _ _ _ _ _ _ _ comp) by exact NK. apply RUNS. }
  assert (MAIN : forall avs kvs, NoDup (map fst kw) -> outcomes b pos kw avs kvs ->
            den computed_variables = Some (tuple_value [tuple_value avs; named_value kvs]) ->
            den "returns" = apply rt fv (avs ++ pos) (override kvs kw)).
  { intros avs kvs NK [FA FK] Q.
    assert (KN : map fst kwargs = map fst kvs).
    { clear - FK. induction FK as [|x y l l' [E _] _ IH]; cbn; [reflexivity|f_equal; [exact E|exact IH]]. }
    assert (LA : length avs = length args) by (clear - FA; induction FA; cbn; congruence).
    rewrite (D "returns" _ (rt_refl _ _ _) (r_returns _ _ _ _ R)). rewrite KN.
    apply (eval_lam V op bag ops token eval_op bag_value tuple_value named_value names_value number_value text_value apply comp b pos kw den rt names kvs fv avs NK).
    - rewrite <- KN. apply good.
    - destruct (VL aux_fn fn (or_introl eq_refl)) as [_ L].
      apply (item_value_den V op bag token eval_op with_bag b g den _ "_aux_fn" (snd fn) fv D); [apply RR; auto|exact L|exact FV].
    - unfold arg_names. rewrite map_map. rewrite <- LA.
      assert (G : forall i x, nth_error avs i = Some x -> den (arg_name i) = Some x).
      { intros i x I. assert (i < length args) by (rewrite <- LA; apply nth_error_Some; congruence).
        rewrite DX by assumption. rewrite Q. rewrite (of_nth _ _ _ _ _ _ _ _ _ _ _ comp _ 0 (tuple_value avs)) by reflexivity.
        apply (of_nth _ _ _ _ _ _ _ _ _ _ _ comp). exact I. }
      clear - G. revert G. change (forall i x, nth_error avs i = Some x -> den (arg_name i) = Some x) with
        (forall i x, nth_error avs i = Some x -> den (arg_name (0 + i)) = Some x). generalize 0 as k. induction avs as [|y l IH]; intros k G; cbn; [reflexivity|].
      f_equal; [specialize (G 0 y eq_refl); rewrite Nat.add_0_r in G; exact G|]. apply IH. intros i x E. specialize (G (S i) x E).
      rewrite Nat.add_succ_r in G. exact G.
    - apply forall2_map_some. assert (G : forall n x, In (n, x) kvs -> den n = Some x).
      { intros n x I. assert (J : In n (map fst kwargs)) by (rewrite KN; change n with (fst (n, x)); apply List.in_map; exact I).
        rewrite DY by exact J. rewrite Q. rewrite (of_nth _ _ _ _ _ _ _ _ _ _ _ comp _ 1 (named_value kvs)) by reflexivity.
        apply (of_field _ _ _ _ _ _ _ _ _ _ _ comp); [rewrite <- KN; apply good|exact I]. }
      clear - G. induction kvs as [|[n x] l IH]; cbn; constructor; [apply G; left; reflexivity|]. apply IH. intros m y I. apply G. right. exact I. }
  split.
  - intros [NK DR].
    assert (ND0 : den n0 <> None).
    { rewrite (D "returns" _ (rt_refl _ _ _) (r_returns _ _ _ _ R)) in DR.
      apply (eval_lam_strict V op bag ops token eval_op bag_value tuple_value named_value names_value number_value text_value apply comp b pos kw den rt names (map fst kwargs) v DR n0 N0). }
    assert (DC' := DC NK). destruct (call b h (pos ++ map snd kw) (map fst kw)) as [w|e] eqn:CH; [|exfalso; apply ND0; apply Z0; exact DC'].
    destruct (has_type vt w) eqn:HT; [|exfalso; apply ND0; apply Z0; exact DC'].
    apply (h_call h MH b pos kw w) in CH. destruct CH as (_ & A & B & avs & kvs & O & ->).
    split; [exact NK|]. split; [exact A|]. split; [exact B|]. exists avs, kvs. split; [exact O|]. split; [exact HT|].
    rewrite <- (MAIN avs kvs NK O DC'). exact DR.
  - intros (NK & A & B & avs & kvs & O & HT & AP). split; [exact NK|].
    assert (CH : call b h (pos ++ map snd kw) (map fst kw) = Ok (tuple_value [tuple_value avs; named_value kvs])).
    { apply (h_call h MH). split; [exact NK|]. split; [exact A|]. split; [exact B|]. exists avs, kvs. auto. }
    rewrite (MAIN avs kvs NK O); [exact AP|]. rewrite (DC NK), CH, HT. reflexivity.
Qed.
End Expressions.
