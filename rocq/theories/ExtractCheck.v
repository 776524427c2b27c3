(** A checker for the hypotheses of the theorems about kd.extract, for the
    examples: it looks at a finite set of nodes that is closed under
    reachability. *)

From Coq Require Import String List NArith Arith Bool Lia.
From Verif Require Import ExtractModel ExtractSpec ExtractTermination ExtractProofs.
Import ListNotations.
Open Scope list_scope.

Definition node_eq_dec (a b : node) : {a = b} + {a <> b}.
Proof. decide equality; apply id_eq_dec. Defined.

Section Check.
  Variables (src : bag) (ds : list item) (sch : item) (real : alloc -> nat) (nodes : list node).

  Definition has (n : node) : bool := if in_dec node_eq_dec n nodes then true else false.
  Lemma has_iff n : has n = true <-> In n nodes.
  Proof. unfold has. destruct (in_dec node_eq_dec n nodes); intuition congruence. Qed.

  Definition follow_b (s : id) : bool := match a_kind (i_alloc s) with KSchema false => true | _ => false end.
  Lemma follow_iff s : follow_b s = true <-> follow s.
  Proof. unfold follow_b, follow. destruct (a_kind (i_alloc s)) as [| | |[|]]; split; intros H; try reflexivity; discriminate. Qed.

  Definition eqs (a b : string) : bool := if string_dec a b then true else false.
  Lemma eqs_iff a b : eqs a b = true <-> a = b.
  Proof. unfold eqs. destruct (string_dec a b); intuition congruence. Qed.
  Lemma eqs_not a b : eqs a b = false <-> a <> b.
  Proof. unfold eqs. destruct (string_dec a b); intuition congruence. Qed.

  Definition regular_b (a : string) : bool :=
    negb (eqs a kItems || eqs a kKeys || eqs a kValues || eqs a kName || eqs a kMetadata).
  Lemma regular_iff a : regular_b a = true <-> regular a.
  Proof.
    unfold regular_b, regular. rewrite negb_true_iff, !orb_false_iff, !eqs_not. tauto.
  Qed.

  Definition enter_b (it t : item) : bool :=
    match it, t with
    | IId x, IId s => has (Inst x s)
    | IId x, IDType TObject => has (Obj x)
    | IId x, IDType TSchema => has (Sch x)
    | _, _ => true
    end.
  Lemma enter_ok it t n : enter_b it t = true -> enters it t n -> In n nodes.
  Proof. intros H K. destruct K; apply has_iff; exact H. Qed.

  Definition all_names (s : id) (f : string -> option item -> bool) : bool :=
    forallb (fun a => match get_schema src s a with Some c => f a c | None => true end) (schema_names src s).
  Lemma all_names_ok s f a c : all_names s f = true -> get_schema src s a = Some c -> f a c = true.
  Proof.
    unfold all_names. rewrite forallb_forall. intros H G.
    assert (K : In a (schema_names src s)) by (apply schema_names_in; congruence).
    specialize (H a K). rewrite G in H. exact H.
  Qed.

  Definition all_keys (x : id) (f : item -> option item -> bool) : bool :=
    forallb (fun k => match get_dict src x k with Some c => f k c | None => true end) (dict_keys src x).
  Lemma all_keys_ok x f k c : all_keys x f = true -> get_dict src x k = Some c -> f k c = true.
  Proof.
    unfold all_keys. rewrite forallb_forall. intros H G.
    assert (K : In k (dict_keys src x)) by (apply dict_keys_in; congruence).
    specialize (H k K). rewrite G in H. exact H.
  Qed.

  Definition over_list (x : id) (f : item -> bool) : bool :=
    match get_list src x with
    | Some l => forallb (fun c => match c with Some it => f it | None => true end) l
    | None => true
    end.
  Lemma over_list_ok x f l it : over_list x f = true -> get_list src x = Some l -> In (Some it) l -> f it = true.
  Proof. unfold over_list. intros H G K. rewrite G in H. rewrite forallb_forall in H. apply (H _ K). Qed.

  Definition fits_b (it t : item) : bool :=
    match t with
    | IId _ => match it with IId _ => true | _ => false end
    | IDType (TPrim p) => match it with IPrim p' _ => N.eqb p' p | _ => false end
    | _ => true
    end.
  Lemma fits_ok it t : fits_b it t = true -> fits it t.
  Proof.
    destruct t as [s|p v|[| | |p]]; cbn; auto.
    - destruct it; try discriminate. eauto.
    - destruct it as [| p' v|]; try discriminate. intros H. apply N.eqb_eq in H. subst. eauto.
  Qed.
  Definition type_b (t : item) : bool := match t with IPrim _ _ => false | _ => true end.
  Lemma type_ok t : type_b t = true -> is_type t.
  Proof. destruct t; cbn; auto. discriminate. Qed.

  (** The data of an item, read with a schema: [f] gets the values with their
      types. *)
  Definition inst_data (f : item -> item -> bool) (x s : id) : bool :=
    negb (follow_b s) || all_names s (fun a c =>
      match c with
      | None => true
      | Some t =>
          if regular_b a then match value src x a with Some it => f it t | None => true end
          else if eqs a kItems then over_list x (fun it => f it t)
          else if eqs a kKeys then all_keys x (fun k _ => f k t)
          else if eqs a kValues then all_keys x (fun _ c => match c with Some it => f it t | None => true end)
          else true
      end).

  Lemma inst_data_ok f x s : inst_data f x s = true -> follow s ->
    (forall a t it, regular a -> typed src s a t -> value src x a = Some it -> f it t = true) /\
    (forall t l it, typed src s kItems t -> get_list src x = Some l -> In (Some it) l -> f it t = true) /\
    (forall t k, typed src s kKeys t -> get_dict src x k <> None -> f k t = true) /\
    (forall t k it, typed src s kValues t -> get_dict src x k = Some (Some it) -> f it t = true).
  Proof.
    intros H F. unfold inst_data in H. apply follow_iff in F. rewrite F in H. cbn [negb orb] in H.
    split; [|split; [|split]].
    - intros a t it G T V. pose proof (all_names_ok _ _ _ _ H T) as K. cbn beta iota in K.
      apply regular_iff in G. rewrite G, V in K. exact K.
    - intros t l it T V J. pose proof (all_names_ok _ _ _ _ H T) as K. cbn beta iota in K.
      change (over_list x (fun it => f it t) = true) in K. apply (over_list_ok _ _ _ _ K V J).
    - intros t k T V. pose proof (all_names_ok _ _ _ _ H T) as K. cbn beta iota in K.
      change (all_keys x (fun k _ => f k t) = true) in K. destruct (get_dict src x k) as [c|] eqn:G; [|congruence].
      apply (all_keys_ok _ _ _ _ K G).
    - intros t k it T V. pose proof (all_names_ok _ _ _ _ H T) as K. cbn beta iota in K.
      change (all_keys x (fun _ c => match c with Some it => f it t | None => true end) = true) in K.
      apply (all_keys_ok _ _ _ _ K V).
  Qed.

  (** The nodes are closed under reachability. *)
  Definition closed_node (n : node) : bool :=
    match n with
    | Obj x => match value src x kSchemaAttr with Some (IId s) => has (Inst x s) | _ => true end
    | Inst x s => has (Sch s) && inst_data enter_b x s
    | Sch s =>
        negb (follow_b s) || all_names s (fun a c =>
          match c with
          | None => true
          | Some t =>
              if eqs a kMetadata then enter_b t (IDType TObject)
              else if eqs a kName then true
              else match t with IId s => has (Sch s) | _ => true end
          end)
    end.
  Definition closed : bool :=
    forallb (fun it => enter_b it sch) ds && match sch with IId s => has (Sch s) | _ => true end &&
    forallb closed_node nodes.

  Lemma closed_ok n : closed = true -> reach src ds sch n -> In n nodes.
  Proof.
    unfold closed. rewrite !andb_true_iff, !forallb_forall. intros [[H1 H2] H3] H. induction H.
    - apply (enter_ok it sch n (H1 it H) H0).
    - subst sch. apply has_iff. exact H2.
    - specialize (H3 _ IHreach). cbn [closed_node] in H3. rewrite H0 in H3. apply has_iff. exact H3.
    - specialize (H3 _ IHreach). cbn [closed_node] in H3. apply andb_true_iff in H3. apply has_iff, H3.
    - specialize (H3 _ IHreach). cbn [closed_node] in H3. apply andb_true_iff in H3. destruct H3 as [_ H3].
      apply (enter_ok it t n); [|assumption]. apply (inst_data_ok enter_b x s H3 H0) with (a := a); auto.
    - specialize (H3 _ IHreach). cbn [closed_node] in H3. apply andb_true_iff in H3. destruct H3 as [_ H3].
      apply (enter_ok it t n); [|assumption]. apply (inst_data_ok enter_b x s H3 H0) with (l := l); auto.
    - specialize (H3 _ IHreach). cbn [closed_node] in H3. apply andb_true_iff in H3. destruct H3 as [_ H3].
      apply (enter_ok k t n); [|assumption]. apply (inst_data_ok enter_b x s H3 H0); auto.
    - specialize (H3 _ IHreach). cbn [closed_node] in H3. apply andb_true_iff in H3. destruct H3 as [_ H3].
      apply (enter_ok it t n); [|assumption]. apply (inst_data_ok enter_b x s H3 H0) with (k := k); auto.
    - specialize (H3 _ IHreach). cbn [closed_node] in H3. apply follow_iff in H0. rewrite H0 in H3. cbn [negb orb] in H3.
      pose proof (all_names_ok _ _ _ _ H3 H4) as K. cbn beta iota in K. destruct H5 as [t n E|a' s' N M].
      + change (enter_b t (IDType TObject) = true) in K. apply (enter_ok _ _ _ K E).
      + apply eqs_not in N. apply eqs_not in M. rewrite N, M in K. apply has_iff. exact K.
  Qed.

  Definition no_regular (s : id) : bool :=
    all_names s (fun a c => match c with Some _ => negb (regular_b a) | None => true end).
  Lemma no_regular_ok s a t : no_regular s = true -> regular a -> ~ typed src s a t.
  Proof.
    intros H G T. pose proof (all_names_ok _ _ _ _ H T) as K. cbn beta iota in K. apply regular_iff in G.
    rewrite G in K. discriminate.
  Qed.

  Definition is_none {A} (o : option A) : bool := match o with None => true | _ => false end.
  Lemma is_none_iff {A} (o : option A) : is_none o = true <-> o = None.
  Proof. destruct o; cbn; intuition congruence. Qed.

  Definition typed_b (s : id) (a : string) (t : item) : bool :=
    match get_schema src s a with Some (Some t') => if item_eq_dec t t' then true else false | _ => false end.
  Lemma typed_iff s a t : typed_b s a t = true <-> typed src s a t.
  Proof.
    unfold typed_b, typed. destruct (get_schema src s a) as [[t'|]|]; try (split; intros H; discriminate H).
    destruct (item_eq_dec t t') as [->|N]; [tauto|]. split; intros H; [discriminate H|congruence].
  Qed.
  Definition untyped_b (s : id) (a : string) : bool :=
    match get_schema src s a with Some (Some _) => false | _ => true end.

  Definition check_schema (s : id) : bool :=
    (match a_kind (i_alloc s) with KSchema _ => true | _ => false end) &&
    (negb (follow_b s) ||
     (all_names s (fun a c => match c with
        | Some t => eqs a kName || eqs a kMetadata || type_b t
        | None => negb (eqs a kItems || eqs a kKeys || eqs a kValues) end) &&
      is_none (get_schema src s kSchemaAttr) &&
      (is_none (get_schema src s kItems) ||
        (is_none (get_schema src s kKeys) && is_none (get_schema src s kValues) && no_regular s)) &&
      ((is_none (get_schema src s kKeys) && is_none (get_schema src s kValues)) ||
        (negb (is_none (get_schema src s kKeys)) && negb (is_none (get_schema src s kValues)) && no_regular s)))).

  Definition check_inst (x s : id) : bool :=
    forallb (fun n => match n with Inst x' s' => if id_eq_dec x x' then if id_eq_dec s s' then true else false else true | _ => true end) nodes &&
    (match a_kind (i_alloc x) with KSchema _ => false | _ => true end) &&
    inst_data fits_b x s &&
    (negb (follow_b s) ||
     ((is_none (get_schema src s kItems) || match a_kind (i_alloc x) with KList => true | _ => false end) &&
      (is_none (get_schema src s kKeys) || match a_kind (i_alloc x) with KDict => true | _ => false end))) &&
    Nat.ltb (i_off x) (real (i_alloc x)).

  Definition obj_schema (x : id) : option id :=
    match value src x kSchemaAttr with Some (IId s) => Some s | _ => None end.

  Definition check_obj (x : id) : bool :=
    match obj_schema x with
    | None => false
    | Some s =>
        follow_b s &&
        forallb (fun l =>
          forallb (fun e => let '((x', a), _) := e in
             negb (if id_eq_dec x x' then true else false) || negb (regular_b a) || eqs a kSchemaAttr || negb (untyped_b s a)) (l_attrs l) &&
          forallb (fun e => let '((al, a), _) := e in
             negb (if alloc_eq_dec (i_alloc x) al then true else false) || negb (regular_b a) || eqs a kSchemaAttr || negb (untyped_b s a)) (l_dense l)) src &&
        (small (i_alloc s) || forallb (fun n => match n with
           | Obj x' => match obj_schema x' with
               | Some s' => (if alloc_eq_dec (i_alloc s) (i_alloc s') then false else true) ||
                   all_names s (fun a c => match c with
                     | Some t => eqs a kName || eqs a kMetadata || typed_b s' a t || (regular_b a && untyped_b s' a)
                     | None => true end)
               | None => true
               end
           | _ => true end) nodes)
    end.

  Definition check_node (n : node) : bool :=
    match n with Inst x s => check_inst x s | Obj x => check_obj x | Sch s => check_schema s end.

  Definition check : bool :=
    closed && type_b sch && forallb (fun it => fits_b it sch) ds && forallb check_node nodes &&
    forallb (fun l => forallb (fun e => Nat.eqb (List.length (snd e)) (real (fst (fst e))) ||
                                        Nat.eqb (List.length (snd e)) (a_cap (fst (fst e)))) (l_dense l)) src.

  Lemma check_ok : check = true -> (forall al, real al <= a_cap al) -> well_formed src ds sch real.
  Proof.
    unfold check. rewrite !andb_true_iff, !forallb_forall. intros [[[[HC HT] HD] HN] HL] HR.
    assert (RN : forall n, reach src ds sch n -> check_node n = true) by (intros n H; apply HN, (closed_ok n HC H)).
    assert (SC : forall s, reach src ds sch (Sch s) -> follow s ->
      all_names s (fun a c => match c with
        | Some t => eqs a kName || eqs a kMetadata || type_b t
        | None => negb (eqs a kItems || eqs a kKeys || eqs a kValues) end) = true /\
      get_schema src s kSchemaAttr = None /\
      (get_schema src s kItems = None \/
        (get_schema src s kKeys = None /\ get_schema src s kValues = None /\ no_regular s = true)) /\
      ((get_schema src s kKeys = None /\ get_schema src s kValues = None) \/
        (get_schema src s kKeys <> None /\ get_schema src s kValues <> None /\ no_regular s = true))).
    { intros s H F. specialize (RN _ H). cbn [check_node] in RN. unfold check_schema in RN. apply follow_iff in F.
      rewrite F in RN. cbn [negb orb] in RN.
      rewrite !andb_true_iff, !orb_true_iff, !andb_true_iff, !negb_true_iff, !is_none_iff in RN.
      assert (NN : forall A (o : option A), is_none o = false -> o <> None) by (intros A [o|]; cbn; congruence).
      destruct RN as [_ [[[R1 R2] R3] R4]]. split; [exact R1|]. split; [exact R2|]. split; [tauto|].
      destruct R4 as [R4|[[R4 R5] R6]]; [left; exact R4|right]. auto. }
    assert (IN : forall x s, reach src ds sch (Inst x s) ->
      (forall s', In (Inst x s') nodes -> s = s') /\ ~ is_schema_id x /\ inst_data fits_b x s = true /\
      (follow s -> get_schema src s kItems <> None -> a_kind (i_alloc x) = KList) /\
      (follow s -> get_schema src s kKeys <> None -> a_kind (i_alloc x) = KDict) /\
      i_off x < real (i_alloc x)).
    { intros x s H. specialize (RN _ H). cbn [check_node] in RN. unfold check_inst in RN.
      rewrite !andb_true_iff in RN. destruct RN as [[[[R1 R2] R3] R4] R5]. split; [|split; [|split; [|split; [|split]]]].
      - intros s' K. rewrite forallb_forall in R1. specialize (R1 _ K). cbn beta iota in R1.
        destruct (id_eq_dec x x); [|congruence]. destruct (id_eq_dec s s'); [assumption|discriminate].
      - intros [f K]. rewrite K in R2. discriminate.
      - exact R3.
      - intros F K. apply follow_iff in F. rewrite F in R4. cbn [negb orb] in R4. apply andb_true_iff in R4.
        destruct R4 as [R4 _]. destruct (get_schema src s kItems); [|congruence]. cbn [is_none orb] in R4.
        destruct (a_kind (i_alloc x)); try discriminate; reflexivity.
      - intros F K. apply follow_iff in F. rewrite F in R4. cbn [negb orb] in R4. apply andb_true_iff in R4.
        destruct R4 as [_ R4]. destruct (get_schema src s kKeys); [|congruence]. cbn [is_none orb] in R4.
        destruct (a_kind (i_alloc x)); try discriminate; reflexivity.
      - apply Nat.ltb_lt. exact R5. }
    constructor.
    - apply type_ok. exact HT.
    - intros it H. apply fits_ok, HD, H.
    - intros s H. specialize (RN _ H). cbn [check_node] in RN. unfold check_schema in RN. apply andb_true_iff in RN.
      destruct RN as [R1 _]. unfold is_schema_id. destruct (a_kind (i_alloc s)) as [| | |f]; try discriminate. exists f. reflexivity.
    - intros s a t H F N M T. destruct (SC s H F) as [K _]. apply (all_names_ok _ _ _ _ K) in T. cbn beta iota in T.
      apply eqs_not in N. apply eqs_not in M. rewrite N, M in T. apply type_ok. exact T.
    - intros s a H F Ha T. destruct (SC s H F) as [K _]. apply (all_names_ok _ _ _ _ K) in T. cbn beta iota in T.
      destruct Ha as [->|[->| ->]]; discriminate T.
    - intros s H F. apply (SC s H F).
    - intros s t H F T. destruct (SC s H F) as [_ [_ [[K|[K1 [K2 K3]]] _]]]; [unfold typed in T; congruence|].
      split; [exact K1|]. split; [exact K2|]. intros a t'. apply no_regular_ok. exact K3.
    - intros s H F T. destruct (SC s H F) as [_ [_ [_ [[K1 K2]|[K1 [K2 K3]]]]]]; [destruct T; congruence|].
      split; [exact K1|]. split; [exact K2|]. intros a t'. apply no_regular_ok. exact K3.
    - intros x s s' H H'. apply (IN x s H). apply (closed_ok _ HC H').
    - intros x s H. apply (IN x s H).
    - intros x s a t it H F G T V. apply fits_ok. apply (inst_data_ok fits_b x s) with (a := a); auto. apply (IN x s H).
    - intros x s t H F T. apply (IN x s H); [exact F|]. unfold typed in T. congruence.
    - intros x s t l it H F T G J. apply fits_ok. apply (inst_data_ok fits_b x s) with (l := l); auto. apply (IN x s H).
    - intros x s t H F T. apply (IN x s H); [exact F|]. unfold typed in T. congruence.
    - intros x s t k H F T G. apply fits_ok. apply (inst_data_ok fits_b x s); auto. apply (IN x s H).
    - intros x s t k it H F T G. apply fits_ok. apply (inst_data_ok fits_b x s) with (k := k); auto. apply (IN x s H).
    - intros x H. specialize (RN _ H). cbn [check_node] in RN. unfold check_obj, obj_schema in RN.
      destruct (value src x kSchemaAttr) as [[s| |]|]; try discriminate. exists s. split; [reflexivity|].
      rewrite !andb_true_iff in RN. apply follow_iff. apply RN.
    - intros x s a v H V G N A. specialize (RN _ H). cbn [check_node] in RN. unfold check_obj, obj_schema in RN.
      rewrite V in RN. rewrite !andb_true_iff in RN. destruct RN as [[_ R] _]. rewrite forallb_forall in R.
      apply regular_iff in G. apply eqs_not in N.
      assert (TY : untyped_b s a = false -> exists t, typed src s a t).
      { unfold untyped_b, typed. destruct (get_schema src s a) as [[t|]|]; try discriminate. eauto. }
      unfold value in A. destruct (get_attr src x a) as [[v'|]|] eqn:GA; try discriminate.
      unfold get_attr in GA. apply first_mem in GA. destruct GA as [l [Il GA]]. specialize (R l Il).
      apply andb_true_iff in R. destruct R as [R1 R2]. rewrite forallb_forall in R1, R2.
      unfold layer_attr in GA. destruct (find_key key_eq_dec (x, a) (l_attrs l)) as [c|] eqn:FK.
      + apply find_key_mem in FK. specialize (R1 _ FK). cbn beta iota in R1. rewrite G, N in R1.
        destruct (id_eq_dec x x); [|congruence]. cbn [negb orb] in R1. apply negb_true_iff in R1. auto.
      + destruct (find_key akey_eq_dec (i_alloc x, a) (l_dense l)) as [d|] eqn:FD; [|discriminate].
        apply find_key_mem in FD. specialize (R2 _ FD). cbn beta iota in R2. rewrite G, N in R2.
        destruct (alloc_eq_dec (i_alloc x) (i_alloc x)); [|congruence]. cbn [negb orb] in R2. apply negb_true_iff in R2. auto.
    - intros x s x' s' a t H V H' V' Ea Sm N M T. pose proof (closed_ok _ HC H') as In'.
      specialize (RN _ H). cbn [check_node] in RN. unfold check_obj in RN.
      assert (O : obj_schema x = Some s) by (unfold obj_schema; rewrite V; reflexivity).
      assert (O' : obj_schema x' = Some s') by (unfold obj_schema; rewrite V'; reflexivity).
      rewrite O in RN. rewrite !andb_true_iff in RN. destruct RN as [_ R]. rewrite Sm in R. cbn [orb] in R.
      rewrite forallb_forall in R. specialize (R _ In'). cbn beta iota in R. rewrite O' in R.
      destruct (alloc_eq_dec (i_alloc s) (i_alloc s')); [|congruence]. cbn [orb] in R.
      pose proof (all_names_ok _ _ _ _ R T) as K. cbn beta iota in K. apply eqs_not in N. apply eqs_not in M.
      rewrite N, M in K. cbn [orb] in K. apply orb_true_iff in K. destruct K as [K|K].
      + left. apply typed_iff. exact K.
      + right. apply andb_true_iff in K. destruct K as [K1 K2]. split; [apply regular_iff; exact K1|].
        intros t' T'. unfold untyped_b in K2. unfold typed in T'. rewrite T' in K2. discriminate.
    - intros x s H. apply (IN x s H).
    - exact HR.
    - intros l al a vs Il J. specialize (HL l Il). rewrite forallb_forall in HL. specialize (HL _ J). cbn [fst snd] in HL.
      apply orb_true_iff in HL. destruct HL as [HL|HL]; apply Nat.eqb_eq in HL; auto.
  Qed.
End Check.
