(** Proofs about schema promotion. *)
From Coq Require Import NArith List Bool Lia Arith.
From Verif Require Import ObjectIdModel ObjectIdProofs SchemaModel SchemaSpec.
Import ListNotations.
Open Scope N_scope.

(** ** The order on dtypes, decided *)
Definition leb (a b : dtype) : bool := at_mat reachable (type_id a) (type_id b).

Lemma leb_spec a b : leb a b = true <-> promotes a b.
Proof.
  unfold promotes. split.
  - destruct a, b; intros H; try discriminate H; auto;
      try (right; right; left; split; [reflexivity | split; discriminate]);
      right; right; right; do 2 eexists; split; try reflexivity; split; try reflexivity; lia.
  - intros [<- | [-> | [(-> & H1 & H2) | (x & y & H1 & H2 & H3)]]].
    + destruct a; reflexivity.
    + destruct b; reflexivity.
    + destruct a; try reflexivity; congruence.
    + destruct a, b; try discriminate; cbn in *; inversion H1; inversion H2; subst; try reflexivity; lia.
Qed.

Lemma in_all d : In d all_dtypes.
Proof. destruct d; cbn; auto 20. Qed.

Lemma of_type_id d : of_id (type_id d) = Some d.
Proof. destruct d; reflexivity. Qed.

Lemma type_id_inj a b : type_id a = type_id b -> a = b.
Proof. intros H. generalize (of_type_id a). rewrite H, of_type_id. congruence. Qed.

Lemma of_id_type i d : of_id i = Some d -> type_id d = i.
Proof.
  unfold of_id. intros H. apply find_some in H. destruct H as [_ H]. now apply N.eqb_eq.
Qed.

Lemma promotes_refl a : promotes a a. Proof. now left. Qed.
Lemma leb_trans a b c : leb a b = true -> leb b c = true -> leb a c = true.
Proof. destruct a, b, c; intros H1 H2; try reflexivity; try discriminate H1; discriminate H2. Qed.
Lemma leb_antisym a b : leb a b = true -> leb b a = true -> a = b.
Proof. destruct a, b; intros H1 H2; try reflexivity; try discriminate H1; discriminate H2. Qed.

(** ** The loop of the aggregator, over every mask *)
Definition is_ub (m : N) (u : dtype) : bool :=
  forallb (fun a => implb (N.testbit m (type_id a)) (leb a u)) all_dtypes.

Definition check (m : N) : bool :=
  match agg_get m with
  | GNone => m =? 0
  | GErr (ENoCommon _ _) => forallb (fun u => negb (is_ub m u)) all_dtypes
  | GErr ENotSchema => false
  | GId i =>
      match of_id i with
      | None => false
      | Some d => negb (m =? 0) && is_ub m d && forallb (fun u => implb (is_ub m u) (leb d u)) all_dtypes
      end
  end.

Fixpoint masks (k : nat) : list N :=
  match k with
  | O => [0]
  | S k => masks k ++ map (fun m => m + 2 ^ N.of_nat k) (masks k)
  end.

Lemma in_masks k : forall m, m < 2 ^ N.of_nat k -> In m (masks k).
Proof.
  induction k; intros m H.
  - left. cbn in H. lia.
  - replace (N.of_nat (S k)) with (N.succ (N.of_nat k)) in H by lia.
    rewrite N.pow_succ_r' in H. cbn [masks]. apply in_or_app.
    destruct (N.ltb_spec m (2 ^ N.of_nat k)).
    + left. auto.
    + right. apply in_map_iff. exists (m - 2 ^ N.of_nat k). split; [lia|]. apply IHk. lia.
Qed.

Lemma checked : forallb (fun m => N.testbit m 9 || check m) (masks 14) = true.
Proof. vm_compute. reflexivity. Qed.

Lemma check_all m : m < 2 ^ 14 -> N.testbit m 9 = false -> check m = true.
Proof.
  intros H H9. pose proof checked as C. rewrite forallb_forall in C.
  specialize (C m (in_masks 14 m H)). now rewrite H9 in C.
Qed.

Lemma is_ub_spec m u : is_ub m u = true <-> forall a, N.testbit m (type_id a) = true -> promotes a u.
Proof.
  unfold is_ub. rewrite forallb_forall. split.
  - intros H a Ha. specialize (H a (in_all a)). rewrite Ha in H. now apply leb_spec.
  - intros H a _. destruct (N.testbit m (type_id a)) eqn:E; [|reflexivity].
    apply leb_spec; auto.
Qed.

Inductive agg_get_spec (m : N) : got -> Prop :=
  | ags_none : m = 0 -> agg_get_spec m GNone
  | ags_id d : m <> 0 -> (forall a, N.testbit m (type_id a) = true -> promotes a d) ->
      (forall u, (forall a, N.testbit m (type_id a) = true -> promotes a u) -> promotes d u) ->
      agg_get_spec m (GId (type_id d))
  | ags_err a b : (forall u, ~ forall a, N.testbit m (type_id a) = true -> promotes a u) ->
      agg_get_spec m (GErr (ENoCommon a b)).

Lemma agg_get_ok m : m < 2 ^ 14 -> N.testbit m 9 = false -> agg_get_spec m (agg_get m).
Proof.
  intros H H9. generalize (check_all m H H9). unfold check.
  destruct (agg_get m) as [|i|[|a b]]; intros C.
  - apply N.eqb_eq in C. now constructor.
  - destruct (of_id i) as [d|] eqn:E; [|discriminate].
    apply of_id_type in E. subst i.
    rewrite !andb_true_iff, negb_true_iff, N.eqb_neq, is_ub_spec, forallb_forall in C.
    destruct C as ((C0 & C1) & C2). apply ags_id; auto.
    intros u Hu. apply leb_spec. specialize (C2 u (in_all u)).
    apply is_ub_spec in Hu. now rewrite Hu in C2.
  - discriminate.
  - rewrite forallb_forall in C. apply ags_err. intros u Hu.
    specialize (C u (in_all u)). apply is_ub_spec in Hu. now rewrite Hu in C.
Qed.

(** ** What the aggregator has seen *)
Record seen_inv (l : list item) (s : aggregator) : Prop := {
  si_bits : forall d, N.testbit (seen_dtypes s) (type_id d) = true <-> In (IDType d) l;
  si_only : forall i, N.testbit (seen_dtypes s) i = true -> exists d, i = type_id d;
  si_obj : match res_object_id s with
           | None => forall o, In (IObj o) l -> is_schema o = false
           | Some r => In (IObj r) l /\ is_schema r = true
           end;
  si_status : status s = None <->
              (forall x, In x l -> ~ not_a_schema x) /\
              (forall o, In (IObj o) l -> res_object_id s = Some o)
}.

Lemma shift_bit d i : N.testbit (N.shiftl 1 (type_id d) mod 2 ^ 16) i = (i =? type_id d).
Proof.
  rewrite N.mod_small by (destruct d; reflexivity).
  rewrite N.shiftl_1_l, N.pow2_bits_eqb. apply N.eqb_sym.
Qed.

Lemma mask_add_bit m d i : N.testbit (mask_add m d) i = N.testbit m i || (i =? type_id d).
Proof. unfold mask_add. now rewrite N.lor_spec, shift_bit. Qed.

Lemma agg_add_inv l s x : Forall item_wf l -> item_wf x -> seen_inv l s -> seen_inv (l ++ [x]) (agg_add s x).
Proof.
  intros Wl Wx [B O J S].
  assert (IN : forall y, In y (l ++ [x]) <-> In y l \/ x = y).
  { intros y. rewrite in_app_iff. cbn. tauto. }
  destruct x as [|d|o|]; cbn [agg_add].
  - split.
    + intros d. rewrite IN, B. intuition discriminate.
    + exact O.
    + destruct (res_object_id s).
      * rewrite IN. tauto.
      * intros o. rewrite IN. intros [H|H]; [auto|discriminate].
    + rewrite S. setoid_rewrite IN. split; intros [H1 H2]; split.
      * intros x [Hx | <-]; auto.
      * intros o [Ho|Ho]; [auto|discriminate].
      * intros x Hx. auto.
      * intros o Ho. auto.
  - split; cbn [seen_dtypes res_object_id status].
    + intros e. rewrite IN, mask_add_bit, orb_true_iff, B, N.eqb_eq.
      split; intros [H|H]; auto.
      * right. now apply type_id_inj in H as ->.
      * right. congruence.
    + intros i. rewrite mask_add_bit, orb_true_iff, N.eqb_eq. intros [H|H]; eauto.
    + destruct (res_object_id s).
      * rewrite IN. tauto.
      * intros o. rewrite IN. intros [H|H]; [auto|discriminate].
    + rewrite S. setoid_rewrite IN. split; intros [H1 H2]; split.
      * intros x [Hx | <-]; auto.
      * intros o [Ho|Ho]; [auto|discriminate].
      * intros x Hx. auto.
      * intros o Ho. auto.
  - unfold agg_add_object. destruct (is_schema o) eqn:Es; cbn [negb].
    + destruct (res_object_id s) as [r|] eqn:Er.
      * destruct J as [J1 J2].
        assert (Wr : wf r). { rewrite Forall_forall in Wl. exact (Wl _ J1). }
        destruct (oid_eqb r o) eqn:Eq; cbn [negb].
        -- apply (oid_eqb_spec r o Wr Wx) in Eq. subst o. split.
           ++ intros d. rewrite IN, B. intuition discriminate.
           ++ exact O.
           ++ rewrite Er, IN. tauto.
           ++ rewrite S, Er. setoid_rewrite IN. split; intros [H1 H2]; split.
              ** intros x [Hx | <-]; [auto | cbn; congruence].
              ** intros o [Ho|Ho]; [auto | congruence].
              ** intros x Hx. auto.
              ** intros o Ho. auto.
        -- split; cbn [seen_dtypes res_object_id status].
           ++ intros d. rewrite IN, B. intuition discriminate.
           ++ exact O.
           ++ rewrite IN. tauto.
           ++ split; [discriminate|]. intros [_ H2].
              assert (Some r = Some o) as E by (apply H2, IN; now right).
              injection E as E. subst o.
              assert (oid_eqb r r = true) by now apply oid_eqb_spec. congruence.
      * split; cbn [seen_dtypes res_object_id status].
        -- intros d. rewrite IN, B. intuition discriminate.
        -- exact O.
        -- rewrite IN. tauto.
        -- rewrite S. setoid_rewrite IN. split; intros [H1 H2]; split.
           ++ intros x [Hx | <-]; [auto | cbn; congruence].
           ++ intros o' [Ho|Ho]; [|congruence]. exfalso. apply (H1 _ Ho). cbn. auto.
           ++ intros x Hx. auto.
           ++ intros o' Ho. exfalso. apply (H1 (IObj o')); auto. cbn. auto.
    + split; cbn [seen_dtypes res_object_id status].
      * intros d. rewrite IN, B. intuition discriminate.
      * exact O.
      * destruct (res_object_id s).
        -- rewrite IN. tauto.
        -- intros o'. rewrite IN. intros [H|H]; [auto|congruence].
      * split; [discriminate|]. intros [H1 _]. exfalso.
        apply (H1 (IObj o)); [apply IN; now right | exact Es].
  - split; cbn [seen_dtypes res_object_id status].
    + intros d. rewrite IN, B. intuition discriminate.
    + exact O.
    + destruct (res_object_id s).
      * rewrite IN. tauto.
      * intros o. rewrite IN. intros [H|H]; [auto|discriminate].
    + split; [discriminate|]. intros [H1 _]. exfalso.
      apply (H1 IOther); [apply IN; now right | exact I].
Qed.

Lemma seen_inv_all l : Forall item_wf l -> seen_inv l (fold_left agg_add l agg_init).
Proof.
  intros W. induction l as [|x l IH] using rev_ind.
  - split; cbn.
    + intros d. split; [destruct d; discriminate | tauto].
    + intros i H. exfalso. change (N.testbit 0 i = true) in H. rewrite N.bits_0 in H. discriminate H.
    + tauto.
    + split; [intros _; split; tauto | reflexivity].
  - apply Forall_app in W. destruct W as [W1 W2]. rewrite fold_left_app.
    apply agg_add_inv; auto. now inversion W2.
Qed.

Lemma in_schemas l s : In s (schemas l) <-> In (item_of s) l.
Proof.
  unfold schemas. rewrite in_flat_map. split.
  - intros (x & Hx & Hs). destruct x; cbn in Hs; try tauto; destruct Hs as [<- | []]; exact Hx.
  - intros H. exists (item_of s). split; [exact H|]. destruct s; now left.
Qed.

Lemma small_mask m : (forall i, N.testbit m i = true -> exists d, i = type_id d) ->
  m < 2 ^ 14 /\ N.testbit m 9 = false.
Proof.
  intros H. split.
  - destruct (N.eq_0_gt_0_cases m) as [-> | Hm]; [reflexivity|].
    apply N.log2_lt_pow2; [exact Hm|].
    assert (N.testbit m (N.log2 m) = true) as E by (apply N.bit_log2; lia).
    destruct (H _ E) as [d ->]. destruct d; reflexivity.
  - destruct (N.testbit m 9) eqn:E; [|reflexivity].
    destruct (H _ E) as [d Hd]. destruct d; discriminate Hd.
Qed.

(** The whole behaviour *)
Inductive common_spec (l : list item) : outcome -> Prop :=
  | cs_not_schema x e : In x l -> not_a_schema x -> common_spec l (Err e)
  | cs_none : (forall x, In x l -> ~ not_a_schema x) -> schemas l = [] -> common_spec l (Ok None)
  | cs_lub s : (forall x, In x l -> ~ not_a_schema x) -> In s (schemas l) \/ schemas l <> [] ->
      least_upper_bound (schemas l) s -> common_spec l (Ok (Some s))
  | cs_no_ub e : (forall x, In x l -> ~ not_a_schema x) ->
      (forall u, ~ upper_bound (schemas l) u) -> common_spec l (Err e).

Lemma schemas_nil l : (forall s, ~ In s (schemas l)) -> schemas l = [].
Proof. destruct (schemas l) as [|s r]; [reflexivity|]. intros H. destruct (H s). now left. Qed.

Lemma not_a_schema_dec x : {not_a_schema x} + {~ not_a_schema x}.
Proof. destruct x; cbn; auto. destruct (is_schema o); auto. right. discriminate. Qed.

Lemma common_schema_ok l : Forall item_wf l -> common_spec l (common_schema l).
Proof.
  intros W. unfold common_schema. generalize (seen_inv_all l W).
  set (s := fold_left agg_add l agg_init). clearbody s. intros [B O J S].
  destruct (small_mask _ O) as [Hm H9].
  unfold agg_result.
  assert (G := agg_get_ok _ Hm H9).
  destruct (List.Exists_dec not_a_schema l not_a_schema_dec) as [Ex | Nx].
  { apply Exists_exists in Ex. destruct Ex as (x & Hx & Nx).
    destruct (status s) as [e|] eqn:Est.
    - destruct (agg_get (seen_dtypes s)); eapply cs_not_schema; eauto.
    - exfalso. destruct S as [S _]. destruct (S eq_refl) as [S1 _]. eapply S1; eauto. }
  assert (NX : forall x, In x l -> ~ not_a_schema x).
  { intros x Hx N. apply Nx, Exists_exists. eauto. }
  (* every dtype in l is None when there are objects and an upper bound *)
  inversion G as [Z E1 | d NZ U L E1 | ea eb NU E1].
  - (* no dtype *)
    assert (ND : forall d, ~ In (IDType d) l).
    { intros d Hd. apply B in Hd. rewrite Z, N.bits_0 in Hd. discriminate. }
    destruct (status s) as [e|] eqn:Est.
    + apply cs_no_ub; [exact NX|]. intros u Hu.
      assert (Some e = None) as X; [|discriminate X]. apply S. split; [exact NX|].
      intros o Ho. destruct (res_object_id s) as [r|].
      * destruct J as [J1 J2].
        assert (A1 := Hu (SO o) (proj2 (in_schemas l (SO o)) Ho)).
        assert (A2 := Hu (SO r) (proj2 (in_schemas l (SO r)) J1)).
        destruct u; cbn in A1, A2; [tauto|congruence].
      * specialize (J _ Ho). exfalso. exact (NX _ Ho J).
    + destruct S as [S _]. destruct (S eq_refl) as [_ S2].
      destruct (res_object_id s) as [r|].
      * destruct J as [J1 J2]. apply cs_lub; [exact NX | left; now apply in_schemas | split].
        -- intros x Hx. apply in_schemas in Hx. destruct x as [d|o]; cbn in Hx |- *.
           ++ destruct (ND _ Hx).
           ++ specialize (S2 _ Hx). congruence.
        -- intros u Hu. apply Hu. now apply in_schemas.
      * apply cs_none; [exact NX|]. apply schemas_nil. intros x Hx. apply in_schemas in Hx.
        destruct x as [d|o]; cbn in Hx; [now apply ND in Hx|].
        specialize (S2 _ Hx). discriminate.
  - (* a dtype *)
    assert (HD : exists d0, In (IDType d0) l).
    { destruct (O (N.log2 (seen_dtypes s))) as [d0 E0];
        [now apply N.bit_log2|].
      exists d0. apply B. rewrite <- E0. now apply N.bit_log2. }
    assert (UD : forall a, In (IDType a) l -> promotes a d) by (intros a Ha; apply U, B, Ha).
    assert (LD : forall u, (forall a, In (IDType a) l -> promotes a u) -> promotes d u).
    { intros u Hu. apply L. intros a Ha. apply Hu, B, Ha. }
    assert (OBJ : forall o u, In (IObj o) l -> upper_bound (schemas l) u ->
                  u = SO o /\ d = NoneT).
    { intros o u Ho Hu. assert (A1 := Hu (SO o) (proj2 (in_schemas l (SO o)) Ho)).
      destruct u as [|r]; cbn in A1; [tauto|]. subst r. split; [reflexivity|].
      assert (P : promotes d NoneT).
      { apply LD. intros a Ha.
        assert (A2 := Hu (SD a) (proj2 (in_schemas l (SD a)) Ha)). cbn in A2. now left. }
      apply leb_spec in P. destruct d; try discriminate P; reflexivity. }
    destruct (status s) as [e|] eqn:Est.
    + apply cs_no_ub; [exact NX|]. intros u Hu.
      assert (Some e = None) as X; [|discriminate X]. apply S. split; [exact NX|].
      intros o Ho. destruct (OBJ o u Ho Hu) as [Eu _].
      destruct (res_object_id s) as [r|].
      * destruct J as [J1 J2]. destruct (OBJ r u J1 Hu) as [Eu' _]. congruence.
      * specialize (J _ Ho). exfalso. exact (NX _ Ho J).
    + destruct S as [S _]. destruct (S eq_refl) as [_ S2].
      destruct (res_object_id s) as [r|].
      * destruct J as [J1 J2]. destruct (type_id d =? type_id NoneT) eqn:Ed.
        -- apply N.eqb_eq, type_id_inj in Ed. subst d.
           apply cs_lub; [exact NX | left; now apply in_schemas | split].
           ++ intros x Hx. apply in_schemas in Hx. destruct x as [a|o]; cbn in Hx |- *.
              ** apply UD in Hx. apply leb_spec in Hx. destruct a; try discriminate Hx; reflexivity.
              ** specialize (S2 _ Hx). congruence.
           ++ intros u Hu. apply Hu. now apply in_schemas.
        -- apply cs_no_ub; [exact NX|]. intros u Hu.
           destruct (OBJ r u J1 Hu) as [_ ->]. discriminate Ed.
      * unfold unsafe_from_id. rewrite of_type_id. cbn [option_map].
        assert (NO : forall o, ~ In (IObj o) l).
        { intros o Ho. specialize (S2 _ Ho). discriminate. }
        apply cs_lub; [exact NX | | split].
        -- right. destruct HD as [d0 HD]. apply (in_schemas l (SD d0)) in HD.
           intros E. rewrite E in HD. destruct HD.
        -- intros x Hx. apply in_schemas in Hx. destruct x as [a|o]; cbn in Hx |- *.
           ++ auto.
           ++ destruct (NO _ Hx).
        -- intros u Hu. destruct u as [u|o]; cbn.
           ++ apply LD. intros a Ha. exact (Hu (SD a) (proj2 (in_schemas l (SD a)) Ha)).
           ++ assert (P : promotes d NoneT).
              { apply LD. intros a Ha.
                assert (A2 := Hu (SD a) (proj2 (in_schemas l (SD a)) Ha)). cbn in A2. now left. }
              apply leb_spec in P. destruct d; try discriminate P; reflexivity.
  - (* dtypes without a common one *)
    apply cs_no_ub; [exact NX|]. intros u Hu.
    destruct u as [u|o].
    + apply (NU u). intros a Ha. apply B in Ha.
      exact (Hu (SD a) (proj2 (in_schemas l (SD a)) Ha)).
    + apply (NU NoneT). intros a Ha. apply B in Ha.
      assert (A := Hu (SD a) (proj2 (in_schemas l (SD a)) Ha)). cbn in A. now left.
Qed.

(** ** Consequences *)
Lemma schema_le_refl s : schema_le s s.
Proof. destruct s; cbn; [apply promotes_refl | reflexivity]. Qed.
Lemma schema_le_trans a b c : schema_le a b -> schema_le b c -> schema_le a c.
Proof.
  destruct a, b, c; cbn; try tauto; try congruence.
  - rewrite <- !leb_spec. apply leb_trans.
  - intros H ->. apply leb_spec in H. destruct d; try discriminate H; reflexivity.
Qed.
Lemma schema_le_antisym a b : schema_le a b -> schema_le b a -> a = b.
Proof.
  destruct a, b; cbn; try tauto; try congruence.
  rewrite <- !leb_spec. intros H1 H2. f_equal. now apply leb_antisym.
Qed.

Lemma lub_unique l a b : least_upper_bound l a -> least_upper_bound l b -> a = b.
Proof. intros [A1 A2] [B1 B2]. apply schema_le_antisym; auto. Qed.

Lemma common_lub l s : Forall item_wf l ->
  (common_schema l = Ok (Some s) <->
   (forall x, In x l -> ~ not_a_schema x) /\ schemas l <> [] /\ least_upper_bound (schemas l) s).
Proof.
  intros W. generalize (common_schema_ok l W). intros H. split.
  - intros E. rewrite E in H. inversion H as [| |s0 N I L|]; subst. repeat split; auto; try apply L.
    destruct I as [I|I]; [|exact I]. intros E2. rewrite E2 in I. destruct I.
  - intros (N & NE & L). inversion H as [x e Hx Nx E | N' Z E | s' N' I L' E | e N' NU E].
    + destruct (N x); auto.
    + congruence.
    + f_equal. f_equal. eapply lub_unique; eauto.
    + destruct (NU s). apply L.
Qed.

Lemma common_empty l : Forall item_wf l ->
  (common_schema l = Ok None <-> forall x, In x l -> x = IMissing).
Proof.
  intros W. generalize (common_schema_ok l W). intros H. split.
  - intros E. rewrite E in H. inversion H as [|N Z| |]; subst. intros x Hx.
    assert (forall s, ~ In (item_of s) l) as A.
    { intros s Hs. apply in_schemas in Hs. rewrite Z in Hs. exact Hs. }
    destruct x as [|d|o|]; [reflexivity| | |].
    + destruct (A (SD d) Hx).
    + destruct (A (SO o) Hx).
    + destruct (N _ Hx I).
  - intros A.
    assert (Z : schemas l = []).
    { apply schemas_nil. intros s Hs. apply in_schemas, A in Hs. destruct s; discriminate. }
    assert (N : forall x, In x l -> ~ not_a_schema x).
    { intros x Hx. rewrite (A x Hx). cbn. tauto. }
    inversion H as [x e Hx Nx E | N' Z' E | s' N' I L' E | e N' NU E].
    + destruct (N x); auto.
    + reflexivity.
    + destruct I as [I|I]; [rewrite Z in I; destruct I | congruence].
    + destruct (NU (SD NoneT)). intros s Hs. rewrite Z in Hs. destruct Hs.
Qed.

Lemma common_fails l : Forall item_wf l ->
  (fails (common_schema l) <->
   (exists x, In x l /\ not_a_schema x) \/ (forall u, ~ upper_bound (schemas l) u)).
Proof.
  intros W. generalize (common_schema_ok l W). intros H. split.
  - intros [e E]. rewrite E in H. inversion H; subst; eauto.
  - intros A. inversion H as [x e Hx Nx E | N' Z' E | s' N' I L' E | e N' NU E].
    + now exists e.
    + destruct A as [(x & Hx & Nx) | A]; [destruct (N' x); auto|].
      destruct (A (SD NoneT)). intros s Hs. rewrite Z' in Hs. destruct Hs.
    + destruct A as [(x & Hx & Nx) | A]; [destruct (N' x); auto|].
      destruct (A s'). apply L'.
    + now exists e.
Qed.

Lemma same_outcome_iff l1 l2 : Forall item_wf l1 -> Forall item_wf l2 ->
  (forall x, x <> IMissing -> (In x l1 <-> In x l2)) ->
  same_outcome (common_schema l1) (common_schema l2).
Proof.
  intros W1 W2 H.
  assert (HS : forall s, In s (schemas l1) <-> In s (schemas l2)).
  { intros s. rewrite !in_schemas. apply H. destruct s; discriminate. }
  assert (HN : forall x, not_a_schema x -> (In x l1 <-> In x l2)).
  { intros x N. apply H. intros ->. destruct N. }
  assert (HU : forall u, upper_bound (schemas l1) u <-> upper_bound (schemas l2) u).
  { intros u. unfold upper_bound. split; intros A s Hs; apply A, HS, Hs. }
  destruct (common_schema l1) as [[s|]|e] eqn:E1.
  - apply (common_lub l1 s W1) in E1. destruct E1 as (N & NE & L).
    assert (E2 : common_schema l2 = Ok (Some s)).
    { apply (common_lub l2 s W2). split; [|split].
      - intros x Hx Nx. apply (N x); [apply HN; auto | exact Nx].
      - intros Z. apply NE, schemas_nil. intros t Ht. apply HS in Ht. rewrite Z in Ht. exact Ht.
      - split; [apply HU, L | intros u Hu; apply L, HU, Hu]. }
    rewrite E2. reflexivity.
  - assert (E2 : common_schema l2 = Ok None).
    { apply (common_empty l2 W2). assert (E3 := proj1 (common_empty l1 W1) E1).
      intros x Hx. destruct x; try reflexivity; exfalso;
        match goal with Hx : In ?y l2 |- _ =>
          assert (X : In y l1) by (apply H; [discriminate | exact Hx]);
          apply E3 in X; discriminate X end. }
    rewrite E2. reflexivity.
  - assert (E2 : fails (common_schema l2)).
    { apply (common_fails l2 W2).
      assert (F : fails (common_schema l1)) by (exists e; exact E1).
      apply (common_fails l1 W1) in F. destruct F as [(x & Hx & Nx) | F].
      - left. exists x. split; [apply HN; auto | exact Nx].
      - right. intros u Hu. apply (F u), HU, Hu. }
    destruct E2 as [e2 ->]. exact I.
Qed.

(** Replacing a prefix by its common schema changes nothing. *)
Lemma grouping l1 l2 r : Forall item_wf l1 -> Forall item_wf l2 ->
  common_schema l1 = Ok r ->
  same_outcome (common_schema (l1 ++ l2))
    (common_schema (match r with Some s => [item_of s] | None => [] end ++ l2)).
Proof.
  intros W1 W2 E. destruct r as [s|].
  - assert (L := E). apply (common_lub l1 s W1) in L. destruct L as (N & NE & U & L).
    assert (Ws : item_wf (item_of s)).
    { destruct s as [d|o]; cbn; [exact I|].
      (* an object can only be the bound if it was among the items *)
      destruct (schemas l1) as [|a q] eqn:Es; [congruence|].
      destruct (Exists_dec (fun x => x = SO o) (a :: q)) as [X|X].
      - intros [d|o']; [right; discriminate|].
        destruct o' as [a1 a2 a3 a4], o as [b1 b2 b3 b4].
        destruct (N.eq_dec a1 b1), (N.eq_dec a2 b2), (N.eq_dec a3 b3), (N.eq_dec a4 b4);
          try (right; congruence). left. congruence.
      - apply Exists_exists in X. destruct X as (x & Hx & ->). rewrite <- Es in Hx.
        apply in_schemas in Hx. rewrite Forall_forall in W1. exact (W1 _ Hx).
      - exfalso. assert (A : upper_bound (a :: q) (SD NoneT)).
        { intros x Hx. assert (B := U x Hx). destruct x as [d|o'].
          - cbn in B. subst d. apply schema_le_refl.
          - cbn in B. subst o'. destruct X. apply Exists_exists. exists (SO o). auto. }
        apply L in A. exact A. }
    assert (Nsch : ~ not_a_schema (item_of s)).
    { destruct s as [d|o]; cbn; [tauto|].
      destruct (schemas l1) as [|a q] eqn:Es; [congruence|].
      destruct (Exists_dec (fun x => x = SO o) (a :: q)) as [X|X].
      - intros [d|o']; [right; discriminate|].
        destruct o' as [a1 a2 a3 a4], o as [b1 b2 b3 b4].
        destruct (N.eq_dec a1 b1), (N.eq_dec a2 b2), (N.eq_dec a3 b3), (N.eq_dec a4 b4);
          try (right; congruence). left. congruence.
      - apply Exists_exists in X. destruct X as (x & Hx & ->). rewrite <- Es in Hx.
        apply in_schemas in Hx. exact (N _ Hx).
      - exfalso. assert (A : upper_bound (a :: q) (SD NoneT)).
        { intros x Hx. assert (B := U x Hx). destruct x as [d|o'].
          - cbn in B. subst d. apply schema_le_refl.
          - cbn in B. subst o'. destruct X. apply Exists_exists. exists (SO o). auto. }
        apply L in A. exact A. }
    assert (Wa : Forall item_wf (l1 ++ l2)) by (apply Forall_app; auto).
    assert (Wb : Forall item_wf ([item_of s] ++ l2)) by (apply Forall_app; auto).
    assert (SA : schemas (l1 ++ l2) = schemas l1 ++ schemas l2) by apply flat_map_app.
    assert (SB : schemas ([item_of s] ++ l2) = s :: schemas l2).
    { unfold schemas. rewrite flat_map_app. destruct s; reflexivity. }
    assert (HU : forall u, upper_bound (schemas (l1 ++ l2)) u <->
                           upper_bound (schemas ([item_of s] ++ l2)) u).
    { intros u. rewrite SA, SB. split; intros A x Hx.
      - destruct Hx as [<- | Hx].
        + apply L. intros y Hy. apply A, in_or_app. now left.
        + apply A, in_or_app. now right.
      - apply in_app_or in Hx. destruct Hx as [Hx|Hx].
        + eapply schema_le_trans; [apply (U x Hx) | apply A; now left].
        + apply A. now right. }
    assert (HN : (exists x, In x (l1 ++ l2) /\ not_a_schema x) <->
                 (exists x, In x ([item_of s] ++ l2) /\ not_a_schema x)).
    { split; intros (x & Hx & Nx); exists x; (split; [|exact Nx]);
        apply in_app_or in Hx; apply in_or_app; destruct Hx as [Hx|Hx]; auto.
      - destruct (N x Hx Nx).
      - destruct Hx as [<- | []]. destruct (Nsch Nx). }
    destruct (common_schema (l1 ++ l2)) as [[t|]|e] eqn:E1.
    + apply (common_lub _ t Wa) in E1. destruct E1 as (N1 & NE1 & L1).
      assert (E2 : common_schema ([item_of s] ++ l2) = Ok (Some t)).
      { apply (common_lub _ t Wb). split; [|split].
        - intros x Hx Nx. destruct (proj2 HN (ex_intro _ x (conj Hx Nx))) as (y & Hy & Ny).
          exact (N1 y Hy Ny).
        - rewrite SB. discriminate.
        - split; [apply HU, L1 | intros u Hu; apply L1, HU, Hu]. }
      rewrite E2. reflexivity.
    + exfalso.
      assert (Z : schemas (l1 ++ l2) = []).
      { apply schemas_nil. intros t Ht. apply in_schemas in Ht.
        apply (proj1 (common_empty _ Wa) E1) in Ht. destruct t; discriminate Ht. }
      rewrite SA in Z. apply app_eq_nil in Z. tauto.
    + assert (F : fails (common_schema ([item_of s] ++ l2))).
      { apply (common_fails _ Wb).
        assert (F1 : fails (common_schema (l1 ++ l2))) by (exists e; exact E1).
        apply (common_fails _ Wa) in F1. destruct F1 as [F1|F1].
        - left. now apply HN.
        - right. intros u Hu. apply (F1 u), HU, Hu. }
      destruct F as [e2 ->]. exact I.
  - apply same_outcome_iff; auto; [apply Forall_app; auto|].
    intros x Hx. cbn [app]. rewrite in_app_iff. split; [|now right].
    intros [A|A]; [|exact A]. apply (proj1 (common_empty _ W1) E) in A. congruence.
Qed.

(** ** Implicit casts *)
Lemma matrix_castable a b :
  match common_dtype (type_id a) (type_id b) with Common i => i =? type_id b | _ => false end = leb a b.
Proof. destruct a, b; reflexivity. Qed.

Lemma castable_le a b : schema_wf a -> schema_wf b ->
  (is_implicitly_castable a b = true <-> schema_le a b).
Proof.
  intros Wa Wb. destruct a as [a|a], b as [b|b]; cbn [is_implicitly_castable schema_le].
  - rewrite matrix_castable. apply leb_spec.
  - rewrite N.eqb_eq. split; [apply type_id_inj | now intros ->].
  - split; [discriminate | tauto].
  - apply oid_eqb_spec; [apply Wa | apply Wb].
Qed.

Lemma castable_common a b : schema_wf a -> schema_wf b ->
  (is_implicitly_castable a b = true <-> common_schema [item_of a; item_of b] = Ok (Some b)).
Proof.
  intros Wa Wb. rewrite castable_le by assumption.
  assert (W : Forall item_wf [item_of a; item_of b]).
  { repeat apply Forall_cons; [destruct a | destruct b | constructor]; cbn in *; tauto. }
  assert (S : schemas [item_of a; item_of b] = [a; b]) by (destruct a, b; reflexivity).
  rewrite (common_lub _ b W), S. split.
  - intros H. split; [|split].
    + intros x [<- | [<- | []]]; [destruct a | destruct b]; cbn in *; try tauto;
        intuition congruence.
    + discriminate.
    + split.
      * intros s [<- | [<- | []]]; [exact H | apply schema_le_refl].
      * intros u Hu. apply Hu. right. now left.
  - intros (_ & _ & U & _). apply U. now left.
Qed.

Lemma data_schema_lub kinds :
  match data_schema kinds with
  | Some s => least_upper_bound (SD NoneT :: map SD kinds) s
  | None => forall u, ~ upper_bound (SD NoneT :: map SD kinds) u
  end.
Proof.
  unfold data_schema.
  change (agg_result _) with (common_schema (IDType NoneT :: map IDType kinds)).
  set (l := IDType NoneT :: map IDType kinds).
  assert (W : Forall item_wf l).
  { apply Forall_cons; [exact I|]. apply Forall_forall. intros x Hx. apply in_map_iff in Hx.
    destruct Hx as (d & <- & _). exact I. }
  assert (S : schemas l = SD NoneT :: map SD kinds).
  { unfold l, schemas. cbn. f_equal. induction kinds as [|k r IH]; [reflexivity|]. cbn. f_equal.
    apply IH. inversion W; inversion H2; subst. now apply Forall_cons. }
  rewrite <- S. generalize (common_schema_ok l W). intros H.
  inversion H as [x e Hx Nx E | N' Z' E | s' N' I L' E | e N' NU E]; auto.
  - exfalso. unfold l in Hx. destruct Hx as [<- | Hx]; [exact Nx|].
    apply in_map_iff in Hx. destruct Hx as (d & <- & _). exact Nx.
  - rewrite S in Z'. discriminate.
Qed.
