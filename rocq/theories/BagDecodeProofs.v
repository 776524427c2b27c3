(** Decoding a message that describes a content gives that content. *)
From Coq Require Import String Ascii NArith ZArith List Bool Arith Lia Permutation.
From Verif Require Import ObjectIdModel ObjectIdProofs SchemaModel ItemModel DataListModel DictModel DictSpec DictProofs
  SourceModel SourceSpec SourceProofs BagModel CollProofs BagProofs LayerProofs FullWriteProofs ContainerProofs
  MergeModel MergeFold BagSpec MergeImplProofs ReadProofs BagKeysProofs BagStateProofs BagStepProofs BagOpsProofs
  BagCodecModel BagCodecSpec BagDumpProofs BagLoadProofs.
Import ListNotations.
Local Open Scope nat_scope.
Notation chain := BagModel.chain.

(** ** Names as texts *)
Lemma text_of_inj a b : text_of a = text_of b -> a = b.
Proof.
  unfold text_of. intros E. rewrite <- (string_of_list_ascii_of_string a), <- (string_of_list_ascii_of_string b). f_equal.
  revert E. generalize (list_ascii_of_string a), (list_ascii_of_string b). induction l as [|x l IH]; intros [|y l'] E; try discriminate; auto.
  cbn in E. injection E as E1 E2. f_equal; auto. rewrite <- (ascii_N_embedding x), <- (ascii_N_embedding y). now f_equal.
Qed.
Lemma same_text_spec a b : reflect (a = b) (same_text a b).
Proof. unfold same_text. destruct (list_N_eq_dec a b); now constructor. Qed.
Lemma schema_or_none_ok v : (v = None \/ (exists d, v = Some (val KDType d)) \/ (exists o, v = Some (val KObjectId o) /\ is_schema o = true)) -> is_schema_or_none v = true.
Proof. intros [->|[[d ->]|[o [-> E]]]]; cbn; auto. Qed.
Lemma schema_value_accepted attr v : schema_value attr v -> schema_value_ok attr v = true.
Proof.
  intros (A & B & C). unfold schema_value_ok. destruct (same_text_spec attr (text_of kSchemaNameAttr)) as [E|N1].
  - destruct (A E) as [t ->]. reflexivity.
  - destruct (same_text_spec attr (text_of kSchemaMetadataAttr)) as [E|N2].
    + destruct (B E) as [o ->]. reflexivity.
    + apply schema_or_none_ok. auto.
Qed.

(** ** The content after some writes *)
Section Folds.
Notation run := (fold_left (fun c w => weff w c)).
Lemma run_attr ws attr o x : forall c0, (forall w, In w ws -> w_attr w attr o = None \/ w_attr w attr o = x) ->
  (c_attr c0 attr o = x \/ (c_attr c0 attr o = None /\ (x <> None -> exists w, In w ws /\ w_attr w attr o <> None))) ->
  c_attr (run ws c0) attr o = x.
Proof.
  induction ws as [|w ws IH]; intros c0 A B; cbn [fold_left].
  - destruct B as [B|[B C]]; auto. destruct x; auto. destruct C as (w & [] & _). discriminate.
  - apply IH; [intros w' I; apply A; now right|]. cbn [weff c_attr]. destruct (A w (or_introl eq_refl)) as [E|E].
    + rewrite E. cbn [first_of]. destruct B as [B|[B C]]; auto. right. split; auto. intros Nx. destruct (C Nx) as (w' & [<-|I] & Nw); [congruence|]. eauto.
    + rewrite E. destruct x as [x|]; cbn [first_of]; auto. destruct B as [B|[B C]]; auto.
Qed.
Lemma run_dict ws o k x : forall c0, (forall w, In w ws -> w_dict w o k = None \/ w_dict w o k = x) ->
  (c_dict c0 o k = x \/ (c_dict c0 o k = None /\ (x <> None -> exists w, In w ws /\ w_dict w o k <> None))) ->
  c_dict (run ws c0) o k = x.
Proof.
  induction ws as [|w ws IH]; intros c0 A B; cbn [fold_left].
  - destruct B as [B|[B C]]; auto. destruct x; auto. destruct C as (w & [] & _). discriminate.
  - apply IH; [intros w' I; apply A; now right|]. cbn [weff c_dict]. destruct (A w (or_introl eq_refl)) as [E|E].
    + rewrite E. cbn [first_of]. destruct B as [B|[B C]]; auto. right. split; auto. intros Nx. destruct (C Nx) as (w' & [<-|I] & Nw); [congruence|]. eauto.
    + rewrite E. destruct x as [x|]; cbn [first_of]; auto. destruct B as [B|[B C]]; auto.
Qed.
Definition ext_ids (ws : list wop) : list ObjectId := flat_map (fun w => match w with WExtend o _ => [o] | _ => [] end) ws.
Lemma run_list_none ws o : forall c0, ~ In o (ext_ids ws) -> c_list (run ws c0) o = c_list c0 o.
Proof.
  induction ws as [|w ws IH]; intros c0 A; cbn [fold_left]; auto. rewrite IH; [|intros I; apply A; cbn; apply in_app_iff; now right].
  cbn [weff c_list]. destruct w; cbn [w_list]; auto. destruct (oid_eq_dec o0 o) as [->|]; auto. elim A. now left.
Qed.
Lemma run_list_some ws o vs : forall c0, NoDup (ext_ids ws) -> In (WExtend o vs) ws -> c_list c0 o = None -> c_list (run ws c0) o = Some vs.
Proof.
  induction ws as [|w ws IH]; intros c0 Nd I C; [easy|]. cbn [fold_left]. destruct I as [->|I].
  - cbn in Nd. apply NoDup_cons_iff in Nd as [N1 N2]. rewrite run_list_none by auto. cbn [weff c_list w_list]. destruct (oid_eq_dec o o); [|congruence]. now rewrite C.
  - apply IH; auto.
    + cbn in Nd. destruct w; auto. now apply NoDup_cons_iff in Nd as [_ Nd].
    + cbn [weff c_list]. destruct w; cbn [w_list]; auto. destruct (oid_eq_dec o0 o) as [->|]; auto. exfalso. cbn in Nd. apply NoDup_cons_iff in Nd as [N1 _].
      apply N1. apply in_flat_map. exists (WExtend o vs). split; auto. now left.
Qed.
End Folds.

(** ** Options *)
Lemma concat_opt_app {A} (l l' : list (option (list A))) r : concat_opt (l ++ l') = Some r ->
  exists r1 r2, concat_opt l = Some r1 /\ concat_opt l' = Some r2 /\ r = r1 ++ r2.
Proof.
  revert r. induction l as [|x l IH]; cbn; intros r E; [exists [], r; auto|]. destruct x as [x|]; [|discriminate]. cbn [bind] in *.
  destruct (concat_opt (l ++ l')) as [r0|]; [|discriminate]. destruct (IH r0 eq_refl) as (r1 & r2 & -> & E2 & ->). cbn in *. exists (x ++ r1), r2. split; auto. split; auto.
  rewrite <- app_assoc. congruence.
Qed.
Lemma concat_opt_in {A B} (f : A -> option (list B)) l r : concat_opt (map f l) = Some r -> forall z, In z r <-> exists x y, In x l /\ f x = Some y /\ In z y.
Proof.
  revert r. induction l as [|x l IH]; cbn; intros r E z; [injection E as <-; split; [easy|intros (x & y & [] & _)]|].
  destruct (f x) as [y|] eqn:Ey; [|discriminate]. cbn [bind] in E. destruct (concat_opt (map f l)) as [r0|]; [|discriminate]. cbn in E.
  assert (r = y ++ r0) by congruence. subst r. rewrite in_app_iff, (IH r0 eq_refl z). split.
  - intros [I|(x' & y' & I & E' & J)]; [exists x, y; auto|exists x', y'; auto].
  - intros (x' & y' & [<-|I] & E' & J); [left; congruence|right; exists x', y'; auto].
Qed.
Lemma set_ids_objects alloc vs : set_ids alloc vs = set_objects alloc (build_dslice vs).
Proof.
  unfold set_ids, set_objects. cbn [ds_size ds_tidx build_dslice].
  assert (X : forall vs0 n (g : N -> option (option ditem)), (forall i, nth_error vs0 i = g (N.of_nat (n + i)) ) ->
    map (fun '(i, v) => match v with Some _ => Some (object_by_offset alloc i) | None => None end) (combine (map N.of_nat (seq n (length vs0))) vs0) =
    map (fun off => match g off with Some (Some _) => Some (object_by_offset alloc off) | _ => None end) (map N.of_nat (seq n (length vs0)))).
  { induction vs0 as [|v vs0 IH]; intros n g G; [reflexivity|]. cbn [length seq map combine]. f_equal.
    - specialize (G 0). cbn in G. rewrite Nat.add_0_r in G. rewrite <- G. now destruct v.
    - apply IH. intros i. specialize (G (S i)). cbn in G. rewrite G. f_equal. lia. }
  unfold below. rewrite Nat2N.id. rewrite (X vs 0 (fun off => nth_error vs (N.to_nat off))); [|intros i; f_equal; lia].
  apply map_ext. intros off. now destruct (nth_error vs (N.to_nat off)) as [[[v|]|]|].
Qed.
Lemma plain_nth vs i : @nth ditem i (plain vs) None = match nth_error vs i with Some (Some v) => v | _ => None end.
Proof. revert i. induction vs as [|v vs IH]; intros [|i]; cbn; auto. Qed.
Lemma plain_writes alloc vs : writes (set_ids alloc vs) (build_slice (plain vs)) = writes (set_objects alloc (build_dslice vs)) (slice_of (build_dslice vs)).
Proof.
  rewrite set_ids_objects. unfold writes. apply map_ext_in. intros [i o] I. f_equal. apply in_present_at in I.
  apply (nth_set_objects alloc (build_dslice vs) i o (build_dslice_wf vs)) in I as (L & _ & R).
  rewrite build_slice_at, plain_nth, slice_of_at by auto. assert (X := ro_first _ _ (build_dslice_wf vs) R). rewrite build_dslice_at in X, R.
  unfold entry_of in X, R. rewrite Nat2N.id in X, R. destruct (nth_error vs i) as [[v|]|]; congruence.
Qed.
Lemma slice_kind_in xs k : slice_kind (build_slice xs) = Some k -> exists v, In (Some v) xs /\ projT1 v = k.
Proof.
  unfold slice_kind. rewrite build_slice_values. destruct (columns CollProofs.all_kinds xs) as [|[k' col] [|]] eqn:E; try discriminate. intros X. injection X as <-.
  assert (I : In (existT (fun k0 => list (option (cval k0))) k' col) (columns CollProofs.all_kinds xs)) by (rewrite E; now left).
  unfold columns in I. apply in_flat_map in I as (k & _ & I). destruct (has_some (column k xs)) eqn:Hs; [|easy]. destruct I as [I|[]].
  assert (k = k') by (apply (f_equal (@projT1 _ _)) in I; exact I). subst k'. unfold has_some in Hs. apply existsb_exists in Hs as (y & J & Hy).
  unfold column in J. apply in_map_iff in J as (x & Ex & J). destruct x as [v|]; [|subst y; discriminate]. exists v. split; auto.
  destruct v as [kv xv]. cbn in *. destruct (kind_eq_dec kv k); auto. subst y. discriminate.
Qed.

Section Decode.
Variable asize : ObjectId -> N.
Hypothesis asize_ok : forall a, (asize a <= capacity a)%N.
Hypothesis schemas_full : forall a, is_schema a = true -> asize a = capacity a.
Notation valid := (valid asize).
Notation wop_ok := (wop_ok asize).
Variable m : bag_msg.
Variable c : content.
Hypothesis D : describes asize m c.
Hypothesis So : schemas_ok asize c.
Hypothesis Hv : has_values asize c.

Definition chunk_alloc (ck : chunk) : ObjectId := match ck with CItem o _ => allocation_of o | CAlloc o _ => o end.
Record good_writes (attr : string) (ck : chunk) (y : list wop) : Prop := {
  g_ok : Forall wop_ok y;
  g_fresh : fresh y;
  g_key : forall w k, In w y -> wop_key w = Some k -> k = (chunk_alloc ck, attr);
  g_item : forall o v, ck = CItem o v -> forall w, In w y -> full_key w = None;
  g_ext : ext_ids y = [];
  g_attr : forall w attr' o, In w y -> exists_object asize o -> w_attr w attr' o = None \/ w_attr w attr' o = c_attr c attr' o;
  g_dict : forall w o k, In w y -> wf o -> w_dict w o k = None \/ w_dict w o k = c_dict c o k;
  g_hit : forall o, exists_object asize o -> (exists v, ck = CItem o v) \/ (exists vs, ck = CAlloc (allocation_of o) vs) -> c_attr c attr o <> None ->
    (exists w, In w y /\ w_attr w attr o <> None) /\
    (is_schema o = true -> attr <> "__schema_name__"%string -> In (WKey (allocation_of o) (val KText (text_of attr)) (Some (val KUnit tt))) y)
}.
Lemma w_attr_item o attr v attr' o' : c_attr c attr o = Some v -> w_attr (WAttr o attr v) attr' o' = None \/ w_attr (WAttr o attr v) attr' o' = c_attr c attr' o'.
Proof. intros E. cbn. destruct (string_dec attr attr') as [<-|]; auto. destruct (oid_eq_dec o o') as [<-|]; auto. Qed.
Lemma w_dict_key o k v o' k' : c_dict c o k = Some v -> w_dict (WKey o k v) o' k' = None \/ w_dict (WKey o k v) o' k' = c_dict c o' k'.
Proof. intros E. cbn. destruct (oid_eq_dec o o') as [<-|]; auto. destruct (value_eqb_spec k k') as [<-|]; auto. Qed.
Lemma schema_key_there attr o : exists_object asize o -> is_schema o = true -> is_small_alloc o = false -> attr <> "__schema_name__"%string -> c_attr c attr o <> None ->
  wop_ok (WKey (allocation_of o) (val KText (text_of attr)) (Some (val KUnit tt))) /\ c_dict c (allocation_of o) (val KText (text_of attr)) = Some (Some (val KUnit tt)).
Proof.
  intros V Sc Sm Na Nn. destruct (allocation_of_is_allocation o (proj1 V)) as [Wa Oa]. assert (Ea : allocation_of (allocation_of o) = allocation_of o) by (apply alloc_self; split; auto). split.
  - split; [exact Wa|]. split; [|reflexivity]. rewrite Ea. change (is_schema (allocation_of o)) with (is_schema o). rewrite Sc. apply orb_true_r.
  - apply (so_many_dict asize c So (allocation_of o)); auto. split; auto. split; auto. exists attr, o. rewrite Ea. auto.
Qed.
Lemma schema_value_attr attr o v : exists_object asize o -> is_schema o = true -> is_small_alloc o = false -> attr <> "__schema_name__"%string -> c_attr c attr o = Some v ->
  schema_value (text_of attr) v.
Proof. intros V Sc Sm Na E. exact (so_many_attr asize c So attr o v V Sc Sm Na E). Qed.

Lemma item_writes attr cs o v : In (attr, cs) (m_attrs m) -> In (CItem o v) cs -> exists y, decode_chunk attr (CItem o v) = Some y /\ good_writes attr (CItem o v) y.
Proof.
  intros I J. destruct (de_item asize m c D attr cs o v I J) as [V E]. cbn [decode_chunk].
  assert (Hit : forall o', (exists v0, CItem o v = CItem o' v0) \/ (exists vs, CItem o v = CAlloc (allocation_of o') vs) -> o' = o).
  { intros o' [(v0 & X)|(vs & X)]; [injection X as X _; congruence|discriminate]. }
  assert (At : w_attr (WAttr o attr v) attr o <> None) by (cbn; destruct (string_dec attr attr), (oid_eq_dec o o); congruence).
  destruct (is_schema o) eqn:Sc; cbn [andb]; [destruct (String.eqb_spec attr kSchemaNameAttr) as [En|Na]|]; cbn [negb].
  2: { unfold set_schema_attr. destruct (is_small_alloc o) eqn:Sm; [rewrite (so_alone_attr asize c So attr o V Sc Sm Na) in E; discriminate|].
       assert (Sv := schema_value_attr attr o v V Sc Sm Na E). rewrite (schema_value_accepted _ _ Sv), Sc. cbn [negb]. eexists. split; [reflexivity|].
       destruct (schema_key_there attr o V Sc Sm Na ltac:(congruence)) as [Kok Kd]. constructor.
       - constructor; [exact V|constructor; [exact Kok|constructor]].
       - apply fresh_none. intros w [<-|[<-|[]]]; reflexivity.
       - intros w k [<-|[<-|[]]] X; [cbn in *; congruence|discriminate].
       - intros o0 v0 _ w [<-|[<-|[]]]; reflexivity.
       - reflexivity.
       - intros w attr' o' [<-|[<-|[]]] V'; [now apply w_attr_item|now left].
       - intros w o' k [<-|[<-|[]]] V'; [now left|now apply w_dict_key].
       - intros o' V' Ho Nn. assert (o' = o) by auto. subst o'. split; [eexists; split; [now left|exact At]|]. intros _ _. right. now left. }
  all: eexists; split; [reflexivity|]; split.
  all: try (constructor; [exact V|constructor]); try reflexivity.
  all: try (apply fresh_none; intros w [<-|[]]; reflexivity).
  all: try (intros w k [<-|[]] X; cbn in *; congruence).
  all: try (intros o0 v0 _ w [<-|[]]; reflexivity).
  all: try (intros w attr' o' [<-|[]] V'; now apply w_attr_item).
  all: try (intros w o' k [<-|[]] V'; now left).
  all: intros o' V' Ho Nn; assert (o' = o) by auto; subst o'; split; [eexists; split; [now left|exact At]|]; intros Sc' Na'; exfalso; try congruence.
  exact (Na' En).
Qed.

Lemma alloc_writes attr cs o vs : In (attr, cs) (m_attrs m) -> In (CAlloc o vs) cs -> exists y, decode_chunk attr (CAlloc o vs) = Some y /\ good_writes attr (CAlloc o vs) y.
Proof.
  intros I J. destruct (de_all asize m c D attr cs o vs I J) as (A & Sm & Ln & At & Qu). assert (Ea := alloc_self o A). destruct A as [W O].
  assert (En : forall o', exists_object asize o' -> allocation_of o' = o -> nth_error vs (N.to_nat (offset o')) = Some (c_attr c attr o') /\ (offset o' < N.of_nat (length vs))%N).
  { intros o' [W' V'] E'. assert (is_small_alloc o' = false) by (change (is_small_alloc (allocation_of o') = false); now rewrite E'). specialize (V' H). rewrite E' in V'.
    rewrite At by lia. rewrite <- E', object_reassemble by auto. split; auto. lia. }
  assert (Oal : forall o', (exists v0, CAlloc o vs = CItem o' v0) \/ (exists vs0, CAlloc o vs = CAlloc (allocation_of o') vs0) -> allocation_of o' = o).
  { intros o' [(v0 & X)|(vs0 & X)]; [discriminate|injection X as X _; congruence]. }
  cbn [decode_chunk]. rewrite Ea, O. cbn [N.eqb negb]. destruct (N.ltb_spec (capacity o) (N.of_nat (length vs))); [lia|].
  destruct (negb (is_schema o) || String.eqb attr kSchemaNameAttr) eqn:Ty.
  - eexists. split; [reflexivity|]. constructor.
    + constructor; [|constructor]. split; [split; auto|]. split; auto. split; [exact Ln|]. split; [apply build_dslice_wf|].
      intros off v L. rewrite build_dslice_at. unfold entry_of. intros X. apply (Qu off v L). destruct (nth_error vs (N.to_nat off)); [congruence|discriminate].
    + cbn. auto.
    + intros w k [<-|[]] X. cbn in *. congruence.
    + intros o0 v0 X. discriminate.
    + reflexivity.
    + intros w attr' o' [<-|[]] V'. cbn [w_attr]. destruct (ds_values (build_dslice vs)) eqn:Ev; auto. destruct (string_dec attr attr') as [<-|]; auto.
      destruct (oid_eq_dec (allocation_of o') o) as [E'|]; auto. right. rewrite array_entry_values by (rewrite Ev; discriminate). destruct (En o' V' E') as [X L].
      cbn [ds_size build_dslice]. destruct (N.ltb_spec (offset o') (N.of_nat (length vs))); [|lia]. fold (build_dslice vs). rewrite build_dslice_at. unfold entry_of. now rewrite X.
    + intros w o' k [<-|[]] _. now left.
    + intros o' V' Ho Nn. assert (E' := Oal o' Ho). destruct (En o' V' E') as [X L]. split.
      * eexists. split; [now left|]. cbn [w_attr]. destruct (ds_values (build_dslice vs)) eqn:Ev.
        -- exfalso. assert (Nv := proj1 (build_dslice_nil vs) Ev). destruct (c_attr c attr o') as [[v|]|] eqn:Ec; [|clear Nn|congruence].
           ++ apply (Nv v). eapply nth_error_In; eauto.
           ++ destruct (Hv attr o' V') as (o2 & v2 & V2 & E2 & C2); auto.
              ** change (is_small_alloc (allocation_of o') = false). now rewrite E'.
              ** change (is_schema (allocation_of o') = false \/ attr = "__schema_name__"%string). rewrite E'. apply orb_true_iff in Ty as [Ty|Ty]; [left; now apply negb_true_iff|right; now apply String.eqb_eq].
              ** destruct (En o2 V2) as [X2 _]; [congruence|]. apply (Nv v2). rewrite C2 in X2. eapply nth_error_In; eauto.
        -- destruct (string_dec attr attr); [|congruence]. destruct (oid_eq_dec (allocation_of o') o); [|congruence].
           rewrite array_entry_values by (rewrite Ev; discriminate). cbn [ds_size build_dslice]. destruct (N.ltb_spec (offset o') (N.of_nat (length vs))); [|lia].
           fold (build_dslice vs). rewrite build_dslice_at. unfold entry_of. now rewrite X.
      * intros Sc Na. exfalso. change (is_schema (allocation_of o') = true) in Sc. rewrite E' in Sc. rewrite Sc in Ty. cbn in Ty. apply String.eqb_eq in Ty. exact (Na Ty).
  - apply orb_false_iff in Ty as [Sc Na]. apply negb_false_iff in Sc. apply String.eqb_neq in Na.
    assert (Cap : N.of_nat (length vs) = capacity o) by (rewrite (schemas_full o Sc) in Ln; lia).
    assert (Ob : forall i, i < length vs -> exists_object asize (object_by_offset o (N.of_nat i)) /\ allocation_of (object_by_offset o (N.of_nat i)) = o /\
      nth_error vs i = Some (c_attr c attr (object_by_offset o (N.of_nat i)))).
    { intros i L. assert (Eb : allocation_of (object_by_offset o (N.of_nat i)) = o) by (apply object_by_offset_alloc; [split; auto|lia]). 
      assert (V : exists_object asize (object_by_offset o (N.of_nat i))).
      { split; [apply object_by_offset_wf; [split; auto|lia]|]. intros _. rewrite Eb, object_by_offset_offset by (try split; auto; lia). rewrite (schemas_full o Sc). lia. }
      split; auto. split; auto. destruct (En _ V Eb) as [X _]. rewrite object_by_offset_offset in X by (try split; auto; lia). now rewrite Nat2N.id in X. }
    assert (Sv : forall v, In (Some v) vs -> schema_value (text_of attr) v).
    { intros v Iv. apply In_nth_error in Iv as (i & Ei). assert (L : i < length vs) by (apply nth_error_Some; congruence).
      destruct (Ob i L) as (V & Eb & Eq). apply (schema_value_attr attr (object_by_offset o (N.of_nat i))); auto; congruence. }
    assert (Nt : text_of attr <> text_of "__schema_name__") by (intros X; apply text_of_inj in X; exact (Na X)).
    unfold set_schema_attrs. destruct (forallb _ (set_ids o vs)) eqn:Fa.
    { eexists. split; [reflexivity|]. constructor; try easy. intros o' V' Ho Nn. exfalso. assert (E' := Oal o' Ho). destruct (En o' V' E') as [X L].
      rewrite forallb_forall in Fa. destruct (c_attr c attr o') as [x|] eqn:Ec; [|congruence].
      specialize (Fa (Some o')). cbn in Fa. discriminate Fa. rewrite set_ids_objects. apply (nth_error_In _ (N.to_nat (offset o'))).
      apply (nth_set_objects o (build_dslice vs) _ o' (build_dslice_wf vs)). cbn [ds_size build_dslice]. fold (build_dslice vs). rewrite N2Nat.id, build_dslice_at. unfold entry_of. rewrite X.
      split; [lia|]. split; [|discriminate]. rewrite <- E'. symmetry. apply object_reassemble, V'. }
    rewrite Sc. cbn [negb].
    assert (Ok : schema_values_ok attr (set_ids o vs) (plain vs) = true).
    { unfold schema_values_ok.
      assert (Each : forallb (fun '(o0, v) => match o0 with Some _ => same_text (text_of attr) (text_of kSchemaMetadataAttr) || is_schema_or_none v | None => true end) (combine (set_ids o vs) (plain vs)) = true).
      { apply forallb_forall. intros [o0 v] Ic. destruct o0 as [o0|]; auto. destruct (same_text_spec (text_of attr) (text_of kSchemaMetadataAttr)) as [|Nm]; auto. cbn [orb].
        apply In_nth_error in Ic as (i & Ei).
        assert (L : i < length vs). { assert (L : i < length (combine (set_ids o vs) (plain vs))) by (apply nth_error_Some; congruence). rewrite combine_length in L. unfold plain in L. rewrite map_length in L. lia. }
        assert (E1 : nth_error (set_ids o vs) i = Some (Some o0) /\ nth_error (plain vs) i = Some v).
        { clear - Ei. revert i Ei. generalize (set_ids o vs), (plain vs). induction l as [|x l IH]; intros [|y l'] [|i] E; cbn in *; try discriminate; [injection E as -> ->; auto|auto]. }
        destruct E1 as [E1 E2]. rewrite set_ids_objects in E1. apply (nth_set_objects o _ i o0 (build_dslice_wf vs)) in E1 as (_ & _ & R). rewrite build_dslice_at in R. unfold entry_of in R. rewrite Nat2N.id in R.
        unfold plain in E2. rewrite nth_error_map in E2. destruct (nth_error vs i) as [[w|]|] eqn:Ew; try congruence. cbn in E2. assert (w = v) by congruence. subst w.
        destruct (Sv v) as (_ & _ & S3); [eapply nth_error_In; eauto|]. apply schema_or_none_ok. apply S3; auto. }
      destruct (slice_kind (build_slice (plain vs))) as [k|] eqn:Sk; [|exact Each].
      apply slice_kind_in in Sk as (v & Iv & <-). apply in_map_iff in Iv as (x & Ex & Iv). destruct x as [x|]; [subst x|discriminate].
      destruct (Sv (Some v) Iv) as (_ & S2 & S3). destruct (same_text_spec (text_of attr) (text_of kSchemaMetadataAttr)) as [Em|Nm].
      - destruct (S2 Em) as [o1 X]. injection X as ->. cbn [projT1 val]. exact Each.
      - destruct (S3 Nt Nm) as [X|[[d X]|[o1 [X _]]]]; [discriminate| |]; injection X as ->; cbn [projT1 val]; auto. }
    rewrite Ok. cbn [negb]. rewrite Sm. eexists. split; [reflexivity|].
    assert (Lw : forall o', wf o' -> last_write (writes (set_ids o vs) (build_slice (plain vs))) o' = if oid_eq_dec (allocation_of o') o then entry_of vs (offset o') else None).
    { intros o' W'. rewrite plain_writes. rewrite (last_write_full asize asize_ok o (build_dslice vs)); auto.
      - destruct (oid_eq_dec (allocation_of o') o) as [E'|]; auto. cbn [ds_size build_dslice]. fold (build_dslice vs). rewrite build_dslice_at.
        destruct (N.ltb_spec (offset o') (N.of_nat (length vs))) as [|Ge]; auto. unfold entry_of. replace (nth_error vs (N.to_nat (offset o'))) with (@None (option ditem)); auto.
        symmetry. apply nth_error_None. lia.
      - split; auto.
      - intros _. cbn. rewrite (schemas_full o Sc). exact Cap.
      - apply build_dslice_wf. }
    assert (Some_there : exists o', exists_object asize o' /\ allocation_of o' = o /\ c_attr c attr o' <> None).
    { destruct (existsb (fun x => match x with Some _ => true | None => false end) (set_ids o vs)) eqn:Ex.
      - apply existsb_exists in Ex as ([x|] & Ix & Hx); [|discriminate]. apply In_nth_error in Ix as (i & Ei). rewrite set_ids_objects in Ei.
        apply (nth_set_objects o _ i x (build_dslice_wf vs)) in Ei as (L & _ & R). cbn in L. rewrite Nat2N.id in L. destruct (Ob i L) as (V & Eb & Eq).
        exists (object_by_offset o (N.of_nat i)). split; auto. split; auto. rewrite build_dslice_at in R. unfold entry_of in R. rewrite Nat2N.id, Eq in R. exact R.
      - exfalso. clear - Fa Ex. induction (set_ids o vs) as [|[x|] r IH]; cbn in *; try discriminate. auto. }
    assert (Kk : wop_ok (WKey o (val KText (text_of attr)) (Some (val KUnit tt))) /\ c_dict c o (val KText (text_of attr)) = Some (Some (val KUnit tt))).
    { destruct Some_there as (o' & V' & E' & Nn). assert (Sc' : is_schema o' = true) by (change (is_schema (allocation_of o') = true); now rewrite E').
      assert (Sm' : is_small_alloc o' = false) by (change (is_small_alloc (allocation_of o') = false); now rewrite E').
      rewrite <- E'. now apply schema_key_there. }
    destruct Kk as [Kok Kd]. constructor.
    + constructor; [|constructor; [exact Kok|constructor]]. cbn [BagLoadProofs.wop_ok op_ok].
      assert (Szb : is_small_alloc o = false -> ds_size (build_dslice vs) = asize o) by (intros _; cbn; rewrite (schemas_full o Sc); exact Cap).
      assert (Pr : forall x, In x (present (set_ids o vs)) -> exists_object asize x /\ allocation_of x = o).
      { intros x Ix. rewrite set_ids_objects in Ix. apply (in_set_objects asize asize_ok o (build_dslice vs)) in Ix as (off & L & -> & _); auto; [|apply build_dslice_wf].
        cbn in L. destruct (Ob (N.to_nat off)) as (V & Eb & _); [lia|]. rewrite N2Nat.id in V, Eb. auto. }
      split; [rewrite set_ids_objects, set_objects_length; cbn; unfold plain; rewrite map_length; lia|]. split; [apply build_slice_ok|].
      split; [apply Forall_forall; intros x Ix; now apply Pr|]. split; [right; rewrite set_ids_objects; apply (set_objects_NoDup asize asize_ok); auto; split; auto|].
      split; [constructor; [split; [split; [exact W|exact O]|exact Sm]|constructor]|]. apply Forall_forall. intros x Ix. destruct (Pr x Ix) as [V Eb].
      replace (is_small_alloc x) with false; [left; now symmetry|]. symmetry. change (is_small_alloc (allocation_of x) = false). now rewrite Eb.
    + apply fresh_none. intros w [<-|[<-|[]]]; reflexivity.
    + intros w k [<-|[<-|[]]] X; [cbn in *; congruence|discriminate].
    + intros o0 v0 X. discriminate.
    + reflexivity.
    + intros w attr' o' [<-|[<-|[]]] V'; [|now left]. cbn [w_attr]. destruct (string_dec attr attr') as [<-|]; auto. rewrite Lw by apply V'.
      destruct (oid_eq_dec (allocation_of o') o) as [E'|]; auto. right. unfold entry_of. destruct (En o' V' E') as [X _]. now rewrite X.
    + intros w o' k [<-|[<-|[]]] V'; [now left|now apply w_dict_key].
    + intros o' V' Ho Nn. assert (E' := Oal o' Ho). split.
      * eexists. split; [now left|]. cbn [w_attr]. destruct (string_dec attr attr); [|congruence]. rewrite Lw by apply V'. destruct (oid_eq_dec (allocation_of o') o); [|congruence].
        unfold entry_of. destruct (En o' V' E') as [X _]. now rewrite X.
      * intros _ _. rewrite E'. right. now left.
Qed.
Lemma chunk_writes attr cs ck : In (attr, cs) (m_attrs m) -> In ck cs -> exists y, decode_chunk attr ck = Some y /\ good_writes attr ck y.
Proof. destruct ck; [apply item_writes|apply alloc_writes]. Qed.

Lemma dict_writes o ks vs : In (o, ks, vs) (m_dicts m) -> exists y, decode_dict (o, ks, vs) = Some y /\ Forall wop_ok y /\ (forall w, In w y -> exists k v, w = WKey o k v /\ c_dict c o k = Some v) /\
  (forall k v, In (k, v) (combine ks vs) -> is_schema o = false \/ is_small_alloc o = true -> In (WKey o k v) y).
Proof.
  intros I. destruct (de_dict asize m c D o ks vs I) as (W & Ki & Ln & Kv). cbn [decode_dict]. rewrite Ln, Nat.eqb_refl. cbn [negb].
  assert (Ok : forall k v, In (k, v) (combine ks vs) -> wop_ok (WKey o k v)) by (intros k v J; split; [exact W|split; [exact Ki|now apply (Kv k v)]]).
  destruct (is_schema o) eqn:Sc.
  - destruct (is_small_alloc o) eqn:Sm.
    + assert (X : forall k v, In (k, v) (combine ks vs) -> match as_kind KText k with Some attr => set_schema_key o attr v | None => None end = Some [WKey o k v]).
      { intros k v J. destruct (so_alone_dict asize c So o k v W Sc Sm (proj1 (Kv k v J))) as (attr & -> & Sv). rewrite as_kind_val. unfold set_schema_key.
        rewrite (schema_value_accepted _ _ Sv), Sc. reflexivity. }
      rewrite (concat_opt_flat (fun '(k, v) => [WKey o k v])) by (intros [k v] J; now apply X). eexists. split; [reflexivity|].
      assert (Fm : forall w, In w (flat_map (fun '(k, v) => [WKey o k v]) (combine ks vs)) <-> exists k v, In (k, v) (combine ks vs) /\ w = WKey o k v).
      { intros w. rewrite in_flat_map. split; [intros ([k v] & J & [<-|[]]); eauto|intros (k & v & J & ->); exists (k, v); split; auto; now left]. }
      split; [apply Forall_forall; intros w J; apply Fm in J as (k & v & J & ->); auto|]. split.
      * intros w J. apply Fm in J as (k & v & J & ->). exists k, v. split; auto. now apply (Kv k v).
      * intros k v J _. apply Fm. eauto.
    + exists []. split; auto. split; auto. split; [easy|]. intros k v J [X|X]; discriminate.
  - assert (Id : is_dict (allocation_of o) = true) by (change (is_schema (allocation_of o)) with (is_schema o) in Ki; rewrite Sc, orb_false_r in Ki; exact Ki).
    destruct ks as [|k0 ks].
    + exists []. split; auto. split; auto. split; [easy|]. intros k v [].
    + assert (Ex : existsb (fun k => unsupported_key (Some k)) (k0 :: ks) = false).
      { destruct (existsb (fun k => unsupported_key (Some k)) (k0 :: ks)) eqn:Ex; auto. apply existsb_exists in Ex as (k & J & Uk).
        assert (Y : exists v, In (k, v) (combine (k0 :: ks) vs)).
        { clear - J Ln. revert vs Ln J. generalize (k0 :: ks). induction l as [|x l IH]; intros [|v vs] Ln J; try easy. destruct J as [->|J]; [exists v; now left|].
          destruct (IH vs ltac:(cbn in Ln; lia) J) as (v' & J'). exists v'. now right. }
        destruct Y as (v & Y). destruct (Kv k v Y). congruence. }
      rewrite Ex, Id. cbn [negb]. eexists. split; [reflexivity|].
      assert (Fm : forall w, In w (map (fun '(k, v) => WKey o k v) (combine (k0 :: ks) vs)) <-> exists k v, In (k, v) (combine (k0 :: ks) vs) /\ w = WKey o k v).
      { intros w. rewrite in_map_iff. split; [intros ([k v] & <- & J); eauto|intros (k & v & J & ->); exists (k, v); auto]. }
      split; [apply Forall_forall; intros w J; apply Fm in J as (k & v & J & ->); auto|]. split.
      * intros w J. apply Fm in J as (k & v & J & ->). exists k, v. split; auto. now apply (Kv k v).
      * intros k v J _. apply Fm. eauto.
Qed.

Lemma ext_ids_app a b : ext_ids (a ++ b) = ext_ids a ++ ext_ids b.
Proof. unfold ext_ids. apply flat_map_app. Qed.
Lemma ext_ids_none ws : (forall w, In w ws -> ext_ids [w] = []) -> ext_ids ws = [].
Proof. induction ws as [|w r IH]; intros F; auto. change (w :: r) with ([w] ++ r). rewrite ext_ids_app, (F w (or_introl eq_refl)), IH; auto. intros w' I. apply F. now right. Qed.
Lemma ext_ids_each y w : ext_ids y = [] -> In w y -> ext_ids [w] = [].
Proof. intros E I. destruct w; auto. exfalso. assert (X : In o (ext_ids y)) by (apply in_flat_map; exists (WExtend o vs); split; auto; now left). now rewrite E in X. Qed.

Lemma attr_writes attr cs : In (attr, cs) (m_attrs m) -> exists y, decode_attr (attr, cs) = Some y /\ fresh y /\ (forall w k, In w y -> wop_key w = Some k -> snd k = attr) /\
  (forall w, In w y <-> exists ck z, In ck cs /\ decode_chunk attr ck = Some z /\ In w z).
Proof.
  intros I. unfold decode_attr. destruct (concat_opt_map (decode_chunk attr) cs) as (y & Ey & Y).
  { intros ck J. destruct (chunk_writes attr cs ck I J) as (z & -> & _). easy. }
  exists y. split; auto. split; [|split; auto].
  - destruct (de_apart asize m c D attr cs I) as (items & allocs & Ec & Nd & Ap). rewrite Ec, map_app in Ey. apply concat_opt_app in Ey as (r1 & r2 & E1 & E2 & ->).
    assert (R1 := concat_opt_in _ _ _ E1). assert (R2 := concat_opt_in _ _ _ E2).
    assert (Ic : forall ck, In ck (map (fun '(o, v) => CItem o v) items) -> In ck cs) by (intros ck J; rewrite Ec; apply in_app_iff; now left).
    assert (Ac : forall ck, In ck (map (fun '(o, vs) => CAlloc o vs) allocs) -> In ck cs) by (intros ck J; rewrite Ec; apply in_app_iff; now right).
    apply fresh_app.
    + apply fresh_none. intros w J. apply R1 in J as (ck & z & J & Ez & Jw). destruct (chunk_writes attr cs ck I (Ic ck J)) as (z' & Ez' & G).
      assert (z' = z) by congruence. subst z'. apply in_map_iff in J as ([o v] & <- & _). exact (g_item _ _ _ G o v eq_refl w Jw).
    + rewrite map_map in E2. revert E2. apply (concat_fresh (fun x => decode_chunk attr (let '(o, vs) := x in CAlloc o vs)) fst fst allocs); auto.
      intros [o vs] z J Ez. destruct (chunk_writes attr cs (CAlloc o vs) I) as (z' & Ez' & G); [apply Ac, in_map_iff; exists (o, vs); auto|].
      assert (z' = z) by congruence. subst z'. split; [apply (g_fresh _ _ _ G)|]. intros w k Jw Ek. rewrite (g_key _ _ _ G w k Jw Ek). reflexivity.
    + intros w w' k J J' Ek Ef. apply R1 in J as (ck & z & J & Ez & Jw). apply R2 in J' as (ck' & z2 & J' & Ez2 & Jw').
      destruct (chunk_writes attr cs ck I (Ic ck J)) as (z' & Ez' & G). assert (z' = z) by congruence. subst z'.
      destruct (chunk_writes attr cs ck' I (Ac ck' J')) as (z3 & Ez3 & G2). assert (z3 = z2) by congruence. subst z3.
      assert (K1 := g_key _ _ _ G w k Jw Ek). assert (K2 : k = (chunk_alloc ck', attr)) by (apply (g_key _ _ _ G2 w'); auto; destruct w'; try discriminate; exact Ef).
      apply in_map_iff in J as ([o v] & <- & J). apply in_map_iff in J' as ([o' vs] & <- & J'). cbn in K1, K2. apply (Ap o v J). apply in_map_iff. exists (o', vs). split; auto. cbn. congruence.
  - intros w k J Ek. apply Y in J as (ck & z & J & Ez & Jw). destruct (chunk_writes attr cs ck I J) as (z' & Ez' & G). assert (z' = z) by congruence. subst z'.
    rewrite (g_key _ _ _ G w k Jw Ek). reflexivity.
Qed.

Theorem decode_ok : exists ws, decode_writes m = Some ws /\ Forall wop_ok ws /\ fresh ws /\
  same_content asize c (fold_left (fun c w => weff w c) ws empty_content).
Proof.
  unfold decode_writes.
  destruct (concat_opt_map decode_attr (m_attrs m)) as (ws1 & E1 & W1).
  { intros [attr cs] I. destruct (attr_writes attr cs I) as (y & -> & _). easy. }
  destruct (concat_opt_map decode_dict (m_dicts m)) as (ws3 & E3 & W3).
  { intros [[o ks] vs] I. destruct (dict_writes o ks vs I) as (y & -> & _). easy. }
  rewrite E1, E3. cbn [bind]. eexists. split; [reflexivity|].
  assert (C1 : forall w, In w ws1 -> exists attr cs ck y, In (attr, cs) (m_attrs m) /\ In ck cs /\ In w y /\ good_writes attr ck y).
  { intros w I. apply W1 in I as ([attr cs] & y & I & Ey & J). destruct (attr_writes attr cs I) as (y' & Ey' & _ & _ & Yw). assert (y' = y) by congruence. subst y'.
    apply Yw in J as (ck & z & J & Ez & Jw). destruct (chunk_writes attr cs ck I J) as (z' & Ez' & G). assert (z' = z) by congruence. subst z'. exists attr, cs, ck, z. auto. }
  assert (C1r : forall attr cs ck, In (attr, cs) (m_attrs m) -> In ck cs -> exists y, good_writes attr ck y /\ forall w, In w y -> In w ws1).
  { intros attr cs ck I J. destruct (chunk_writes attr cs ck I J) as (z & Ez & G). exists z. split; auto. intros w Jw. destruct (attr_writes attr cs I) as (y & Ey & _ & _ & Yw).
    apply W1. exists (attr, cs), y. split; auto. split; auto. apply Yw. eauto. }
  assert (C3 : forall w, In w ws3 -> wop_ok w /\ exists o k v, w = WKey o k v /\ c_dict c o k = Some v).
  { intros w I. apply W3 in I as ([[o ks] vs] & y & I & Ey & J). destruct (dict_writes o ks vs I) as (y' & Ey' & Fo & Fk & _). assert (y' = y) by congruence. subst y'.
    rewrite Forall_forall in Fo. split; auto. destruct (Fk w J) as (k & v & ? & ?). eauto. }
  assert (C2 : forall w, In w (flat_map decode_list (m_lists m)) <-> exists o l, In (o, l) (m_lists m) /\ w = WExtend o l).
  { intros w. rewrite in_flat_map. split; [intros ([o l] & I & [<-|[]]); eauto|intros (o & l & I & ->); exists (o, l); split; auto; now left]. }
  assert (Ext : ext_ids (ws1 ++ flat_map decode_list (m_lists m) ++ ws3) = map fst (m_lists m)).
  { rewrite !ext_ids_app. rewrite (ext_ids_none ws1), (ext_ids_none ws3).
    - cbn [app]. rewrite app_nil_r. clear. induction (m_lists m) as [|[o l] r IH]; cbn; auto. now f_equal.
    - intros w I. destruct (C3 w I) as (_ & o & k & v & -> & _). reflexivity.
    - intros w I. destruct (C1 w I) as (attr & cs & ck & y & _ & _ & J & G). exact (ext_ids_each y w (g_ext _ _ _ G) J). }
  split; [|split].
  - apply Forall_forall. intros w I. apply in_app_iff in I as [I|I]; [|apply in_app_iff in I as [I|I]].
    + destruct (C1 w I) as (attr & cs & ck & y & _ & _ & J & G). assert (F := g_ok _ _ _ G). rewrite Forall_forall in F. auto.
    + apply C2 in I as (o & l & I & ->). split; [now apply (de_list asize m c D o l)|exact (de_list_kind asize m c D o l I)].
    + now apply C3.
  - apply fresh_app; [| |].
    + revert E1. apply (concat_fresh decode_attr fst snd); [exact (de_names asize m c D)|]. intros [attr cs] y I Ey. destruct (attr_writes attr cs I) as (y' & Ey' & F & Kk & _).
      assert (y' = y) by congruence. subst y'. auto.
    + apply fresh_none. intros w I. apply in_app_iff in I as [I|I]; [apply C2 in I as (o & l & _ & ->); reflexivity|]. destruct (C3 w I) as (_ & o & k & v & -> & _). reflexivity.
    + intros w w' k _ I _. apply in_app_iff in I as [I|I]; [apply C2 in I as (o & l & _ & ->); discriminate|]. destruct (C3 w' I) as (_ & o & k' & v & -> & _). discriminate.
  - split; [|split].
    + intros attr o V. apply run_attr.
      * intros w I. apply in_app_iff in I as [I|I]; [|apply in_app_iff in I as [I|I]].
        -- destruct (C1 w I) as (attr' & cs & ck & y & _ & _ & J & G). exact (g_attr _ _ _ G w attr o J V).
        -- apply C2 in I as (o' & l & _ & ->). now left.
        -- destruct (C3 w I) as (_ & o' & k & v & -> & _). now left.
      * right. split; auto. intros Nn. destruct (c_attr c attr o) as [v|] eqn:Ec; [|congruence]. destruct (de_found asize m c D attr o v V Ec) as (cs & I & Ck).
        assert (X : exists ck, In ck cs /\ ((exists v, ck = CItem o v) \/ exists vs, ck = CAlloc (allocation_of o) vs)) by (destruct Ck as [Ck|(vs & Ck)]; eauto 6).
        destruct X as (ck & J & Ho). destruct (C1r attr cs ck I J) as (y & G & Yw). destruct (g_hit _ _ _ G o V Ho) as [(w & Jw & Nw) _]; [congruence|].
        exists w. split; auto. apply in_app_iff. left. auto.
    + intros o W. destruct (c_list c o) as [l|] eqn:Ec.
      * apply run_list_some; auto; [rewrite Ext; exact (de_lists asize m c D)|]. apply in_app_iff. right. apply in_app_iff. left. apply C2. exists o, l. split; auto. apply (de_list asize m c D). auto.
      * rewrite run_list_none; auto. rewrite Ext. intros I. apply in_map_iff in I as ([o' l] & E & I). cbn in E. subst o'. apply (de_list asize m c D) in I as [_ I]. congruence.
    + intros o k W. apply run_dict.
      * intros w I. apply in_app_iff in I as [I|I]; [|apply in_app_iff in I as [I|I]].
        -- destruct (C1 w I) as (attr' & cs & ck & y & _ & _ & J & G). exact (g_dict _ _ _ G w o k J W).
        -- apply C2 in I as (o' & l & _ & ->). now left.
        -- destruct (C3 w I) as (_ & o' & k' & v & -> & E). now apply w_dict_key.
      * right. split; auto. intros Nn. destruct (c_dict c o k) as [v|] eqn:Ec; [|congruence].
        assert (Hit : forall v', w_dict (WKey o k v') o k <> None) by (intros v'; cbn; destruct (oid_eq_dec o o); [|congruence]; destruct (value_eqb_spec k k); congruence).
        destruct (is_schema o) eqn:Sc; [destruct (is_small_alloc o) eqn:Sm|].
        2: { apply (so_many_dict asize c So o k v W Sc Sm) in Ec as (Oz & -> & attr & o' & Na & -> & V' & Ea & Nn').
             assert (Eo : allocation_of o = o) by (apply alloc_self; split; auto). destruct (c_attr c attr o') as [v'|] eqn:Ec'; [|congruence].
             destruct (de_found asize m c D attr o' v' V' Ec') as (cs & I & Ck).
             assert (X : exists ck, In ck cs /\ ((exists v, ck = CItem o' v) \/ exists vs, ck = CAlloc (allocation_of o') vs)) by (destruct Ck as [Ck|(vs & Ck)]; eauto 6).
             destruct X as (ck & J & Ho). destruct (C1r attr cs ck I J) as (y & G & Yw). destruct (g_hit _ _ _ G o' V' Ho) as [_ Hk]; [congruence|].
             exists (WKey o (val KText (text_of attr)) (Some (val KUnit tt))). split; [|apply Hit]. apply in_app_iff. left. apply Yw. rewrite <- Eo, <- Ea. apply Hk; auto.
             change (is_schema (allocation_of o') = true). rewrite Ea. exact Sc. }
        all: destruct (de_dict_found asize m c D o k v W Ec) as (ks & vs & I & J); destruct (dict_writes o ks vs I) as (y & Ey & _ & _ & Hk);
          exists (WKey o k v); split; [|apply Hit]; apply in_app_iff; right; apply in_app_iff; right; apply W3; exists (o, ks, vs), y; auto.
Qed.
End Decode.
