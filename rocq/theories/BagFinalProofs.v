(** The lemmas behind the theorems of BagProps.v. *)
From Coq Require Import String NArith ZArith List Bool Arith Lia Permutation.
From Verif Require Import ObjectIdModel ObjectIdProofs SchemaModel ItemModel DictModel DictSpec DictProofs
  SourceModel SourceSpec SourceProofs BagModel CollProofs BagProofs LayerProofs ContainerProofs
  MergeModel MergeSourceProofs MergeFold MergeBigProofs MergeLayerProofs BagSpec MergeImplProofs UpdateProofs ReadProofs BagKeysProofs
  BagStateProofs BagStepProofs BagOpsProofs BagRunProofs BagReads BagViewProofs BagResultProofs.
Import ListNotations.
Local Open Scope nat_scope.

Section Final.
Variable asize : ObjectId -> N.
Hypothesis asize_ok : forall a, (asize a <= capacity a)%N.
Variable iter : dmap -> dmap.
Hypothesis any_order : forall m, Permutation (iter m) m.
Notation same_content := (same_content asize).
Notation same_trans := (same_trans asize).
Notation same_sym := (same_sym asize).
Notation same_refl := (same_refl asize).
Notation history := (history asize).
Notation after := (after iter).
Notation all_unchanged := (all_unchanged asize).
Notation others_unchanged := (others_unchanged asize).
Notation writes_add_up := (writes_add_up asize asize_ok iter any_order).
Notation unchanged := (unchanged asize asize_ok iter any_order).
Notation fork_result := (fork_result asize asize_ok iter any_order).
Notation merge_result := (merge_result asize asize_ok iter any_order).
Notation update_result := (update_result asize asize_ok iter any_order).

Lemma fold_attrs b ops2 : forall c attr o, c_attr (fold_left (content_after b) ops2 c) attr o = fold_left (attr_after b attr o) ops2 (c_attr c attr o).
Proof. induction ops2 as [|op ops2 IH]; intros; cbn [fold_left]; auto. now rewrite IH. Qed.
Lemma fold_lists b ops2 : forall c o, c_list (fold_left (content_after b) ops2 c) o = fold_left (list_after b o) ops2 (c_list c o).
Proof. induction ops2 as [|op ops2 IH]; intros; cbn [fold_left]; auto. now rewrite IH. Qed.
Lemma fold_dicts b ops2 : forall c o, c_dict (fold_left (content_after b) ops2 c) o = fold_left (dict_after b o) ops2 (c_dict c o).
Proof. induction ops2 as [|op ops2 IH]; intros; cbn [fold_left]; auto. now rewrite IH. Qed.
Lemma dict_after_cong b o op (f g : fmap) : (forall k, g k = f k) -> forall k, dict_after b o g op k = dict_after b o f op k.
Proof.
  intros E k. destruct op; cbn [dict_after]; auto. destruct (_ && _); auto. destruct (oid_eq_dec _ _); auto. now apply f_step_cong.
Qed.
Lemma dict_fold_cong b o ops2 : forall f g : fmap, (forall k, g k = f k) -> forall k, fold_left (dict_after b o) ops2 g k = fold_left (dict_after b o) ops2 f k.
Proof. induction ops2 as [|op ops2 IH]; intros f g E k; cbn [fold_left]; auto. apply IH. intros k'. now apply dict_after_cong. Qed.

Lemma last_write_result ops ops2 b : history (ops ++ ops2) -> is_mutable (after ops) b = true ->
  forallb (fun op => negb (merges_or_closes b op)) ops2 = true ->
  is_mutable (after (ops ++ ops2)) b = true /\
  forall attr o, exists_object asize o ->
    c_attr (seen (after (ops ++ ops2)) b) attr o = fold_left (attr_after b attr o) ops2 (c_attr (seen (after ops) b) attr o).
Proof.
  intros Hi M C. destruct (writes_add_up ops ops2 b Hi M C) as (M2 & A & _ & _). split; auto. intros attr o E. now rewrite A, fold_attrs.
Qed.
Lemma writes_lists ops ops2 b c : history (ops ++ ops2) -> is_mutable (after ops) b = true ->
  forallb (fun op => negb (merges_or_closes b op)) ops2 = true -> same_content c (seen (after ops) b) ->
   (forall o, wf o -> c_list (seen (after (ops ++ ops2)) b) o = fold_left (list_after b o) ops2 (c_list c o)) /\
   (forall o k, wf o -> c_dict (seen (after (ops ++ ops2)) b) o k = fold_left (dict_after b o) ops2 (c_dict c o) k).
Proof.
  intros Hi M C (_ & B1 & C1). destruct (writes_add_up ops ops2 b Hi M C) as (M2 & _ & B & D). split.
  - intros o W. now rewrite B, fold_lists, B1.
  - intros o k W. rewrite D, fold_dicts by auto. apply dict_fold_cong. intros. now apply C1.
Qed.
Lemma fork_writes ops b imm ops2 : history ((ops ++ [BFork b imm]) ++ ops2) ->
  has_bag (after ops) b -> fallbacks_of (after ops) b = [] ->
  let n := length (bags (after ops)) in
  let st := after ops in
  let st2 := after ((ops ++ [BFork b imm]) ++ ops2) in
  (is_mutable st b = true -> forallb (fun op => negb (merges_or_closes b op)) ops2 = true ->
   (forall o, wf o -> c_list (seen st2 b) o = fold_left (list_after b o) ops2 (c_list (seen st b) o)) /\
   (forall o k, wf o -> c_dict (seen st2 b) o k = fold_left (dict_after b o) ops2 (c_dict (seen st b) o) k)) /\
  (imm = false -> forallb (fun op => negb (merges_or_closes n op)) ops2 = true ->
   (forall o, wf o -> c_list (seen st2 n) o = fold_left (list_after n o) ops2 (c_list (seen st b) o)) /\
   (forall o k, wf o -> c_dict (seen st2 n) o k = fold_left (dict_after n o) ops2 (c_dict (seen st b) o) k)).
Proof.
  intros Hi Hb Fb. cbn zeta. destruct (fork_result ops b imm (history_app asize _ _ Hi) Hb Fb) as (_ & _ & Sn & Mn & _ & U). destruct (U b Hb) as (_ & Sb & Mb). split.
  - intros M C. apply writes_lists; auto. congruence.
  - intros -> C. apply writes_lists; auto.
Qed.
Lemma edit_list_result ops b o n f : history (ops ++ [BEditList b o n f]) -> is_mutable (after ops) b = true ->
  let st := after ops in
  let st' := after (ops ++ [BEditList b o n f]) in
  others_unchanged st st' b /\
  (forall attr o', exists_object asize o' -> c_attr (seen st' b) attr o' = c_attr (seen st b) attr o') /\
  (forall o' k, wf o' -> c_dict (seen st' b) o' k = c_dict (seen st b) o' k) /\
  (forall o', wf o' -> o' <> o -> c_list (seen st' b) o' = c_list (seen st b) o') /\
  snd (step iter st (BEditList b o n f)) = is_list (allocation_of o) /\
  c_list (seen st' b) o = if is_list (allocation_of o) then Some (f (list_items (c_list (seen st b) o))) else c_list (seen st b) o.
Proof.
  intros Hi M. cbn zeta. split; [exact (write_others asize asize_ok iter any_order _ _ Hi b eq_refl)|].
  destruct (write_result asize asize_ok iter any_order _ _ Hi b eq_refl M) as (_ & R). cbn [write_effect] in R.
  assert (O := last_ok asize _ _ Hi). cbn in O.
  destruct (is_list (allocation_of o)); destruct R as [Ok (A & B & C)]; cbn [c_attr c_list c_dict] in *.
  - split; auto. split; auto. split; [|split; auto].
    + intros o' W N. rewrite B by auto. destruct (oid_eq_dec o o'); congruence.
    + rewrite B by auto. destruct (oid_eq_dec o o); congruence.
  - split; auto.
Qed.
Lemma edit_dict_result ops b o op : history (ops ++ [BEditDict b o op]) -> is_mutable (after ops) b = true ->
  let st := after ops in
  let st' := after (ops ++ [BEditDict b o op]) in
  let good := is_dict (allocation_of o) || is_schema (allocation_of o) in
  others_unchanged st st' b /\
  (forall attr o', exists_object asize o' -> c_attr (seen st' b) attr o' = c_attr (seen st b) attr o') /\
  (forall o', wf o' -> c_list (seen st' b) o' = c_list (seen st b) o') /\
  (forall o' k, wf o' -> o' <> o -> c_dict (seen st' b) o' k = c_dict (seen st b) o' k) /\
  snd (step iter st (BEditDict b o op)) = good /\
  forall k, c_dict (seen st' b) o k = if good then f_step (c_dict (seen st b) o) op k else c_dict (seen st b) o k.
Proof.
  intros Hi M. cbn zeta. split; [exact (write_others asize asize_ok iter any_order _ _ Hi b eq_refl)|].
  destruct (write_result asize asize_ok iter any_order _ _ Hi b eq_refl M) as (_ & R). cbn [write_effect] in R.
  assert (O := last_ok asize _ _ Hi). cbn [op_ok] in O. destruct O as [O _].
  destruct (is_dict (allocation_of o) || is_schema (allocation_of o)); destruct R as [Ok (A & B & C)]; cbn [c_attr c_list c_dict] in *.
  - split; auto. split; auto. split; [|split; auto].
    + intros o' k W N. rewrite C by auto. destruct (oid_eq_dec o o'); congruence.
    + intros k. rewrite C by auto. destruct (oid_eq_dec o o); congruence.
  - split; auto.
Qed.
Lemma write_attributes_result ops op b : history (ops ++ [op]) -> is_mutable (after ops) b = true ->
  match op with BSetAttr c _ _ _ | BSetAttrs c _ _ _ _ _ | BCreate c _ _ | BSetFull c _ _ _ => c = b | _ => False end ->
  let st := after ops in
  let st' := after (ops ++ [op]) in
  snd (step iter st op) = true /\
  others_unchanged st st' b /\
  (forall attr o, exists_object asize o -> c_attr (seen st' b) attr o = attr_after b attr o (c_attr (seen st b) attr o) op) /\
  (forall o, wf o -> c_list (seen st' b) o = c_list (seen st b) o) /\
  (forall o k, wf o -> c_dict (seen st' b) o k = c_dict (seen st b) o k).
Proof.
  intros Hi M Hop. cbn zeta. assert (W : write_target op = Some b) by (destruct op; try easy; cbn; congruence).
  destruct (write_result asize asize_ok iter any_order _ _ Hi b W M) as (_ & R). assert (Wo := write_others asize asize_ok iter any_order _ _ Hi b W).
  assert (K := content_write asize b op (seen (after ops) b) W).
  destruct (write_effect op (seen (after ops) b)) as [c|] eqn:Ec; [|destruct op; easy]. destruct R as [Ok R].
  split; auto. split; auto. assert (K2 := same_trans _ _ _ (same_sym _ _ K) R). destruct K2 as (A & B & C). cbn [content_after c_attr c_list c_dict] in *.
  split; [exact A|]. split.
  - intros o Wf. rewrite B by auto. destruct op; easy.
  - intros o k Wf. rewrite C by auto. destruct op; easy.
Qed.
Lemma read_batch_result ops b objs ids has_small attr with_removed :
  history ops -> batch_ok asize objs ids has_small ->
  let st := after ops in
  get_attrs (layers st) attr ids has_small objs (impls_of st b) with_removed =
    map (fun o => match o with
                  | Some o => match c_attr (seen st b) attr o with Some v => v | None => None end
                  | None => None
                  end) objs /\
  get_attrs_with_removed (layers st) attr ids has_small objs (impls_of st b) =
    map (fun o => match o with Some o => c_attr (seen st b) attr o | None => Some None end) objs.
Proof.
  intros Hi (B1 & B2 & B3). cbn zeta. destruct (after_inv asize asize_ok iter any_order ops Hi) as [T I].
  assert (R : read_ok asize ids has_small objs).
  { split; auto. rewrite Forall_forall in *. intros o Io. split; [apply B1; auto|apply B3; auto]. }
  split.
  - rewrite (get_attrs_ok asize _ (i_heap _ _ _ I)) by auto. reflexivity.
  - rewrite (get_attrs_with_removed_ok asize _ (i_heap _ _ _ I)) by auto. reflexivity.
Qed.
Lemma refinement ops : history ops ->
  exists s, reaches asize ops (results iter ops init) s /\ length s = length (bags (after ops)) /\
    forall b, has_bag (after ops) b -> same_content (full s b) (seen (after ops) b).
Proof.
  intros Hi. exists (abs (after ops)). split; [now apply all_reached|]. split; [apply abs_len|].
  intros b Hb. now apply (after_seen asize asize_ok iter any_order).
Qed.
Lemma isolation ops ops2 b : history (ops ++ ops2) -> has_bag (after ops) b ->
  forallb (fun op => negb (writes_to b op)) ops2 = true ->
  has_bag (after (ops ++ ops2)) b /\ same_content (seen (after ops) b) (seen (after (ops ++ ops2)) b).
Proof. intros. apply unchanged; auto. Qed.
Lemma forks_independent ops b imm ops2 : history ((ops ++ [BFork b imm]) ++ ops2) ->
  has_bag (after ops) b -> fallbacks_of (after ops) b = [] ->
  let n := length (bags (after ops)) in
  let st2 := after ((ops ++ [BFork b imm]) ++ ops2) in
  (forallb (fun op => negb (writes_to b op)) ops2 = true -> same_content (seen (after ops) b) (seen st2 b)) /\
  (forallb (fun op => negb (writes_to n op)) ops2 = true -> same_content (seen (after ops) b) (seen st2 n)).
Proof.
  intros Hi Hb Fb. cbn zeta. destruct (fork_result ops b imm (history_app asize _ _ Hi) Hb Fb) as (_ & L & Sn & _ & _ & U). destruct (U b Hb) as (Hb2 & Sb & _).
  split; intros C.
  - eapply same_trans; [exact Sb|]. apply unchanged; auto.
  - eapply same_trans; [exact Sn|]. apply unchanged; auto. unfold has_bag. lia.
Qed.
Lemma frozen_unchanged ops ops2 b : history (ops ++ ops2) -> has_bag (after ops) b -> is_mutable (after ops) b = false ->
  has_bag (after (ops ++ ops2)) b /\
  same_content (seen (after ops) b) (seen (after (ops ++ ops2)) b) /\
  is_mutable (after (ops ++ ops2)) b = false.
Proof.
  intros Hi Hb M. destruct (unchanged ops ops2 b Hi Hb (or_intror M)) as [A B]. split; auto. split; auto.
  apply (stays_immutable asize asize_ok iter any_order); auto.
Qed.
Lemma refused ops op b : history (ops ++ [op]) -> writes_to b op = true -> has_bag (after ops) b -> is_mutable (after ops) b = false ->
  snd (step iter (after ops) op) = false /\ all_unchanged (after ops) (after (ops ++ [op])).
Proof.
  intros Hi W Hb M. split; [eapply (write_refused asize asize_ok iter any_order); eauto|].
  intros c Hc. apply (others asize asize_ok iter any_order ops op Hi c); auto.
  - destruct (Nat.eq_dec c b) as [->|N]; auto. left. destruct op; cbn in *; auto; apply Nat.eqb_eq in W; subst; apply Nat.eqb_neq; congruence.
  - intros ->. easy.
Qed.
Lemma with_fallbacks ops fbs : history (ops ++ [BWithFallbacks fbs]) ->
  let st := after ops in
  let st' := after (ops ++ [BWithFallbacks fbs]) in
  let n := length (bags st) in
  if forallb (fun f => (f <? length (bags st)) && negb (is_mutable st f)) fbs
  then snd (step iter st (BWithFallbacks fbs)) = true /\ length (bags st') = S n /\
    same_content (fold_right overlay empty_content (map (seen st) fbs)) (seen st' n) /\
    is_mutable st' n = false /\ all_unchanged st st'
  else snd (step iter st (BWithFallbacks fbs)) = false.
Proof.
  intros Hi. cbn zeta. destruct (forallb _ fbs) eqn:E.
  - now apply (fallbacks_result asize asize_ok iter any_order).
  - now apply (fallbacks_refused asize asize_ok iter any_order).
Qed.
Lemma repetition ops l1 f l2 l3 :
  history (ops ++ [BWithFallbacks (l1 ++ f :: l2 ++ f :: l3)]) ->
  history (ops ++ [BWithFallbacks (l1 ++ f :: l2 ++ l3)]) ->
  forallb (fun f => (f <? length (bags (after ops))) && negb (is_mutable (after ops) f)) (l1 ++ f :: l2 ++ l3) = true ->
  let n := length (bags (after ops)) in
  same_content (seen (after (ops ++ [BWithFallbacks (l1 ++ f :: l2 ++ l3)])) n)
    (seen (after (ops ++ [BWithFallbacks (l1 ++ f :: l2 ++ f :: l3)])) n).
Proof.
  intros H1 H2 F. cbn zeta.
  assert (F1 : forallb (fun f => (f <? length (bags (after ops))) && negb (is_mutable (after ops) f)) (l1 ++ f :: l2 ++ f :: l3) = true).
  { rewrite forallb_app in *. cbn [forallb] in *. rewrite forallb_app in *. cbn [forallb] in *. rewrite !andb_true_iff in F. rewrite !andb_true_iff. tauto. }
  destruct (fallbacks_result asize asize_ok iter any_order ops _ H2 F) as (_ & _ & S2 & _).
  destruct (fallbacks_result asize asize_ok iter any_order ops _ H1 F1) as (_ & _ & S1 & _).
  eapply same_trans; [apply same_sym, S2|]. eapply same_trans; [apply repeat_overlay|exact S1].
Qed.
Lemma merged_overlay ow this other aft :
  merged asize (policy_of ow true) (policy_of ow true) this other aft -> same_content (if ow then overlay other this else overlay this other) aft.
Proof.
  assert (P : forall o, policy_for (policy_of ow true) (policy_of ow true) o = policy_of ow true) by (intros; unfold policy_for; now destruct (is_explicit_schema _)).
  intros (A & B & C). split; [|split].
  - intros attr o E. destruct (A attr o E) as [O _]. destruct ow; destruct O as [-> | [X _]]; try discriminate X; cbn; now destruct (c_attr other attr o), (c_attr this attr o).
  - intros o E. destruct (B o E) as [O _]. destruct ow; destruct O as [-> | [X _]]; try discriminate X; cbn; now destruct (c_list other o), (c_list this o).
  - intros o k E. destruct (C o k E) as [O _]. rewrite P in O. destruct ow; destruct O as [-> | [X _]]; try discriminate X; cbn; now destruct (c_dict other o k), (c_dict this o k).
Qed.
Lemma merge_no_raise ops b other overwrite :
  let op := BMerge b other overwrite true true in
  history (ops ++ [op]) ->
  let st := after ops in
  let st' := after (ops ++ [op]) in
  is_mutable st b = true -> has_bag st other ->
  snd (step iter st op) = true /\
  same_content (if overwrite then overlay (seen st other) (seen st b) else overlay (seen st b) (seen st other)) (seen st' b).
Proof.
  intros op Hi st st' M Ho. destruct (merge_result ops b other overwrite true true Hi M Ho) as (_ & _ & R).
  fold op st st' in R. destruct (snd (step iter st op)).
  - split; auto. now apply merged_overlay.
  - exfalso. destruct R as [[X _]|[[X _]|(o & k & _ & X & _)]]; [destruct overwrite; discriminate X|destruct overwrite; discriminate X|].
    unfold policy_for in X. destruct (is_explicit_schema _), overwrite; discriminate X.
Qed.
Lemma update_is_overlay this other u : is_update asize this other u -> same_content (overlay other this) (overlay u this).
Proof.
  intros (A & B & C). split; [|split]; cbn [overlay c_attr c_list c_dict].
  - intros attr o E. specialize (A attr o E). destruct (c_attr this attr o), (c_attr other attr o), (c_attr u attr o); cbn in *; congruence.
  - intros o E. specialize (B o E). destruct (c_list this o), (c_list other o), (c_list u o); cbn in *; congruence.
  - intros o k E. specialize (C o k E). destruct (c_dict this o k), (c_dict other o k), (c_dict u o k); cbn in *; congruence.
Qed.
Lemma update_overlay ops b other : history (ops ++ [BUpdate b other]) ->
  let st := after ops in
  let st' := after (ops ++ [BUpdate b other]) in
  let n := length (bags st) in
  has_bag st b -> has_bag st other -> fallbacks_of st b = [] ->
  snd (step iter st (BUpdate b other)) = true /\ length (bags st') = S n /\
  same_content (overlay (seen st other) (seen st b)) (overlay (seen st' n) (seen st b)) /\
  is_mutable st' n = false /\ fallbacks_of st' n = [] /\ all_unchanged st st'.
Proof.
  intros Hi. cbn zeta. intros Hb Ho Fb. destruct (update_result ops b other Hi Hb Ho Fb) as (A & B & C & D & E & F).
  split; auto. split; auto. split; [now apply update_is_overlay|auto].
Qed.
Lemma mutable_has st b : is_mutable st b = true -> has_bag st b.
Proof. unfold is_mutable. destruct (nth_error (bags st) b) eqn:E; [|easy]. intros _. apply nth_error_Some. congruence. Qed.
Lemma mutable_plain ops b : history ops -> is_mutable (after ops) b = true -> fallbacks_of (after ops) b = [].
Proof.
  intros Hi M. destruct (after_inv asize asize_ok iter any_order ops Hi) as [T I]. unfold fallbacks_of, is_mutable in *.
  destruct (nth_error (bags (after ops)) b) as [x|] eqn:E; [|easy]. eapply (i_mut _ T _ I); eauto.
Qed.
Lemma update_then_merge ops b other :
  let n := length (bags (after ops)) in
  let by_update := BMerge b n true true true in
  let direct := BMerge b other true true true in
  history ((ops ++ [BUpdate b other]) ++ [by_update]) -> history (ops ++ [direct]) ->
  is_mutable (after ops) b = true -> has_bag (after ops) other ->
  same_content (seen (after (ops ++ [direct])) b) (seen (after ((ops ++ [BUpdate b other]) ++ [by_update])) b).
Proof.
  intros n by_update direct H1 H2 M Ho. assert (Hb := mutable_has _ _ M). assert (Hu := history_app asize _ _ H1).
  assert (Fb := mutable_plain ops b (history_app asize _ _ Hu) M).
  destruct (update_overlay ops b other Hu Hb Ho Fb) as (_ & L & S & _ & _ & U). destruct (U b Hb) as (_ & Sb & Mb).
  destruct (merge_no_raise ops b other true H2 M Ho) as [_ R2].
  destruct (merge_no_raise _ b n true H1) as [_ R1]; [congruence|unfold has_bag; fold n in L; lia|].
  eapply same_trans; [apply same_sym, R2|]. eapply same_trans; [exact S|]. eapply same_trans; [|exact R1].
  apply overlay_same; [apply same_refl|exact Sb].
Qed.
End Final.
