(** What decoding a message writes. *)
From Coq Require Import String NArith ZArith List Bool Arith Lia Permutation.
From Verif Require Import ObjectIdModel ObjectIdProofs SchemaModel ItemModel DataListModel DictModel DictSpec DictProofs
  SourceModel SourceSpec SourceProofs BagModel CollProofs BagProofs LayerProofs FullWriteProofs ContainerProofs
  MergeModel MergeFold BagSpec MergeImplProofs ReadProofs BagKeysProofs BagStateProofs BagStepProofs BagOpsProofs
  BagCodecModel BagCodecSpec BagDumpProofs.
Import ListNotations.
Local Open Scope nat_scope.
Notation chain := BagModel.chain.

(** ** Slices with types *)
Lemma holds_kind k v : holds k (Some v) = true <-> projT1 v = k.
Proof. unfold holds, as_kind. destruct v as [k' x]. cbn. destruct (kind_eq_dec k' k); split; congruence. Qed.
Lemma as_kind_self v : option_map (val (projT1 v)) (as_kind (projT1 v) v) = Some v.
Proof. destruct v as [k x]. cbn [projT1]. change (existT cval k x) with (val k x). now rewrite as_kind_val. Qed.
Lemma all_kinds_all k : In k BagCodecModel.all_kinds.
Proof. destruct k; cbn; auto 20. Qed.
Lemma all_kinds_nodup : NoDup BagCodecModel.all_kinds.
Proof. unfold BagCodecModel.all_kinds. repeat constructor; cbn; intuition discriminate. Qed.
Lemma found_kinds_in vs k : In k (found_kinds vs) <-> exists v, In (Some (Some v)) vs /\ projT1 v = k.
Proof.
  unfold found_kinds. rewrite filter_In, existsb_exists. split.
  - intros (_ & x & I & E). destruct x as [[v|]|]; try discriminate. exists v. split; auto. now apply holds_kind.
  - intros (v & I & E). split; [apply all_kinds_all|]. exists (Some (Some v)). split; auto. now apply holds_kind.
Qed.
Lemma found_kinds_nodup vs : NoDup (found_kinds vs).
Proof. apply NoDup_filter, all_kinds_nodup. Qed.
Lemma index_of_nth k ks : In k ks -> nth_error ks (index_of k ks) = Some k.
Proof.
  induction ks as [|k' ks IH]; cbn; [easy|]. destruct (kind_eq_dec k' k) as [->|Nk]; [reflexivity|]. intros [E|I]; [congruence|]. cbn. auto.
Qed.
Lemma nth_index_of k ks n : NoDup ks -> nth_error ks n = Some k -> index_of k ks = n.
Proof.
  revert n. induction ks as [|k' ks IH]; intros [|n] Nd; cbn; try discriminate.
  - intros E. injection E as ->. destruct (kind_eq_dec k k); congruence.
  - intros E. apply NoDup_cons_iff in Nd as [N1 N2]. destruct (kind_eq_dec k' k) as [->|]; [elim N1; eapply nth_error_In; eauto|]. f_equal. auto.
Qed.
Lemma value_at_some vs off v : value_at vs off = Some v <-> nth_error vs (N.to_nat off) = Some (Some (Some v)).
Proof. unfold value_at. destruct (nth_error vs (N.to_nat off)) as [[[w|]|]|]; split; congruence. Qed.
Lemma build_dslice_buf vs n off : buf_at (ds_values (build_dslice vs)) n off =
  match nth_error (found_kinds vs) n, value_at vs off with
  | Some k, Some v => if kind_eq_dec (projT1 v) k then Some v else None
  | _, _ => None
  end.
Proof.
  unfold buf_at, build_dslice. cbn [ds_values]. rewrite nth_error_map. destruct (nth_error (found_kinds vs) n) as [k|]; [|reflexivity]. cbn [option_map array_at].
  unfold item_of_opt. destruct (value_at vs off) as [v|]; [|reflexivity]. destruct (kind_eq_dec (projT1 v) k) as [<-|Ne].
  - apply as_kind_self.
  - destruct v as [k' x]. cbn in *. destruct (kind_eq_dec k' k); [congruence|reflexivity].
Qed.
Lemma build_dslice_wf vs : wf_dslice (build_dslice vs).
Proof.
  split; [|split].
  - cbn [ds_tidx build_dslice]. intros off n. fold (build_dslice vs). rewrite build_dslice_buf. unfold value_at.
    destruct (nth_error vs (N.to_nat off)) as [[[v|]|]|] eqn:E; try (split; [discriminate|intros X; exfalso; apply X; destruct (nth_error (found_kinds vs) n); reflexivity]).
    assert (I : In (projT1 v) (found_kinds vs)) by (apply found_kinds_in; exists v; split; auto; eapply nth_error_In; eauto).
    split.
    + intros X. injection X as <-. rewrite (index_of_nth _ _ I). destruct (kind_eq_dec (projT1 v) (projT1 v)); congruence.
    + destruct (nth_error (found_kinds vs) n) as [k|] eqn:En; [|congruence]. destruct (kind_eq_dec (projT1 v) k) as [<-|]; [|congruence].
      intros _. f_equal. apply nth_index_of; auto. apply found_kinds_nodup.
  - unfold kinds. cbn [ds_values build_dslice]. rewrite map_map. cbn [projT1]. rewrite map_id. apply found_kinds_nodup.
  - intros off n L. rewrite build_dslice_buf. unfold value_at. cbn [ds_size build_dslice] in L.
    replace (nth_error vs (N.to_nat off)) with (@None (option ditem)) by (symmetry; apply nth_error_None; lia). now destruct (nth_error (found_kinds vs) n).
Qed.
Definition entry_of (vs : list (option ditem)) (off : N) : option ditem := match nth_error vs (N.to_nat off) with Some x => x | None => None end.
Lemma build_dslice_at vs off : ro_at (build_dslice vs) off = entry_of vs off.
Proof.
  rewrite (ro_at_tidx _ _ (build_dslice_wf vs) eq_refl). unfold entry_of.
  destruct (nth_error vs (N.to_nat off)) as [[[v|]|]|] eqn:E; try reflexivity. rewrite build_dslice_buf.
  assert (I : In (projT1 v) (found_kinds vs)) by (apply found_kinds_in; exists v; split; auto; eapply nth_error_In; eauto).
  rewrite (index_of_nth _ _ I). apply value_at_some in E. rewrite E. destruct (kind_eq_dec (projT1 v) (projT1 v)); congruence.
Qed.
Lemma build_dslice_nil vs : ds_values (build_dslice vs) = [] <-> forall v, ~ In (Some (Some v)) vs.
Proof.
  cbn [ds_values build_dslice]. split.
  - intros E v I. assert (J : In (projT1 v) (found_kinds vs)) by (apply found_kinds_in; exists v; auto). destruct (found_kinds vs); [easy|discriminate].
  - intros F. destruct (found_kinds vs) as [|k r] eqn:E; [reflexivity|]. exfalso. assert (J : In k (found_kinds vs)) by (rewrite E; now left).
    apply found_kinds_in in J as (v & I & _). exact (F v I).
Qed.

(** ** The writes *)
Definition wop_key (w : wop) : option key :=
  match w with
  | WAttr o attr _ => Some (allocation_of o, attr)
  | WAttrs alloc attr _ _ | WFull alloc attr _ => Some (alloc, attr)
  | _ => None
  end.
Definition full_key (w : wop) : option key := match w with WFull alloc attr _ => Some (alloc, attr) | _ => None end.
(** allocations are written to as a whole before anything else is set *)
Fixpoint fresh (ws : list wop) : Prop :=
  match ws with
  | [] => True
  | w :: r => (forall k w', In w' r -> wop_key w = Some k -> full_key w' <> Some k) /\ fresh r
  end.
Lemma fresh_app a b : fresh a -> fresh b -> (forall w w' k, In w a -> In w' b -> wop_key w = Some k -> full_key w' <> Some k) -> fresh (a ++ b).
Proof.
  induction a as [|w a IH]; cbn; auto. intros [F1 F2] Fb D. split.
  - intros k w' I. apply in_app_iff in I as [I|I]; [eauto|]. eapply D; eauto.
  - apply IH; auto. intros w1 w2 k I. apply D. now right.
Qed.
Lemma fresh_none ws : (forall w, In w ws -> full_key w = None) -> fresh ws.
Proof.
  induction ws as [|w r IH]; cbn; auto. intros F. split; [|apply IH; auto]. intros k w' I _. rewrite (F w' (or_intror I)). discriminate.
Qed.
Lemma concat_fresh {A B} (f : A -> option (list wop)) (g : A -> B) (pr : key -> B) l r : NoDup (map g l) ->
  (forall x y, In x l -> f x = Some y -> fresh y /\ forall w k, In w y -> wop_key w = Some k -> pr k = g x) ->
  concat_opt (map f l) = Some r -> fresh r.
Proof.
  intros Nd F. assert (G : forall r, concat_opt (map f l) = Some r -> fresh r /\ forall w k, In w r -> wop_key w = Some k -> In (pr k) (map g l)).
  2: { intros E. now apply G. }
  clear r. induction l as [|x l IH]; cbn; intros r E; [injection E as <-; cbn; easy|].
  cbn in Nd. apply NoDup_cons_iff in Nd as [N1 N2]. destruct (f x) as [y|] eqn:Ey; [|discriminate]. cbn [bind] in E.
  destruct (concat_opt (map f l)) as [r'|]; [|discriminate]. cbn [option_map] in E. assert (r = y ++ r') by congruence. subst r.
  destruct (F x y (or_introl eq_refl) Ey) as [Fy Ky]. destruct (IH N2 (fun z w I => F z w (or_intror I)) r' eq_refl) as [Fr Kr]. split.
  - apply fresh_app; auto. intros w w' k I J Kw Kf. apply N1. rewrite <- (Ky w k I Kw). apply (Kr w' k J). destruct w'; try discriminate. exact Kf.
  - intros w k I Kw. apply in_app_iff in I as [I|I]; [left; symmetry; eauto|right; eauto].
Qed.

Section Writes.
Variable asize : ObjectId -> N.
Hypothesis asize_ok : forall a, (asize a <= capacity a)%N.
Variable iter : dmap -> dmap.
Hypothesis any_order : forall m, Permutation (iter m) m.
Notation valid := (valid asize).
Notation layer_ok := (layer_ok asize).
Notation heap_ok := (heap_ok asize).
Notation same_content := (same_content asize).

Definition wop_ok (w : wop) : Prop :=
  match w with
  | WAttr o _ _ => exists_object asize o
  | WAttrs alloc attr objs vs => op_ok asize (BSetAttrs 0 objs [alloc] false attr vs)
  | WFull alloc _ s => is_allocation alloc /\ is_small_alloc alloc = false /\ (asize alloc <= ds_size s <= capacity alloc)%N /\
      wf_dslice s /\ (forall off v, (asize alloc <= off)%N -> ro_at s off = Some v -> v = None)
  | WExtend o _ => wf o /\ is_list (allocation_of o) = true
  | WKey o k _ => wf o /\ is_dict (allocation_of o) || is_schema (allocation_of o) = true /\ unsupported_key (Some k) = false
  end.
(** what is written where *)
Definition w_attr (w : wop) (attr : string) (o : ObjectId) : option ditem :=
  match w with
  | WAttr o' attr' v => if string_dec attr' attr then (if oid_eq_dec o' o then Some v else None) else None
  | WAttrs _ attr' objs vs => if string_dec attr' attr then last_write (writes objs vs) o else None
  | WFull alloc attr' s =>
      match ds_values s with
      | [] => None
      | _ => if string_dec attr' attr then (if oid_eq_dec (allocation_of o) alloc then array_entry s (offset o) else None) else None
      end
  | _ => None
  end.
Definition w_dict (w : wop) (o : ObjectId) (k : value) : option ditem :=
  match w with
  | WKey o' k' v => if oid_eq_dec o' o then (if value_eqb k' k then Some v else None) else None
  | _ => None
  end.
Definition w_list (w : wop) (o : ObjectId) : option (list ditem) :=
  match w with WExtend o' vs => if oid_eq_dec o' o then Some vs else None | _ => None end.
Definition weff (w : wop) (c : content) : content :=
  mkContent (fun attr o => first_of (w_attr w attr o) (c_attr c attr o))
    (fun o => match w_list w o with Some vs => Some (list_items (c_list c o) ++ vs) | None => c_list c o end)
    (fun o k => first_of (w_dict w o k) (c_dict c o k)).
Lemma weff_same w c c' : same_content c c' -> same_content (weff w c) (weff w c').
Proof.
  intros (A & B & C). split; [|split]; cbn; intros.
  - now rewrite A.
  - now rewrite B.
  - now rewrite C.
Qed.

Lemma set_full_fresh h a l alloc attr s : heap_ok h -> layer_ok h a l -> parent l = None -> wop_ok (WFull alloc attr s) -> ds_values s <> [] ->
  a_find key_dec (big l) (alloc, attr) = None ->
  exists l', layer_set_full h (ups h l) l alloc attr s = Some l' /\ layer_ok h a l' /\ only_attrs l l' /\
    (forall k, a_find key_dec (big l') k <> None -> k = (alloc, attr) \/ a_find key_dec (big l) k <> None) /\
    forall attr' o, valid o ->
      attr_in h ((a, l') :: ups h l) attr' o =
      if string_dec attr attr'
      then or_else (if oid_eq_dec (allocation_of o) alloc then array_entry s (offset o) else None) (attr_in h ((a, l) :: ups h l) attr' o)
      else attr_in h ((a, l) :: ups h l) attr' o.
Proof.
  intros H L P (A & Sm & Sz & W & Q) Nv Fr. unfold layer_set_full. assert (U : ups h l = []) by (unfold ups; now rewrite P). rewrite U, Sm, Fr. cbn [negb andb forallb].
  replace (match ds_tidx s with Some _ => true | None => true end) with true by (destruct (ds_tidx s); reflexivity).
  set (d := mkDense alloc (ds_size s) (ReadOnly s)).
  assert (Ed : create_readonly alloc s = Some d).
  { unfold create_readonly. destruct (N.ltb_spec (capacity alloc) (ds_size s)); [lia|]. destruct (ds_values s); [congruence|reflexivity]. }
  assert (Gd : good_dense asize alloc d).
  { split; [cbn; split; [auto|split; [congruence|auto]]|]. split; [reflexivity|]. split; [exact Sz|]. intros off x Lo F. cbn in F. exact (Q off x Lo F). }
  set (c := mkColl None None (Some (CVal d)) false).
  assert (C : coll_ok asize h (ups h l) (alloc, attr) c).
  { split; [split; [exact A|cbn]|cbn].
    - split; [auto|]. split; [auto|]. split; [auto|]. exists d. auto.
    - split; [exact Sm|]. split; [exact Logic.I|]. discriminate. }
  exists (set_big l (alloc, attr) c). split; [rewrite Ed; destruct (ds_values s); [congruence|reflexivity]|].
  split; [now apply set_big_ok|]. split; [unfold only_attrs; cbn; auto|]. split.
  - intros k. cbn. rewrite a_find_set. destruct (key_dec (alloc, attr) k) as [<-|]; auto.
  - intros attr' o Vo. unfold attr_in. rewrite set_big_look. destruct (string_dec attr attr') as [<-|Na].
    + destruct (oid_eq_dec (allocation_of o) alloc) as [Ea|Na].
      * assert (So : is_small_alloc o = false) by (rewrite <- Sm, <- Ea; reflexivity). rewrite So, Ea. destruct (key_dec (alloc, attr) (alloc, attr)); [|congruence].
        rewrite array_entry_values by auto. destruct Vo as [Wo Vo]. specialize (Vo So). rewrite Ea in Vo. destruct (N.ltb_spec (offset o) (ds_size s)); [|lia].
        cbn [look_big]. rewrite Fr. unfold coll_get, c. cbn [msparse mdense cd_of cdense lookup_parent bind or_else]. reflexivity.
      * destruct (is_small_alloc o); auto. destruct (key_dec (alloc, attr) (allocation_of o, attr)) as [Ek|]; auto. apply pair_equal_spec in Ek. destruct Ek. congruence.
    + destruct (is_small_alloc o); auto; destruct (key_dec (alloc, attr) (allocation_of o, attr')) as [Ek|]; auto; congruence.
Qed.

Lemma wop_step w h a l : heap_ok h -> nth_error h a = Some l -> frozen l = false -> parent l = None -> kinds_in l -> wop_ok w ->
  (forall k, full_key w = Some k -> a_find key_dec (big l) k = None) ->
  exists l', apply_wop iter a h w = Some (put h a l') /\ layer_ok h a l' /\ frozen l' = false /\ parent l' = None /\ kinds_in l' /\
    (forall k, a_find key_dec (big l') k <> None -> wop_key w = Some k \/ a_find key_dec (big l) k <> None) /\
    same_content (weff w (content_at h a)) (ch_content h ((a, l') :: ups h l)).
Proof.
  intros H E F P K W Fr. assert (L := H a l E). assert (Eo : forall x y : option ditem, or_else x y = first_of x y) by (now intros [?|] y).
  destruct w as [o attr v|alloc attr objs vs|alloc attr s|o vs|o k v]; cbn [apply_wop].
  - destruct (set_attr_ok asize asize_ok h a l o attr v H L W) as (l' & El' & L' & O & Kk & A).
    exists l'. unfold set_attr, on_layer. rewrite E, F, (parents_ups asize h a l H E), El'. cbn [option_map]. split; auto. split; auto.
    split; [destruct O; congruence|]. split; [destruct O as (_ & O & _); congruence|]. split; [now apply (only_kinds l)|]. split.
    + intros k Fk. destruct (Kk k Fk) as [->|Fo]; auto.
    + apply (attrs_content asize h a l l' (fun _ _ => None)); auto. intros attr' o' V'. rewrite (A attr' o' V').
      cbn [weff c_attr w_attr]. rewrite (content_unfold asize h a l H E). cbn [c_attr ch_content]. rewrite same_oid_dec.
      destruct (string_dec attr attr') as [<-|]; auto. now destruct (oid_eq_dec o o').
  - destruct (set_attrs_ok asize asize_ok h a l objs [alloc] false attr vs H L W) as (l' & El' & L' & O & Kk & A).
    exists l'. unfold set_attrs, on_layer. rewrite E, F, (parents_ups asize h a l H E), El'. cbn [option_map]. split; auto. split; auto.
    split; [destruct O; congruence|]. split; [destruct O as (_ & O & _); congruence|]. split; [now apply (only_kinds l)|]. split.
    + intros [k1 k2] Fk. destruct (Kk _ Fk) as [[[Fi|[]] Fa]|Fo]; auto. cbn in Fi, Fa. subst alloc attr. left. reflexivity.
    + apply (attrs_content asize h a l l' (fun _ _ => None)); auto. intros attr' o' V'. rewrite (A attr' o' V').
      cbn [weff c_attr w_attr]. rewrite (content_unfold asize h a l H E). cbn [c_attr ch_content].
      destruct (string_dec attr attr') as [<-|]; auto.
  - unfold set_attr_full, on_layer. rewrite E, F, (parents_ups asize h a l H E). destruct (ds_values s) as [|v0 vs0] eqn:Ev.
    + exists l. unfold layer_set_full. rewrite Ev. cbn [option_map]. do 6 (split; [auto|]).
      rewrite (content_unfold asize h a l H E). split; [|split]; cbn [weff w_attr w_list w_dict c_attr c_list c_dict]; intros; try rewrite Ev; reflexivity.
    + destruct (set_full_fresh h a l alloc attr s H L P W) as (l' & El' & L' & O & Kk & A); [congruence|now apply Fr|].
      exists l'. rewrite El'. cbn [option_map]. split; auto. split; auto. split; [destruct O; congruence|]. split; [destruct O as (_ & O & _); congruence|]. split; [now apply (only_kinds l)|]. split.
      * intros k Fk. destruct (Kk k Fk) as [->|Fo]; auto.
      * apply (attrs_content asize h a l l' (fun _ _ => None)); auto. intros attr' o' V'. rewrite (A attr' o' V').
        cbn [weff c_attr w_attr]. rewrite Ev. rewrite (content_unfold asize h a l H E). cbn [c_attr ch_content].
        destruct (string_dec attr attr') as [<-|]; auto.
  - destruct W as [W Il]. unfold edit_list. rewrite Il. cbn [negb]. destruct (edit_list_ok asize h a l o 1 (fun l => l ++ vs) H L W) as (L' & A). cbn zeta in *.
    eexists. split; [rewrite (on_layer_ok h a l _ E F), (parents_ups asize h a l H E); reflexivity|]. split; [exact L'|]. split; [auto|]. split; [auto|]. split; [now apply kinds_set_lists|]. split; [auto|].
    rewrite (content_unfold asize h a l H E). split; [|split]; intros; cbn [c_attr c_list c_dict ch_content weff w_attr w_list w_dict first_of].
    + reflexivity.
    + unfold set_lists in A. rewrite (A o0) by auto. rewrite same_oid_dec. destruct (oid_eq_dec o o0) as [<-|]; reflexivity.
    + reflexivity.
  - destruct W as (W & Id & Su). unfold edit_dict. rewrite Id. cbn [negb].
    destruct (edit_dict_ok asize iter any_order h a l o (DSetKey (Some k) v) H L W ltac:(discriminate)) as (d & Ed & L' & A). cbn zeta in *.
    eexists. split; [rewrite (on_layer_ok h a l _ E F), (parents_ups asize h a l H E); fold (set_dicts l (allocation_of o) (get_or_create_dicts l (allocation_of o))); rewrite Ed; reflexivity|].
    split; [exact L'|]. split; [auto|]. split; [auto|]. split; [now apply kinds_set_dicts|]. split; [auto|].
    rewrite (content_unfold asize h a l H E). split; [|split]; intros; cbn [c_attr c_list c_dict ch_content weff w_attr w_list w_dict first_of].
    + reflexivity.
    + reflexivity.
    + unfold set_dicts, own_of in A. rewrite (A o0 k0) by auto. rewrite same_oid_dec. destruct (oid_eq_dec o o0) as [<-|]; auto.
      assert (G : good_key (Some k) = Some k) by (destruct k as [[] kx]; try reflexivity; discriminate Su). cbn [f_step]. rewrite G. unfold f_set. now destruct (value_eqb k k0).
Qed.

Lemma wops_run ws : forall h a l, heap_ok h -> nth_error h a = Some l -> frozen l = false -> parent l = None -> kinds_in l -> Forall wop_ok ws -> fresh ws ->
  (forall w k, In w ws -> full_key w = Some k -> a_find key_dec (big l) k = None) ->
  exists h' l', fold_opt (apply_wop iter a) ws h = Some h' /\ heap_ok h' /\ ext h h' /\ (forall y, y <> a -> nth_error h' y = nth_error h y) /\
    nth_error h' a = Some l' /\ frozen l' = false /\ parent l' = None /\ kinds_in l' /\
    same_content (fold_left (fun c w => weff w c) ws (content_at h a)) (content_at h' a).
Proof.
  induction ws as [|w ws IH]; intros h a l H E F P K W Fr Fk.
  - exists h, l. cbn. do 8 (split; [auto using ext_refl|]). apply same_refl.
  - cbn [fold_opt fold_left]. inversion_clear W as [|? ? W1 W2]. destruct Fr as [Fr1 Fr2].
    destruct (wop_step w h a l H E F P K W1) as (l1 & E1 & L1 & F1 & P1 & K1 & Kk & C); [intros k X; apply (Fk w k); auto; now left|].
    rewrite E1. assert (H1 := put_heap_ok asize h a l l1 H E F L1).
    destruct (IH (put h a l1) a l1 H1) as (h' & l' & -> & H' & X & U & E' & F' & P' & K' & C'); auto; [eapply nth_put_same; eauto| |].
    { intros w' k I Ek. destruct (a_find key_dec (big l1) k) as [c|] eqn:Fc; auto. exfalso.
      destruct (Kk k) as [Y|Y]; [congruence| |]; [exact (Fr1 k w' I Y Ek)|]. apply Y. apply (Fk w' k); auto. now right. }
    exists h', l'. split; auto. split; auto. split; [eapply ext_trans; [eapply ext_put; eauto|exact X]|]. split; [intros y Ny; rewrite U by auto; now apply nth_put_other|].
    do 4 (split; [auto|]). eapply same_trans; [|exact C'].
    assert (Same : same_content (weff w (content_at h a)) (content_at (put h a l1) a)).
    { eapply same_trans; [exact C|]. apply put_content; auto. congruence. }
    clear - Same. revert Same. generalize (weff w (content_at h a)), (content_at (put h a l1) a). induction ws as [|w2 ws IH]; cbn; auto. intros c c' S. apply IH. now apply weff_same.
Qed.
End Writes.
