(** All operations on bags, and histories of them. *)
From Coq Require Import String NArith ZArith List Bool Arith Lia Permutation.
From Verif Require Import ObjectIdModel ObjectIdProofs SchemaModel ItemModel DictModel DictSpec DictProofs
  SourceModel SourceSpec SourceProofs BagModel CollProofs BagProofs LayerProofs FullWriteProofs ContainerProofs
  MergeModel MergeSourceProofs MergeFold MergeBigProofs MergeLayerProofs BagSpec MergeImplProofs UpdateProofs ReadProofs BagKeysProofs
  BagStateProofs BagStepProofs.
Import ListNotations.
Local Open Scope nat_scope.
Notation chain := BagModel.chain.

Section Ops.
Variable asize : ObjectId -> N.
Hypothesis asize_ok : forall a, (asize a <= capacity a)%N.
Variable iter : dmap -> dmap.
Hypothesis any_order : forall m, Permutation (iter m) m.
Notation valid := (valid asize).
Notation layer_ok := (layer_ok asize).
Notation heap_ok := (heap_ok asize).
Notation same_content := (same_content asize).
Notation same_bag := (same_bag asize).
Notation same_bags := (same_bags asize).
Notation merged := (merged asize).
Notation conflict := (conflict asize).
Notation inv := (inv asize).
Notation same_trans := (same_trans asize).
Notation same_sym := (same_sym asize).
Notation same_refl := (same_refl asize).
Notation bags_trans := (bags_trans asize).
Notation bags_refl := (bags_refl asize).

(** ** Writes *)
Definition eff_ok (T T' : ObjectId -> Prop) (f : heap -> nat -> option heap) (eff : content -> option content) : Prop :=
  (forall h a l, heap_ok h -> nth_error h a = Some l -> frozen l = false -> keys_in T l ->
     match eff (content_at h a) with
     | Some c => exists l', f h a = Some (put h a l') /\ layer_ok h a l' /\ frozen l' = frozen l /\ parent l' = parent l /\ keys_in T' l' /\
                            same_content c (ch_content h ((a, l') :: ups h l))
     | None => f h a = None
     end) /\
  (forall c c', same_content c c' -> match eff c, eff c' with
                                     | Some d, Some d' => same_content d d'
                                     | None, None => True
                                     | _, _ => False
                                     end).
Lemma inv_more (T T' : ObjectId -> Prop) st : (forall a, T a -> T' a) -> inv T st -> inv T' st.
Proof. intros M []. constructor; auto. intros a l E. destruct (i_keys a l E) as [K Q]. split; auto. intros k F. apply M. auto. Qed.
Lemma write_step (T T' : ObjectId -> Prop) st b f eff : inv T st -> (forall a, T a -> T' a) -> eff_ok T T' f eff ->
  let '(st', ok) := write_bag st b f in
  let fails := ok = false /\ same_bags (abs st) (abs st') in
  inv T' st' /\
  match nth_error (abs st) b with
  | Some x =>
      if writable x then
        match eff (data x) with
        | Some c => ok = true /\ same_bags (set_bag (abs st) b (mkAbag c true (falls x))) (abs st')
        | None => fails
        end
      else fails
  | None => fails
  end.
Proof.
  intros I M [Ef Ec]. unfold write_bag. rewrite abs_nth. destruct (nth_error (bags st) b) as [x|] eqn:E; cbn [option_map].
  2: { rewrite (mutable_impl_none asize T st b I) by congruence. split; [eapply inv_more; eauto|]. split; auto. apply bags_refl. }
  cbn [abs_bag writable data falls]. destruct (bag_mutable x) eqn:Mx.
  2: { rewrite (mutable_impl_none asize T st b I) by congruence. split; [eapply inv_more; eauto|]. split; auto. apply bags_refl. }
  destruct (mutable_impl_ok asize T st b x I E Mx) as (st1 & a & l & -> & I1 & S1 & Eb & El & Fl & _).
  assert (Ca : same_content (content_at (layers st) (impl x)) (content_at (layers st1) a)).
  { destruct (bags_nth asize _ _ b (abs_bag (layers st) x) S1) as (y & Ey & (Sy & _)); [now rewrite abs_nth, E|].
    rewrite abs_nth, Eb in Ey. cbn in Ey. injection Ey as <-. exact Sy. }
  rewrite (i_mut _ T st I b x E Mx).
  specialize (Ef (layers st1) a l (i_heap _ T st1 I1) El Fl (i_keys _ T st1 I1 a l El)). specialize (Ec _ _ Ca).
  destruct (eff (content_at (layers st) (impl x))) as [c|], (eff (content_at (layers st1) a)) as [c1|]; try easy.
  - destruct Ef as (l' & -> & L' & F' & P' & K' & Sc).
    destruct (write_ok asize T T' st1 b a [] (layers st1) l l' I1 Eb El (i_heap _ T st1 I1)) as [X1 X2]; auto; [congruence| |].
    + intros y ly Ey. rewrite nth_put, El in Ey. destruct (y =? a); [assert (ly = l') by congruence; now subst|].
      destruct (i_keys _ T st1 I1 y ly Ey) as [Ky Qy]. split; auto. intros k F. apply M. auto.
    + split; auto. split; auto. eapply bags_trans; [|exact X2]. apply bags_set; auto. split; cbn; auto. eapply same_trans; eauto.
  - rewrite Ef. split; [eapply inv_more; eauto|]. auto.
Qed.

(** the layer before the write *)
Lemma content_unfold h a l : heap_ok h -> nth_error h a = Some l -> content_at h a = ch_content h ((a, l) :: ups h l).
Proof. intros H E. unfold content_at. now rewrite (chain_unfold asize h a l). Qed.
Definition op_keys (T : ObjectId -> Prop) (op : bag_op) : ObjectId -> Prop := fun a => T a \/ touches a op.
Lemma same_oid_dec {A} o o' (x y : A) : (if same_oid o o' then x else y) = if oid_eq_dec o o' then x else y.
Proof.
  destruct (oid_eq_dec o o') as [->|N]; [now rewrite same_oid_refl|]. destruct (same_oid o o') eqn:S; auto. apply same_oid_spec in S. congruence.
Qed.
Lemma attrs_content h a l l' (w : string -> ObjectId -> option ditem) c : only_attrs l l' -> heap_ok h -> nth_error h a = Some l ->
  c_list c = c_list (content_at h a) -> c_dict c = c_dict (content_at h a) ->
  (forall attr o, valid o -> attr_in h ((a, l') :: ups h l) attr o = c_attr c attr o) ->
  same_content c (ch_content h ((a, l') :: ups h l)).
Proof.
  intros O H E Cl Cd A. rewrite (content_unfold h a l H E) in Cl, Cd. split; [|split]; intros; cbn [c_attr c_list c_dict ch_content].
  - now apply A.
  - rewrite Cl. exact (only_attrs_list a l l' (ups h l) o O).
  - rewrite Cd. exact (only_attrs_dict a l l' (ups h l) o k O).
Qed.

Lemma on_layer_ok h a l g : nth_error h a = Some l -> frozen l = false -> on_layer h a g = option_map (put h a) (g l).
Proof. intros E F. unfold on_layer. now rewrite E, F. Qed.

Lemma only_kinds l l' : only_attrs l l' -> kinds_in l -> kinds_in l'.
Proof. intros (_ & _ & El & Ed). apply kinds_same; auto. Qed.
Lemma set_attr_eff T b o attr v : exists_object asize o ->
  eff_ok T (op_keys T (BSetAttr b o attr v)) (fun h a => set_attr h a o attr v) (write_effect (BSetAttr b o attr v)).
Proof.
  intros V. split.
  - intros h a l H E F K. cbn [write_effect]. destruct (set_attr_ok asize asize_ok h a l o attr v H (H a l E) V) as (l' & El' & L' & O & Kk & A).
    exists l'. unfold set_attr, on_layer. rewrite E, F, (parents_ups asize h a l H E), El'. cbn. split; auto. split; auto.
    split; [destruct O; congruence|]. split; [apply O|]. split.
    + split; [|apply (only_kinds l); [exact O|apply K]]. intros k Fk. destruct (Kk k Fk) as [->|Fo]; [right; reflexivity|left; now apply K].
    + apply (attrs_content h a l l' (fun _ _ => None)); auto. intros attr' o' V'. rewrite (A attr' o' V').
      cbn [set_entry c_attr]. rewrite (content_unfold h a l H E). cbn [c_attr ch_content]. rewrite same_oid_dec.
      destruct (string_dec attr attr') as [<-|]; auto. destruct (oid_eq_dec o o'); auto.
  - intros c c' (S1 & S2 & S3). cbn. split; [|split]; cbn; auto. intros attr' o' V'.
    destruct (string_dec attr attr') as [<-|]; auto. destruct (oid_eq_dec o o'); cbn; auto.
Qed.
Lemma set_attrs_eff T b objs ids hs attr vs : op_ok asize (BSetAttrs b objs ids hs attr vs) ->
  eff_ok T (op_keys T (BSetAttrs b objs ids hs attr vs)) (fun h a => set_attrs h a objs ids hs attr vs) (write_effect (BSetAttrs b objs ids hs attr vs)).
Proof.
  intros V. split.
  - intros h a l H E F K. cbn [write_effect]. destruct (set_attrs_ok asize asize_ok h a l objs ids hs attr vs H (H a l E) V) as (l' & El' & L' & O & Kk & A).
    exists l'. unfold set_attrs, on_layer. rewrite E, F, (parents_ups asize h a l H E), El'. cbn [option_map]. split; auto. split; auto.
    split; [destruct O; congruence|]. split; [apply O|]. split.
    + split; [|apply (only_kinds l); [exact O|apply K]]. intros k Fk. destruct (Kk k Fk) as [[Fi _]|Fo]; [right; exact Fi|left; now apply K].
    + apply (attrs_content h a l l' (fun _ _ => None)); auto. intros attr' o' V'. rewrite (A attr' o' V').
      cbn [set_entry c_attr]. rewrite (content_unfold h a l H E). cbn [c_attr ch_content].
      destruct (string_dec attr attr') as [<-|]; auto.
  - intros c c' (S1 & S2 & S3). cbn [write_effect]. split; [|split]; cbn [set_entry c_attr c_list c_dict]; auto. intros attr' o' V'.
    destruct (string_dec attr attr') as [<-|]; auto. rewrite S1; auto.
Qed.
Lemma create_eff (T : ObjectId -> Prop) b alloc fields : op_ok asize (BCreate b alloc fields) -> ~ T alloc ->
  eff_ok T (op_keys T (BCreate b alloc fields)) (fun h a => create_objects h a alloc fields) (write_effect (BCreate b alloc fields)).
Proof.
  intros (A1 & A2 & A3 & A4) NT. split.
  - intros h a l H E F K. cbn [write_effect]. destruct (create_ok asize asize_ok h a l alloc fields (H a l E) A1 A2) as (l' & El' & L' & O & Kk & A); auto.
    { intros attr. destruct (a_find key_dec (big l) (alloc, attr)) as [c|] eqn:Fk; auto. elim NT. apply (proj1 K (alloc, attr)). congruence. }
    exists l'. unfold create_objects, on_layer. rewrite E, F, El'. cbn [option_map]. split; auto. split; auto.
    split; [destruct O; congruence|]. split; [apply O|]. split.
    + split; [|apply (only_kinds l); [exact O|apply K]]. intros k Fk. destruct (Kk k Fk) as [Fi|Fo]; [right; now symmetry|left; now apply K].
    + apply (attrs_content h a l l' (fun _ _ => None)); auto. intros attr' o' V'. rewrite (A attr' o' V').
      cbn [c_attr]. rewrite (content_unfold h a l H E). reflexivity.
  - intros c c' (S1 & S2 & S3). cbn [write_effect]. split; [|split]; cbn [c_attr c_list c_dict]; auto. intros attr' o' V'.
    destruct (a_find string_dec fields attr'); auto. destruct (oid_eq_dec (allocation_of o') alloc); auto.
Qed.
Lemma set_full_eff (T : ObjectId -> Prop) b alloc attr s : op_ok asize (BSetFull b alloc attr s) ->
  eff_ok T (op_keys T (BSetFull b alloc attr s)) (fun h a => set_attr_full h a alloc attr s) (write_effect (BSetFull b alloc attr s)).
Proof.
  intros (A1 & A2 & A3 & A4). split.
  - intros h a l H E F K. cbn [write_effect]. unfold set_attr_full, on_layer. rewrite E, F, (parents_ups asize h a l H E).
    destruct (ds_values s) as [|v vs] eqn:Ev.
    + exists l. unfold layer_set_full. rewrite Ev. cbn [option_map]. split; [reflexivity|]. split; [exact (H a l E)|]. split; [auto|]. split; [auto|]. split.
      * split; [|apply K]. intros k Fk. left. exact (proj1 K k Fk).
      * rewrite (content_unfold h a l H E). apply same_refl.
    + destruct (set_full_ok asize asize_ok alloc s A1 A2 A3 ltac:(apply A4; discriminate) h a l attr H (H a l E) ltac:(congruence)) as (l' & El' & L' & O & Kk & A).
      exists l'. rewrite El'. cbn [option_map]. split; auto. split; auto. split; [destruct O; congruence|]. split; [apply O|]. split.
      * split; [|apply (only_kinds l); [exact O|apply K]]. intros k Fk. destruct (Kk k Fk) as [Fi|Fo]; [right; now symmetry|left; now apply K].
      * apply (attrs_content h a l l' (fun _ _ => None)); auto. intros attr' o' V'. rewrite (A attr' o' V').
        cbn [set_entry c_attr]. rewrite (content_unfold h a l H E). cbn [c_attr ch_content].
        destruct (string_dec attr attr') as [<-|]; auto.
  - intros c c' (S1 & S2 & S3). cbn [write_effect]. destruct (ds_values s); [split; auto|]. split; [|split]; cbn [set_entry c_attr c_list c_dict]; auto. intros attr' o' V'.
    destruct (string_dec attr attr') as [<-|]; auto. rewrite S1; auto.
Qed.
Lemma edit_list_eff T b o n f : wf o ->
  eff_ok T (op_keys T (BEditList b o n f)) (fun h a => edit_list h a o n f) (write_effect (BEditList b o n f)).
Proof.
  intros W. split.
  - intros h a l H E F K. cbn [write_effect]. unfold edit_list. destruct (is_list (allocation_of o)) eqn:Il; [|reflexivity]. cbn [negb].
    destruct (edit_list_ok asize h a l o n f H (H a l E) W) as (L' & A). cbn zeta in *.
    eexists. split; [rewrite (on_layer_ok h a l _ E F), (parents_ups asize h a l H E); reflexivity|]. split; [exact L'|]. split; [auto|]. split; [reflexivity|]. split.
    + split; [intros k Fk; left; exact (proj1 K k Fk)|]. apply kinds_set_lists; [apply K|exact Il].
    + rewrite (content_unfold h a l H E). split; [|split]; intros; cbn [c_attr c_list c_dict ch_content].
      * reflexivity.
      * unfold set_lists in A. rewrite (A o0) by auto. now rewrite same_oid_dec.
      * reflexivity.
  - intros c c' (S1 & S2 & S3). cbn [write_effect]. destruct (is_list (allocation_of o)); auto. split; [|split]; cbn [c_attr c_list c_dict]; auto.
    intros o' W'. rewrite (S2 o W). destruct (oid_eq_dec o o'); auto.
Qed.
Lemma edit_dict_eff T b o op : wf o -> (forall a, op <> DDerive a) ->
  eff_ok T (op_keys T (BEditDict b o op)) (fun h a => edit_dict iter h a o op) (write_effect (BEditDict b o op)).
Proof.
  intros W Nd. split.
  - intros h a l H E F K. cbn [write_effect]. unfold edit_dict. destruct (is_dict (allocation_of o) || is_schema (allocation_of o)) eqn:Id; [|reflexivity]. cbn [negb].
    destruct (edit_dict_ok asize iter any_order h a l o op H (H a l E) W Nd) as (d & Ed & L' & A). cbn zeta in *.
    eexists. split; [rewrite (on_layer_ok h a l _ E F), (parents_ups asize h a l H E); fold (set_dicts l (allocation_of o) (get_or_create_dicts l (allocation_of o))); rewrite Ed; reflexivity|]. split; [exact L'|]. split; [auto|]. split; [reflexivity|]. split.
    + split; [intros k Fk; left; exact (proj1 K k Fk)|]. apply kinds_set_dicts; [apply K|exact Id].
    + rewrite (content_unfold h a l H E). split; [|split]; intros; cbn [c_attr c_list c_dict ch_content].
      * reflexivity.
      * reflexivity.
      * unfold set_dicts, own_of in A. rewrite (A o0 k) by auto. rewrite same_oid_dec. destruct (oid_eq_dec o o0) as [<-|]; reflexivity.
  - intros c c' (S1 & S2 & S3). cbn [write_effect]. destruct (is_dict (allocation_of o) || is_schema (allocation_of o)); auto. split; [|split]; cbn [c_attr c_list c_dict]; auto.
    intros o' k W'. destruct (oid_eq_dec o o') as [<-|]; auto. apply f_step_ext. auto.
Qed.
End Ops.
