(** What the writes to one layer do. *)
From Coq Require Import String NArith ZArith List Bool Arith Lia Permutation.
From Verif Require Import ObjectIdModel ObjectIdProofs SchemaModel ItemModel DictModel DictSpec DictProofs
  SourceModel SourceSpec SourceProofs BagModel CollProofs BagProofs.
From Verif Require ListRunSpec.
From Coq Require Import ZifyBool ZifyN.
Import ListNotations.
Local Open Scope nat_scope.
Notation chain := BagModel.chain.

Section Layer.
Variable asize : ObjectId -> N.
Hypothesis asize_ok : forall a, (asize a <= capacity a)%N.
Notation valid := (valid asize).
Notation real := (real asize).
Notation layer_ok := (layer_ok asize).
Notation coll_ok := (coll_ok asize).
Notation heap_ok := (heap_ok asize).

(** ** Changing one part of a layer *)
Lemma layer_parts h a l l' : layer_ok h a l -> parent l' = parent l ->
  (forall attr m, a_find string_dec (small l') attr = Some m -> small_ok asize m) ->
  (forall k c, a_find key_dec (big l') k = Some c -> coll_ok h (ups h l) k c) ->
  (forall alloc v, a_find oid_eq_dec (lists l') alloc = Some v -> is_allocation alloc /\ lv_size v = capacity alloc) ->
  (forall alloc v, a_find oid_eq_dec (dicts l') alloc = Some v -> is_allocation alloc /\ forall i, good_keys (od_data (v i))) ->
  layer_ok h a l'.
Proof.
  intros (P & _) E S B Li Di. split; [rewrite E; exact P|]. split; [exact S|].
  replace (ups h l') with (ups h l) by (unfold ups; now rewrite E). auto.
Qed.
(** the parts that do not change *)
Definition only_attrs (l l' : layer) : Prop :=
  frozen l' = frozen l /\ parent l' = parent l /\ lists l' = lists l /\ dicts l' = dicts l.
Lemma only_attrs_refl l : only_attrs l l.
Proof. unfold only_attrs. auto. Qed.
Lemma only_attrs_trans l1 l2 l3 : only_attrs l1 l2 -> only_attrs l2 l3 -> only_attrs l1 l3.
Proof. unfold only_attrs. intuition congruence. Qed.
Lemma only_attrs_list a l l' r o : only_attrs l l' -> list_in ((a, l') :: r) o = list_in ((a, l) :: r) o.
Proof. intros (_ & _ & E & _). unfold list_in. cbn. now rewrite E. Qed.
Lemma only_attrs_dict a l l' r o k : only_attrs l l' -> dict_in ((a, l') :: r) o k = dict_in ((a, l) :: r) o k.
Proof. intros (_ & _ & _ & E). unfold dict_in. cbn. now rewrite E. Qed.
Lemma only_attrs_ups h l l' : only_attrs l l' -> ups h l' = ups h l.
Proof. intros (_ & E & _). unfold ups. now rewrite E. Qed.

Lemma set_big_ok h a l k c : layer_ok h a l -> coll_ok h (ups h l) k c -> layer_ok h a (set_big l k c).
Proof.
  intros L C. destruct (L) as (P & S & B & Li & Di). apply (layer_parts h a l); auto. cbn. intros k' c' F.
  rewrite a_find_set in F. destruct (key_dec k k') as [<-|]; [injection F as <-; exact C|auto].
Qed.
Lemma set_big_look h a l rest k c k' o :
  look_big h ((a, set_big l k c) :: rest) k' o =
  if key_dec k k' then coll_get h k c (look_big h rest k o) o else look_big h ((a, l) :: rest) k' o.
Proof.
  cbn [look_big set_big big]. rewrite a_find_set. destruct (key_dec k k') as [<-|]; reflexivity.
Qed.
Lemma set_small_ok h a l attr m : layer_ok h a l -> small_ok asize m -> layer_ok h a (set_small l attr m).
Proof.
  intros L C. destruct (L) as (P & S & B & Li & Di). apply (layer_parts h a l); auto. cbn. intros k' c' F.
  rewrite a_find_set in F. destruct (string_dec attr k') as [<-|]; [injection F as <-; exact C|eauto].
Qed.
Lemma set_small_look a l rest attr m attr' o :
  look_small ((a, set_small l attr m) :: rest) attr' o =
  if string_dec attr attr' then or_else (s_find m o) (look_small rest attr o) else look_small ((a, l) :: rest) attr' o.
Proof.
  cbn [look_small set_small small]. rewrite a_find_set. destruct (string_dec attr attr') as [<-|]; reflexivity.
Qed.
Lemma small_source_ok h a l attr : layer_ok h a l -> small_ok asize (small_source l attr).
Proof.
  intros (_ & S & _). unfold small_source. destruct (a_find string_dec (small l) attr) eqn:F; eauto.
  split; [constructor|easy].
Qed.
Lemma small_source_look a l rest attr o :
  look_small ((a, l) :: rest) attr o = or_else (s_find (small_source l attr) o) (look_small rest attr o).
Proof. cbn. unfold small_source. now destruct (a_find string_dec (small l) attr). Qed.
Lemma small_set_ok m o v : small_ok asize m -> valid o -> is_small_alloc o = true ->
  small_ok asize (s_set m o v).
Proof.
  intros (N & K) V S. split; [now apply s_set_NoDup|]. intros o' v' I.
  assert (In o' (map fst (s_set m o v))) by (apply in_map_iff; exists (o', v'); auto).
  apply s_set_keys in H as [->|H]; auto. apply in_map_iff in H as ([o2 v2] & <- & H). exact (K _ _ H).
Qed.

Lemma get_or_create_good h a l k : layer_ok h a l -> is_allocation (fst k) ->
  good_coll asize h k (get_or_create_coll l k) /\ shared_ok h (get_or_create_coll l k) /\
  forall o, coll_get h k (get_or_create_coll l k) (look_big h (ups h l) k o) o = look_big h ((a, l) :: ups h l) k o.
Proof.
  intros (P & S & B & _) A. unfold get_or_create_coll. cbn [look_big]. destruct (a_find key_dec (big l) k) as [c|] eqn:F.
  - destruct (B k c F) as (G & _ & Sh & _). split; [exact G|]. split; [exact Sh|]. reflexivity.
  - split; [split; [exact A|cbn; auto]|]. split; [exact I|]. intros o. unfold coll_get, cd_of, ups. cbn.
    destruct (parent l); reflexivity.
Qed.

(** ** One attribute of one object *)
Lemma set_attr_ok h a l o attr v : heap_ok h -> layer_ok h a l -> valid o ->
  exists l', layer_set_attr h (ups h l) l o attr v = Some l' /\ layer_ok h a l' /\ only_attrs l l' /\
    (forall k, a_find key_dec (big l') k <> None -> k = (allocation_of o, attr) \/ a_find key_dec (big l) k <> None) /\
    forall attr' o', valid o' ->
      attr_in h ((a, l') :: ups h l) attr' o' =
      if string_dec attr attr' then if same_oid o o' then Some v else attr_in h ((a, l) :: ups h l) attr' o'
      else attr_in h ((a, l) :: ups h l) attr' o'.
Proof.
  intros H L V. unfold layer_set_attr. destruct (is_small_alloc o) eqn:Sm.
  - eexists. split; [reflexivity|]. unfold sparse_set, belongs. cbn [sp_alloc]. rewrite Sm. cbn [sp_map].
    split; [apply set_small_ok; auto; apply small_set_ok; auto; eapply small_source_ok; eauto|].
    split; [unfold only_attrs; cbn; auto|]. split; [auto|].
    intros attr' o' V'. unfold attr_in. rewrite set_small_look.
    destruct (string_dec attr attr') as [<-|].
    + rewrite s_find_set. rewrite small_source_look. destruct (same_oid o o') eqn:E; [|reflexivity].
      apply same_oid_spec in E. subst. now rewrite Sm.
    + destruct (is_small_alloc o'); reflexivity.
  - set (k := (allocation_of o, attr)). assert (A : is_allocation (allocation_of o)) by (apply allocation_of_is_allocation, V).
    destruct (get_or_create_good h a l k L A) as (G & Sh & Vw). assert (Gc := ups_good_ch asize h a l H L).
    destruct (mutable_source_ok asize asize_ok h (ups h l) k (option_map (@projT1 _ _) v) 1 _ G Gc) as (c & E & G' & Ne & Kc & Kd & Vc).
    rewrite E. assert (Ro := valid_real asize o V Sm). assert (Co : contains (fst k) o = true) by exact (real_contains asize _ o A Ro).
    assert (X : exists c', (match mdense c, msparse c with
        | Some d, _ =>
            option_map (fun d => set_big l k (mkColl (msparse c) (Some d) (cdense c) (lookup_parent c))) (dense_set d o v)
        | None, Some s => Some (set_big l k (mkColl (Some (sparse_set s o v)) None (cdense c) (lookup_parent c)))
        | None, None => None
        end) = Some (set_big l k c') /\ coll_ok h (ups h l) k c' /\
        forall o', real (fst k) o' -> coll_get h k c' (look_big h (ups h l) k o') o' =
           if same_oid o o' then Some v else coll_get h k c (look_big h (ups h l) k o') o').
    { destruct G' as (_ & Gs & Gd & Gcd). destruct (mdense c) as [d|] eqn:MD.
      - destruct Gd as (Gd & M & E1 & E2 & E3). destruct (dense_set_one asize asize_ok (fst k) d o v A Gd M Ro) as (d' & Ed & Gd' & M' & _ & Vd).
        rewrite Ed. eexists. split; [reflexivity|]. rewrite E1, E2, E3. split.
        + split; [split; [exact A|cbn; auto 10]|]. cbn. split; [exact Sm|]. split; [exact I|]. discriminate.
        + intros o' R'. unfold coll_get. cbn [msparse mdense lookup_parent bind or_else].
          rewrite Vd by auto. rewrite E1, MD, E3, (cd_of_none h k c E2), cd_of_none by reflexivity. cbn [bind or_else]. destruct (same_oid o o'); reflexivity.
      - destruct (msparse c) as [s|] eqn:MS; [|destruct Ne; congruence]. eexists. split; [reflexivity|]. split.
        + split; [split; [exact A|]|].
          * cbn. split; [|split; [auto|exact Gcd]]. destruct Gs as (Sa & Nd & Rk). unfold sparse_set, belongs. rewrite Sa, Co. cbn.
            split; [auto|]. split; [now apply s_set_NoDup|]. intros o' v' I.
            assert (J : In o' (map fst (s_set (sp_map s) o v))) by (apply in_map_iff; exists (o', v'); auto).
            apply s_set_keys in J as [->|J]; auto. apply in_map_iff in J as ([o2 v2] & <- & J). exact (Rk _ _ J).
          * cbn. split; [exact Sm|]. split; [|discriminate].
            unfold shared_ok in *. cbn. rewrite (Kc eq_refl). exact Sh.
        + intros o' R'. unfold coll_get. cbn [msparse mdense lookup_parent bind or_else]. rewrite MS, MD. cbn [bind or_else].
          rewrite sparse_set_get. destruct Gs as (Sa & _). unfold belongs. rewrite Sa, Co, andb_true_r.
          destruct (same_oid o o'); reflexivity. }
    destruct X as (c' & -> & Ck & Vk). eexists. split; [reflexivity|]. split; [now apply set_big_ok|].
    split; [unfold only_attrs; cbn; auto|].
    split; [intros k'; cbn; rewrite a_find_set; destruct (key_dec k k'); [left; congruence|auto]|].
    intros attr' o' V'. unfold attr_in. rewrite set_big_look.
    destruct (is_small_alloc o') eqn:Sm'.
    + cbn. destruct (string_dec attr attr') as [<-|]; auto. destruct (same_oid o o') eqn:Eo; auto. apply same_oid_spec in Eo. congruence.
    + destruct (key_dec k (allocation_of o', attr')) as [Ek|Nk].
      * unfold k in Ek; apply pair_equal_spec in Ek; destruct Ek as [Ea <-]. destruct (string_dec attr attr); [|congruence].
        assert (Ro' : real (fst k) o') by (cbn; rewrite Ea; now apply valid_real).
        rewrite Vk, Vc, Vw by auto. destruct (same_oid o o'); auto. unfold k. now rewrite Ea.
      * destruct (string_dec attr attr') as [<-|]; auto. destruct (same_oid o o') eqn:Eo; auto. apply same_oid_spec in Eo. subst. now elim Nk.
Qed.

(** ** One attribute of many objects *)
Lemma last_write_app {A} (a b : list (ObjectId * A)) o : last_write (a ++ b) o = or_else (last_write b o) (last_write a o).
Proof.
  induction a as [|[o' v] a IH]; cbn; [now rewrite or_else_none|]. rewrite IH.
  destruct (last_write b o); cbn; auto.
Qed.
Lemma last_write_none {A} (ws : list (ObjectId * A)) o : last_write ws o = None <-> ~ In o (map fst ws).
Proof.
  induction ws as [|[o' v] ws IH]; cbn; [tauto|]. destruct (last_write ws o) as [x|].
  - split; [discriminate|]. intros N. exfalso. apply N. right. destruct (in_dec oid_eq_dec o (map fst ws)); auto.
    apply IH in n. discriminate.
  - destruct (same_oid o' o) eqn:E.
    + apply same_oid_spec in E. split; [discriminate|tauto].
    + split; auto. intros _ [->|I]; [now rewrite same_oid_refl in E|]. now apply IH.
Qed.
Lemma write_all_last alloc (ws : list (ObjectId * ditem)) : is_allocation alloc -> (forall o v, In (o, v) ws -> valid o) -> is_small_alloc alloc = false ->
  forall f o, real alloc o -> write_all alloc ws f (offset o) = or_else (last_write ws o) (f (offset o)).
Proof.
  intros A V Sm. induction ws as [|[o1 v1] ws IH]; intros f o Ro; [reflexivity|].
  rewrite write_all_cons. rewrite IH by (auto; intros; eapply V; right; eauto). cbn [last_write].
  destruct (last_write ws o); cbn; auto.
  assert (V1 : valid o1) by (apply (V o1 v1); now left).
  destruct (same_oid o1 o) eqn:E.
  - apply same_oid_spec in E. subst o1. rewrite (real_contains asize _ _ A Ro). unfold write. now rewrite N.eqb_refl.
  - destruct (contains alloc o1) eqn:C; auto. unfold write. destruct (N.eqb_spec (offset o) (offset o1)) as [Eo|]; auto.
    exfalso. apply contains_spec in C; [|auto|apply V1]. assert (o1 = o).
    { eapply (real_inj asize alloc); eauto. rewrite <- C. apply valid_real; auto. rewrite <- Sm, <- C. reflexivity. }
    subst. now rewrite same_oid_refl in E.
Qed.
Lemma write_all_quiet' alloc (ws : list (ObjectId * ditem)) : is_allocation alloc -> (forall o v, In (o, v) ws -> valid o) -> is_small_alloc alloc = false ->
  forall f, quiet (asize alloc) f -> quiet (asize alloc) (write_all alloc ws f).
Proof.
  intros A V Sm. induction ws as [|[o1 v1] ws IH]; intros f Q; [exact Q|]. rewrite write_all_cons.
  apply IH; [intros; eapply V; right; eauto|]. destruct (contains alloc o1) eqn:C; auto.
  assert (V1 : valid o1) by (apply (V o1 v1); now left). apply contains_spec in C; [|auto|apply V1].
  assert (R1 : real alloc o1) by (rewrite <- C; apply valid_real; auto; rewrite <- Sm, <- C; reflexivity).
  intros off x L. unfold write. destruct R1 as (_ & _ & L1). destruct (N.eqb_spec off (offset o1)); [lia|]. now apply Q.
Qed.

Lemma present_at_snd objs : map snd (present_at objs) = present objs.
Proof.
  unfold present_at, present.
  cut (forall s, map snd (flat_map (fun '((i, o) : nat * option ObjectId) =>
     match o with Some o => [(i, o)] | None => [] end) (combine (seq s (length objs)) objs)) =
     flat_map (fun o => match o with Some o => [o] | None => [] end) objs); [intros H; apply H|].
  induction objs as [|[o|] objs IH]; intros s; cbn; auto. f_equal. apply IH.
Qed.
Lemma writes_fst objs vs : map fst (writes objs vs) = present objs.
Proof.
  rewrite <- present_at_snd. unfold writes. rewrite map_map. apply map_ext. intros [i o]. reflexivity.
Qed.
Lemma offsets_NoDup alloc objs : is_allocation alloc -> is_small_alloc alloc = false -> Forall valid (present objs) -> NoDup (present objs) ->
  NoDup (offsets alloc (present_at objs)).
Proof.
  intros A Sm V N. rewrite <- present_at_snd in *. unfold offsets. induction (present_at objs) as [|[i o] ps IH]; cbn; [constructor|].
  cbn in N, V. inversion N as [|? ? N1 N2]; inversion V as [|? ? V1 V2]; subst.
  destruct (contains alloc o) eqn:C; auto. cbn. constructor; auto. intros I. apply in_map_iff in I as ([j o'] & E & I). cbn in E.
  apply filter_In in I as [I C']. cbn in C'. assert (V' : valid o') by (rewrite Forall_forall in V2; apply V2; apply in_map_iff; exists (j, o'); auto).
  apply contains_spec in C; [|auto|apply V1]. apply contains_spec in C'; [|auto|apply V'].
  assert (o' = o).
  { eapply (real_inj asize alloc); [rewrite <- C'; apply valid_real; auto; rewrite <- Sm, <- C'; reflexivity| |auto].
    rewrite <- C; apply valid_real; auto; rewrite <- Sm, <- C; reflexivity. }
  subst. apply N1. apply in_map_iff. exists (j, o). auto.
Qed.

Lemma fold_opt_app {A S} (f : S -> A -> option S) a b s : fold_opt f (a ++ b) s = match fold_opt f a s with Some s => fold_opt f b s | None => None end.
Proof. revert s. induction a as [|x a IH]; intros s; cbn; auto. destruct (f s x); auto. Qed.

Definition batch_ok (objs : list (option ObjectId)) (ids : list ObjectId) (has_small : bool) (vs : slice) : Prop :=
  length objs = sl_size vs /\ slice_ok vs /\ Forall valid (present objs) /\
  (length (sl_values vs) <= 1 \/ NoDup (present objs)) /\
  Forall (fun id => is_allocation id /\ is_small_alloc id = false) ids /\
  Forall (fun o => if is_small_alloc o then has_small = true else In (allocation_of o) ids) (present objs).

Lemma set_attrs_ok h a l objs ids has_small attr vs : heap_ok h -> layer_ok h a l -> batch_ok objs ids has_small vs ->
  exists l', layer_set_attrs h (ups h l) l objs ids has_small attr vs = Some l' /\ layer_ok h a l' /\ only_attrs l l' /\
    (forall k, a_find key_dec (big l') k <> None -> (In (fst k) ids /\ snd k = attr) \/ a_find key_dec (big l) k <> None) /\
    forall attr' o', valid o' ->
      attr_in h ((a, l') :: ups h l) attr' o' =
      if string_dec attr attr' then or_else (last_write (writes objs vs) o') (attr_in h ((a, l) :: ups h l) attr' o')
      else attr_in h ((a, l) :: ups h l) attr' o'.
Proof.
  intros H L (Ln & Sl & Va & Du & Id & Cov).
  assert (Vw : forall o v, In (o, v) (writes objs vs) -> valid o).
  { intros o v I. rewrite Forall_forall in Va. apply Va. rewrite <- (writes_fst objs vs). apply in_map_iff. exists (o, v). auto. }
  unfold layer_set_attrs.
  (* the small allocations *)
  assert (X1 : exists l1, (if has_small then option_map (fun s => set_small l attr (sp_map s)) (sparse_set_all (mkSparse None (small_source l attr)) objs vs) else Some l) = Some l1 /\
     layer_ok h a l1 /\ only_attrs l l1 /\ big l1 = big l /\
     forall attr' o', valid o' -> attr_in h ((a, l1) :: ups h l) attr' o' =
       if string_dec attr attr' then if is_small_alloc o' then or_else (last_write (writes objs vs) o') (attr_in h ((a, l) :: ups h l) attr' o') else attr_in h ((a, l) :: ups h l) attr' o'
       else attr_in h ((a, l) :: ups h l) attr' o').
  { destruct has_small.
    - assert (So := small_source_ok h a l attr L). destruct So as [So1 So2].
      assert (Ws : wf_sparse (mkSparse None (small_source l attr))).
      { split; auto. intros o v I. exact (proj2 (So2 _ _ I)). }
      destruct (sparse_set_all (mkSparse None (small_source l attr)) objs vs) as [s|] eqn:E.
      + destruct (sparse_set_all_ok _ _ _ _ Ws E) as (_ & [W1 W2] & Al & G). cbn [sp_alloc] in Al.
        eexists. split; [reflexivity|]. split; [|split; [unfold only_attrs; cbn; auto|split; [reflexivity|]]].
        * apply set_small_ok; auto. split; auto. intros o v I. specialize (W2 _ _ I). unfold belongs in W2. rewrite Al in W2.
          split; auto. specialize (G o). unfold belongs in G. cbn [sp_alloc] in G. rewrite W2 in G. unfold sparse_get in G.
          rewrite (proj2 (s_find_in _ o v W1) I) in G. destruct (last_write (writes objs vs) o) as [w|] eqn:LW.
          -- destruct (in_dec oid_eq_dec o (map fst (writes objs vs))) as [J|J]; [|apply last_write_none in J; congruence].
             apply in_map_iff in J as ([o2 v2] & <- & J). exact (Vw _ _ J).
          -- symmetry in G. cbn [sp_map] in G. apply s_find_in in G; auto. exact (proj1 (So2 _ _ G)).
        * intros attr' o' V'. unfold attr_in. rewrite set_small_look. destruct (string_dec attr attr') as [<-|].
          -- destruct (is_small_alloc o') eqn:Sm; auto. specialize (G o'). unfold belongs in G. cbn [sp_alloc] in G. rewrite Sm in G.
             unfold sparse_get in G. cbn [sp_map] in G. rewrite G. rewrite small_source_look.
             destruct (last_write (writes objs vs) o'); reflexivity.
          -- destruct (is_small_alloc o'); reflexivity.
      + unfold sparse_set_all in E. rewrite Ln, Nat.eqb_refl in E. discriminate.
    - exists l. split; [reflexivity|]. split; [auto|]. split; [apply only_attrs_refl|]. split; [reflexivity|]. intros attr' o' V'.
      destruct (string_dec attr attr'); auto. destruct (is_small_alloc o') eqn:Sm; auto.
      replace (last_write (writes objs vs) o') with (@None ditem); auto. symmetry. apply last_write_none. rewrite writes_fst.
      intros I. rewrite Forall_forall in Cov. specialize (Cov o' I). now rewrite Sm in Cov. }
  destruct X1 as (l1 & -> & L1 & Oa1 & Eb1 & V1). assert (U1 := only_attrs_ups h l l1 Oa1).
  destruct (too_many_ids (length ids) (sl_size vs)).
  - (* object by object *)
    assert (X : forall ps, incl ps (present_at objs) -> forall l2, layer_ok h a l2 -> only_attrs l l2 ->
       (forall k, a_find key_dec (big l2) k <> None -> (In (fst k) ids /\ snd k = attr) \/ a_find key_dec (big l) k <> None) ->
       exists l', fold_opt (fun l '(i, o) => if is_small_alloc o then Some l else layer_set_attr h (ups h l2) l o attr (slice_at vs i)) ps l2 = Some l' /\
       layer_ok h a l' /\ only_attrs l l' /\
       (forall k, a_find key_dec (big l') k <> None -> (In (fst k) ids /\ snd k = attr) \/ a_find key_dec (big l) k <> None) /\
       forall attr' o', valid o' -> attr_in h ((a, l') :: ups h l) attr' o' =
          if string_dec attr attr' then if is_small_alloc o' then attr_in h ((a, l2) :: ups h l) attr' o'
            else or_else (last_write (map (fun '(i, o) => (o, slice_at vs i)) ps) o') (attr_in h ((a, l2) :: ups h l) attr' o')
          else attr_in h ((a, l2) :: ups h l) attr' o').
    { induction ps as [|[i o] ps IH]; intros Inc l2 L2 O2 K2; cbn [fold_opt].
      - exists l2. split; [reflexivity|]. split; [auto|]. split; [auto|]. split; [auto|]. intros attr' o' V'. cbn.
        destruct (string_dec attr attr'), (is_small_alloc o'); reflexivity.
      - assert (Io : In o (present objs)) by (rewrite <- present_at_snd; apply in_map_iff; exists (i, o); split; auto; apply Inc; now left).
        assert (Vo : valid o) by (rewrite Forall_forall in Va; auto).
        assert (U2 := only_attrs_ups h l l2 O2).
        destruct (is_small_alloc o) eqn:Sm.
        + destruct (IH (fun x I => Inc x (or_intror I)) l2 L2 O2 K2) as (l' & E & L' & O' & K' & V'). exists l'. split; [exact E|].
          split; [auto|]. split; [auto|]. split; [auto|]. intros attr' o' Vo'. rewrite V' by auto. destruct (string_dec attr attr'); auto.
          destruct (is_small_alloc o') eqn:Sm'; auto. cbn [map last_write]. destruct (last_write _ o'); auto.
          destruct (same_oid o o') eqn:Eo; auto. apply same_oid_spec in Eo. congruence.
        + destruct (set_attr_ok h a l2 o attr (slice_at vs i) H L2 Vo) as (l3 & E3 & L3 & O3 & K3 & V3).
          rewrite E3. assert (O3' := only_attrs_trans _ _ _ O2 O3). assert (U3 := only_attrs_ups h l l3 O3').
          assert (K3' : forall k, a_find key_dec (big l3) k <> None -> (In (fst k) ids /\ snd k = attr) \/ a_find key_dec (big l) k <> None).
          { intros k Nk. destruct (K3 k Nk) as [->|N2]; auto. left. cbn. split; [|reflexivity]. rewrite Forall_forall in Cov. specialize (Cov o Io). now rewrite Sm in Cov. }
          destruct (IH (fun x I => Inc x (or_intror I)) l3 L3 O3' K3') as (l' & E & L' & O' & K' & V'). exists l'.
          split; [rewrite U2; rewrite U3 in E; exact E|].
          split; [auto|]. split; [auto|]. split; [auto|]. intros attr' o' Vo'. rewrite V' by auto. rewrite U2 in V3. rewrite V3 by auto.
          destruct (string_dec attr attr'); auto. destruct (is_small_alloc o') eqn:Sm'.
          * destruct (same_oid o o') eqn:Eo; auto. apply same_oid_spec in Eo. congruence.
          * cbn [map last_write]. destruct (last_write _ o'); auto. destruct (same_oid o o'); reflexivity. }
    destruct (X (present_at objs) (incl_refl _) l1 L1 Oa1) as (l' & E & L' & O' & K' & V').
    { intros k Nk. rewrite Eb1 in Nk. auto. }
    exists l'. split; [rewrite U1 in E; exact E|]. split; [auto|]. split; [auto|]. split; [auto|]. intros attr' o' Vo'.
    rewrite V' by auto. rewrite V1 by auto. destruct (string_dec attr attr'); auto. destruct (is_small_alloc o'); reflexivity.
  - (* allocation by allocation *)
    assert (X : forall is_, incl is_ ids -> forall l2, layer_ok h a l2 -> only_attrs l l2 ->
       (forall k, a_find key_dec (big l2) k <> None -> (In (fst k) ids /\ snd k = attr) \/ a_find key_dec (big l) k <> None) ->
       exists l', fold_opt (fun l id =>
          let k := (id, attr) in
          match mutable_source h (ups h l2) k (slice_kind vs) (N.of_nat (length objs)) (get_or_create_coll l k) with
          | None => None
          | Some c =>
              match mdense c, msparse c with
              | Some d, _ =>
                  option_map (fun d => set_big l k (mkColl (msparse c) (Some d) (cdense c) (lookup_parent c)))
                    (dense_set_all d objs vs)
              | None, Some s =>
                  option_map (fun s => set_big l k (mkColl (Some s) None (cdense c) (lookup_parent c)))
                    (sparse_set_all s objs vs)
              | None, None => None
              end
          end) is_ l2 = Some l' /\
       layer_ok h a l' /\ only_attrs l l' /\
       (forall k, a_find key_dec (big l') k <> None -> (In (fst k) ids /\ snd k = attr) \/ a_find key_dec (big l) k <> None) /\
       forall attr' o', valid o' -> attr_in h ((a, l') :: ups h l) attr' o' =
          if string_dec attr attr' then
            if is_small_alloc o' then attr_in h ((a, l2) :: ups h l) attr' o'
            else if in_dec oid_eq_dec (allocation_of o') is_ then or_else (last_write (writes objs vs) o') (attr_in h ((a, l2) :: ups h l) attr' o')
            else attr_in h ((a, l2) :: ups h l) attr' o'
          else attr_in h ((a, l2) :: ups h l) attr' o').
    { induction is_ as [|id is_ IH]; intros Inc l2 L2 O2 K2; cbn [fold_opt].
      - exists l2. split; [reflexivity|]. split; [auto|]. split; [auto|]. split; [auto|]. intros attr' o' V'. cbn.
        destruct (string_dec attr attr'), (is_small_alloc o'); reflexivity.
      - assert (Iid : In id ids) by (apply Inc; now left).
        assert (Aid : is_allocation id /\ is_small_alloc id = false) by (rewrite Forall_forall in Id; auto). destruct Aid as [Aid Sid].
        assert (U2 := only_attrs_ups h l l2 O2). cbn zeta. set (k := (id, attr)).
        destruct (get_or_create_good h a l2 k L2 Aid) as (G & Sh & Vw2). assert (Gc := ups_good_ch asize h a l2 H L2).
        destruct (mutable_source_ok asize asize_ok h (ups h l2) k (slice_kind vs) (N.of_nat (length objs)) _ G Gc) as (c & E & G' & Ne & Kc & Kd & Vc).
        rewrite E.
        assert (X : exists c', (match mdense c, msparse c with
              | Some d, _ =>
                  option_map (fun d => set_big l2 k (mkColl (msparse c) (Some d) (cdense c) (lookup_parent c)))
                    (dense_set_all d objs vs)
              | None, Some s =>
                  option_map (fun s => set_big l2 k (mkColl (Some s) None (cdense c) (lookup_parent c)))
                    (sparse_set_all s objs vs)
              | None, None => None
              end) = Some (set_big l2 k c') /\ coll_ok h (ups h l2) k c' /\
            forall o', real (fst k) o' -> coll_get h k c' (look_big h (ups h l2) k o') o' =
               or_else (last_write (writes objs vs) o') (coll_get h k c (look_big h (ups h l2) k o') o')).
        { destruct G' as (_ & Gs & Gd & Gcd). destruct (mdense c) as [d|] eqn:MD.
          - destruct Gd as ((Wd & Ad & Sz & Qd) & M & E1 & E2 & E3).
            destruct (dense_set_all_ok d objs vs Wd M Sl Ln) as (d' & Ed & Wd' & M' & Ad' & Sz' & Vd).
            { destruct Du as [Du|Du]; [left; exact Du|right]. rewrite Ad. apply offsets_NoDup; auto. }
            rewrite Ed. eexists. split; [reflexivity|]. rewrite E1, E2, E3. rewrite Ad in Vd. split.
            + split; [split; [exact Aid|]|].
              * cbn. split; [auto|]. split; [|auto]. split; [|auto].
                split; [auto|]. split; [rewrite Ad'; exact Ad|]. split; [rewrite Sz'; exact Sz|].
                intros off x Lo. rewrite Vd. eapply write_all_quiet'; eauto.
              * cbn. split; [exact Sid|]. split; [exact I|]. discriminate.
            + intros o' R'. unfold coll_get. cbn [msparse mdense lookup_parent bind or_else].
              unfold dense_get. rewrite Vd. change (fst k) with id. rewrite (write_all_last id) by auto.
              rewrite E1, MD, E3, (cd_of_none h k c E2), cd_of_none by reflexivity. cbn [bind or_else]. destruct (last_write (writes objs vs) o'); cbn; auto.
          - destruct (msparse c) as [s|] eqn:MS; [|destruct Ne; congruence].
            assert (Ws := good_sparse_wf asize _ _ Aid Gs).
            destruct (sparse_set_all s objs vs) as [s'|] eqn:Es; [|unfold sparse_set_all in Es; rewrite Ln, Nat.eqb_refl in Es; discriminate].
            destruct (sparse_set_all_ok _ _ _ _ Ws Es) as (_ & [W1 W2] & Al & Gg). destruct Gs as (Sa & Nd & Rk).
            eexists. split; [reflexivity|]. split.
            + split; [split; [exact Aid|]|].
              * cbn. split; [|split; [auto|exact Gcd]]. split; [rewrite Al; exact Sa|]. split; [auto|].
                intros o v I. assert (Bo := W2 _ _ I). unfold belongs in Bo. rewrite Al, Sa in Bo. change (fst k) with id in Bo.
                specialize (Gg o). unfold belongs in Gg. rewrite Sa in Gg. change (fst k) with id in Gg. rewrite Bo in Gg. unfold sparse_get in Gg.
                rewrite (proj2 (s_find_in _ o v W1) I) in Gg. destruct (last_write (writes objs vs) o) as [w|] eqn:LW.
                -- destruct (in_dec oid_eq_dec o (map fst (writes objs vs))) as [J|J]; [|apply last_write_none in J; congruence].
                   apply in_map_iff in J as ([o2 v2] & E2 & J). cbn in E2. subst o2. assert (Vo := Vw _ _ J).
                   apply contains_spec in Bo; [|auto|apply Vo]. cbn. rewrite <- Bo. apply valid_real; auto. rewrite <- Sid, <- Bo. reflexivity.
                -- symmetry in Gg. apply s_find_in in Gg; auto. exact (Rk _ _ Gg).
              * cbn. split; [exact Sid|]. split; [|discriminate]. unfold shared_ok in *. cbn. rewrite (Kc eq_refl). exact Sh.
            + intros o' R'. unfold coll_get. cbn [msparse mdense lookup_parent bind or_else]. rewrite MS, MD. cbn [bind or_else].
              rewrite Gg. unfold belongs. rewrite Sa, (real_contains asize (fst k) o' Aid R'). destruct (last_write (writes objs vs) o'); reflexivity. }
        destruct X as (c' & -> & Ck & Vk).
        assert (L3 := set_big_ok h a l2 k c' L2 Ck).
        assert (O3 : only_attrs l (set_big l2 k c')) by (destruct O2 as (? & ? & ? & ?); unfold only_attrs; cbn; auto).
        assert (K3 : forall k', a_find key_dec (big (set_big l2 k c')) k' <> None -> (In (fst k') ids /\ snd k' = attr) \/ a_find key_dec (big l) k' <> None).
        { intros k'. cbn. rewrite a_find_set. destruct (key_dec k k') as [<-|]; auto. }
        destruct (IH (fun x I => Inc x (or_intror I)) _ L3 O3 K3) as (l' & E' & L' & O' & K' & V').
        exists l'. split; [rewrite (only_attrs_ups h l _ O3) in E'; rewrite U2; exact E'|]. split; [auto|]. split; [auto|]. split; [auto|].
        intros attr' o' Vo'. rewrite V' by auto.
        assert (Y : attr_in h ((a, set_big l2 k c') :: ups h l) attr' o' =
            if string_dec attr attr' then if is_small_alloc o' then attr_in h ((a, l2) :: ups h l) attr' o' else
              if oid_eq_dec id (allocation_of o') then or_else (last_write (writes objs vs) o') (attr_in h ((a, l2) :: ups h l) attr' o')
              else attr_in h ((a, l2) :: ups h l) attr' o'
            else attr_in h ((a, l2) :: ups h l) attr' o').
        { unfold attr_in. rewrite set_big_look. destruct (is_small_alloc o') eqn:Sm'.
          - cbn. destruct (string_dec attr attr'); reflexivity.
          - destruct (key_dec k (allocation_of o', attr')) as [Ek|Nk].
            + unfold k in Ek; apply pair_equal_spec in Ek; destruct Ek as [Ea <-]. destruct (string_dec attr attr); [|congruence]. destruct (oid_eq_dec id (allocation_of o')); [|congruence].
              assert (Ro' : real (fst k) o') by (cbn; rewrite Ea; now apply valid_real).
              rewrite <- U2. rewrite Vk, Vc, Vw2 by auto. unfold k. now rewrite Ea.
            + destruct (string_dec attr attr') as [<-|]; auto. destruct (oid_eq_dec id (allocation_of o')) as [->|]; auto. now elim Nk. }
        rewrite Y. destruct (string_dec attr attr') as [<-|]; auto. destruct (is_small_alloc o'); auto.
        cbn [in_dec]. destruct (oid_eq_dec id (allocation_of o')) as [Ei|Ni].
        + destruct (in_dec oid_eq_dec (allocation_of o') is_); destruct (in_dec oid_eq_dec (allocation_of o') (id :: is_)) as [|Nn];
            try (elim Nn; left; auto; fail); auto. destruct (last_write (writes objs vs) o'); reflexivity.
        + destruct (in_dec oid_eq_dec (allocation_of o') is_) as [J|J]; destruct (in_dec oid_eq_dec (allocation_of o') (id :: is_)) as [J2|J2]; auto.
          * elim J2. now right.
          * destruct J2; [congruence|tauto]. }
    destruct (X ids (incl_refl _) l1 L1 Oa1) as (l' & E & L' & O' & K' & V').
    { intros k Nk. rewrite Eb1 in Nk. auto. }
    exists l'. split; [rewrite U1 in E; exact E|]. split; [auto|]. split; [auto|]. split; [auto|]. intros attr' o' Vo'.
    rewrite V' by auto. rewrite V1 by auto. destruct (string_dec attr attr'); auto. destruct (is_small_alloc o') eqn:Sm'; auto.
    destruct (in_dec oid_eq_dec (allocation_of o') ids) as [J|J]; auto.
    replace (last_write (writes objs vs) o') with (@None ditem); auto. symmetry. apply last_write_none. rewrite writes_fst.
    intros I. rewrite Forall_forall in Cov. specialize (Cov o' I). rewrite Sm' in Cov. tauto.
Qed.

(** ** A new allocation *)
Definition field_ok (alloc : ObjectId) (s : dslice) : Prop :=
  ds_size s = asize alloc /\ (ds_values s <> [] -> wf_dslice s).
Lemma field_dense alloc s : is_allocation alloc -> field_ok alloc s ->
  exists d, (match ds_values s with [] => Some (create_all_removed alloc) | _ => create_readonly alloc s end) = Some d /\
    good_dense asize alloc d /\ forall o, dense_get d o = field_entry s (offset o).
Proof.
  intros A [Sz W]. unfold field_entry, create_readonly. destruct (ds_values s) as [|v vs] eqn:E.
  - eexists. split; [reflexivity|]. split; [|reflexivity]. unfold good_dense, create_all_removed. cbn.
    split; [intros off v; discriminate|]. split; [auto|]. split; [split; [apply asize_ok|apply N.le_refl]|]. intros off x _ F. cbn in F. now injection F as <-.
  - destruct (N.ltb_spec (capacity alloc) (ds_size s)) as [Lt|Ge]; [rewrite Sz in Lt; specialize (asize_ok alloc); lia|].
    eexists. split; [reflexivity|]. split; [|reflexivity].
    assert (Wd : wf_dslice s) by (apply W; congruence).
    split; [cbn; split; [auto|split; [congruence|auto]]|]. split; [auto|]. split; [cbn [de_size]; rewrite Sz in *; split; [apply N.le_refl|exact Ge]|].
    intros off x L F. cbn in F. destruct (ro_at_parts s off Wd) as [P _]. rewrite P in F.
    rewrite (first_at_none (ds_values s) off) in F; [destruct (removed_in s off); congruence|].
    intros n. apply (proj2 (proj2 Wd)). lia.
Qed.
Lemma create_ok h a l alloc fields : layer_ok h a l -> is_allocation alloc -> is_small_alloc alloc = false ->
  (forall attr, a_find key_dec (big l) (alloc, attr) = None) -> Forall (fun '(_, s) => field_ok alloc s) fields -> NoDup (map fst fields) ->
  exists l', layer_create l alloc fields = Some l' /\ layer_ok h a l' /\ only_attrs l l' /\
    (forall k, a_find key_dec (big l') k <> None -> fst k = alloc \/ a_find key_dec (big l) k <> None) /\
    forall attr o, valid o ->
      attr_in h ((a, l') :: ups h l) attr o =
      match a_find string_dec fields attr with
      | Some s => if oid_eq_dec (allocation_of o) alloc then field_entry s (offset o) else attr_in h ((a, l) :: ups h l) attr o
      | None => attr_in h ((a, l) :: ups h l) attr o
      end.
Proof.
  intros L A Sm Fr F N. unfold layer_create.
  assert (X : forall fs l2, Forall (fun '(_, s) => field_ok alloc s) fs -> NoDup (map fst fs) -> layer_ok h a l2 -> only_attrs l l2 ->
    (forall attr, In attr (map fst fs) -> a_find key_dec (big l2) (alloc, attr) = None) ->
    (forall k, a_find key_dec (big l2) k <> None -> fst k = alloc \/ a_find key_dec (big l) k <> None) ->
    exists l', fold_opt (fun l '(attr, s) =>
    match (match ds_values s with [] => Some (create_all_removed alloc) | _ => create_readonly alloc s end) with
    | None => None
    | Some d =>
        Some (match a_find key_dec (big l) (alloc, attr) with
              | Some _ => l
              | None => set_big l (alloc, attr) (mkColl None None (Some (CVal d)) false)
              end)
    end) fs l2 = Some l' /\ layer_ok h a l' /\ only_attrs l l' /\
    (forall k, a_find key_dec (big l') k <> None -> fst k = alloc \/ a_find key_dec (big l) k <> None) /\
    forall attr o, valid o ->
      attr_in h ((a, l') :: ups h l) attr o =
      match a_find string_dec fs attr with
      | Some s => if oid_eq_dec (allocation_of o) alloc then field_entry s (offset o) else attr_in h ((a, l2) :: ups h l) attr o
      | None => attr_in h ((a, l2) :: ups h l) attr o
      end).
  { clear F N Fr. induction fs as [|[attr s] fs IH]; intros l2 F N L2 O2 Fr K2; cbn [fold_opt].
    - exists l2. split; [reflexivity|]. split; [auto|]. split; [auto|]. split; [auto|]. reflexivity.
    - inversion F as [|? ? F1 F2]; inversion N as [|? ? N1 N2]; subst.
      destruct (field_dense alloc s A F1) as (d & E & Gd & Vd). rewrite E. rewrite Fr by (now left).
      set (c := mkColl None None (Some (CVal d)) false).
      assert (C : coll_ok h (ups h l2) (alloc, attr) c).
      { split; [split; [exact A|cbn]|cbn]. - split; [auto|]. split; [auto|]. split; [auto|]. exists d. auto.
        - split; [exact Sm|]. split; [exact I|]. discriminate. }
      assert (L3 := set_big_ok h a l2 (alloc, attr) c L2 C).
      assert (O3 : only_attrs l (set_big l2 (alloc, attr) c)) by (destruct O2 as (? & ? & ? & ?); unfold only_attrs; cbn; auto).
      destruct (IH _ F2 N2 L3 O3) as (l' & E' & L' & O' & K' & V').
      + intros attr' I. cbn. rewrite a_find_set. destruct (key_dec (alloc, attr) (alloc, attr')) as [Ek|]; [apply pair_equal_spec in Ek; destruct Ek as [_ <-]; tauto|].
        apply Fr. now right.
      + intros k. cbn. rewrite a_find_set. destruct (key_dec (alloc, attr) k) as [<-|]; auto.
      + exists l'. split; [exact E'|]. split; [auto|]. split; [auto|]. split; [auto|]. intros attr' o Vo. rewrite V' by auto. cbn [a_find].
        unfold attr_in. rewrite set_big_look. destruct (string_dec attr attr') as [<-|Na].
        * replace (a_find string_dec fs attr) with (@None dslice).
          2:{ symmetry. destruct (a_find string_dec fs attr) eqn:E2; auto. exfalso. apply N1. apply a_find_in in E2. apply in_map_iff. exists (attr, d0). auto. }
          destruct (oid_eq_dec (allocation_of o) alloc) as [Ea|Na].
          -- replace (is_small_alloc o) with false by (symmetry; rewrite <- Sm, <- Ea; reflexivity). rewrite Ea. destruct (key_dec (alloc, attr) (alloc, attr)); [|congruence].
             unfold coll_get, c. cbn. rewrite Vd. now rewrite or_else_none.
          -- destruct (is_small_alloc o); auto. destruct (key_dec (alloc, attr) (allocation_of o, attr)) as [Ek|]; auto. apply pair_equal_spec in Ek. destruct Ek. congruence.
        * destruct (a_find string_dec fs attr'); destruct (is_small_alloc o); auto;
          destruct (key_dec (alloc, attr) (allocation_of o, attr')) as [Ek|]; auto; congruence. }
  apply (X fields l F N L (only_attrs_refl l)); auto.
Qed.
End Layer.
