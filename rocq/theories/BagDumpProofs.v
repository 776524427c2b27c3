(** The message that is written for a bag describes it. *)
From Coq Require Import String NArith ZArith List Bool Arith Lia Permutation.
From Verif Require Import ObjectIdModel ObjectIdProofs SchemaModel ItemModel DictModel DictSpec DictProofs
  SourceModel SourceSpec SourceProofs BagModel CollProofs BagProofs LayerProofs FullWriteProofs ContainerProofs
  MergeModel MergeFold BagSpec MergeImplProofs ReadProofs BagKeysProofs BagCodecModel BagCodecSpec.
Import ListNotations.
Local Open Scope nat_scope.
Notation chain := BagModel.chain.

Section Describes.
Variable asize : ObjectId -> N.
(** ** Messages and contents *)
(** [m] says what is in [c]. *)
Record describes (m : bag_msg) (c : content) : Prop := {
  de_names : NoDup (map fst (m_attrs m));
  de_item : forall attr cs o v, In (attr, cs) (m_attrs m) -> In (CItem o v) cs -> exists_object asize o /\ c_attr c attr o = Some v;
  de_all : forall attr cs o vs, In (attr, cs) (m_attrs m) -> In (CAlloc o vs) cs ->
    (wf o /\ offset o = 0%N) /\ is_small_alloc o = false /\
    (asize o <= N.of_nat (length vs) <= capacity o)%N /\
    (forall off, (off < N.of_nat (length vs))%N -> (off < asize o)%N -> nth_error vs (N.to_nat off) = Some (c_attr c attr (object_by_offset o off))) /\
    (forall off v, (asize o <= off)%N -> nth_error vs (N.to_nat off) = Some (Some v) -> v = None);
  de_apart : forall attr cs, In (attr, cs) (m_attrs m) ->
    exists items allocs, cs = map (fun '(o, v) => CItem o v) items ++ map (fun '(o, vs) => CAlloc o vs) allocs /\
      NoDup (map fst allocs) /\ forall o v, In (o, v) items -> ~ In (allocation_of o) (map fst allocs);
  de_found : forall attr o v, exists_object asize o -> c_attr c attr o = Some v ->
    exists cs, In (attr, cs) (m_attrs m) /\ (In (CItem o v) cs \/ exists vs, In (CAlloc (allocation_of o) vs) cs);
  de_lists : NoDup (map fst (m_lists m));
  de_list : forall o l, In (o, l) (m_lists m) <-> wf o /\ c_list c o = Some l;
  de_list_kind : forall o l, In (o, l) (m_lists m) -> is_list (allocation_of o) = true;
  de_dict : forall o ks vs, In (o, ks, vs) (m_dicts m) ->
    wf o /\ is_dict (allocation_of o) || is_schema (allocation_of o) = true /\ length ks = length vs /\
    forall k v, In (k, v) (combine ks vs) -> c_dict c o k = Some v /\ unsupported_key (Some k) = false;
  de_dict_found : forall o k v, wf o -> c_dict c o k = Some v -> exists ks vs, In (o, ks, vs) (m_dicts m) /\ In (k, v) (combine ks vs)
}.
End Describes.

(** ** Lists of options *)
Lemma concat_opt_map {A B} (f : A -> option (list B)) l : (forall x, In x l -> f x <> None) ->
  exists r, concat_opt (map f l) = Some r /\ forall z, In z r <-> exists x y, In x l /\ f x = Some y /\ In z y.
Proof.
  induction l as [|x l IH]; intros F; cbn.
  - exists []. split; auto. intros z. split; [easy|intros (x & y & [] & _)].
  - destruct IH as (r & -> & R); [intros y I; apply F; now right|]. destruct (f x) as [y|] eqn:E; [|elim (F x (or_introl eq_refl) E)].
    exists (y ++ r). split; auto. intros z. rewrite in_app_iff, R. split.
    + intros [I|(x' & y' & I & E' & J)]; [exists x, y; auto|exists x', y'; auto].
    + intros (x' & y' & [<-|I] & E' & J); [left; congruence|right; exists x', y'; auto].
Qed.
Lemma concat_opt_flat {A B} (g : A -> list B) f l : (forall x, In x l -> f x = Some (g x)) -> concat_opt (map f l) = Some (flat_map g l).
Proof.
  induction l as [|x l IH]; intros F; cbn; auto. rewrite (F x (or_introl eq_refl)), IH; auto. intros y I. apply F. now right.
Qed.
Lemma all_opt_map {A B} (f : A -> option B) l : (forall x, In x l -> f x <> None) ->
  exists r, all_opt (map f l) = Some r /\ Forall2 (fun x y => f x = Some y) l r.
Proof.
  induction l as [|x l IH]; intros F; cbn; [exists []; auto|].
  destruct IH as (r & -> & R); [intros y I; apply F; now right|]. destruct (f x) as [y|] eqn:E; [|elim (F x (or_introl eq_refl) E)].
  exists (y :: r). auto.
Qed.
Lemma a_find_keys {K V} dec (m : list (K * V)) k : In k (map fst m) <-> a_find dec m k <> None.
Proof.
  induction m as [|[k' v] m IH]; cbn; [intuition|]. destruct (dec k' k) as [->|N]; [intuition discriminate|].
  rewrite <- IH. split; [intros [?|?]; [congruence|auto]|auto].
Qed.
Lemma in_perm {A} (l l' : list A) x : Permutation l' l -> In x l' <-> In x l.
Proof. intros P. split; apply Permutation_in; auto. now apply Permutation_sym. Qed.

(** ** Several sources *)
Lemma visit_in ss o v : Forall (fun s => NoDup (map fst (sp_map s))) ss ->
  (In (o, v) (visit_all ss) <-> sources_get ss None o = Some v).
Proof.
  intros F. unfold visit_all.
  assert (G : forall used, In (o, v) (dedup oid_eq_dec fst used (flat_map sp_map ss)) <-> ~ In o used /\ sources_get ss None o = Some v).
  2: { rewrite G. cbn. intuition. }
  induction F as [|s ss Ns F IH]; intros used; cbn [flat_map].
  - cbn. split; [easy|intros [_ E]; discriminate].
  - assert (L : forall m (used : list ObjectId), NoDup (map fst m) ->
      dedup oid_eq_dec fst used (m ++ flat_map sp_map ss) =
      filter (fun p => if in_dec oid_eq_dec (fst p) used then false else true) m ++ dedup oid_eq_dec fst (rev (map fst (filter (fun p => if in_dec oid_eq_dec (fst p) used then false else true) m)) ++ used) (flat_map sp_map ss)).
    { clear. induction m as [|[o1 v1] m IH]; intros used N; [reflexivity|]. cbn [map fst] in N. apply NoDup_cons_iff in N as [N1 N2]. cbn [app dedup filter fst].
      destruct (in_dec oid_eq_dec o1 used) as [U|U]; [now apply IH|]. cbn [app map fst rev]. rewrite IH by auto. f_equal.
      assert (Ef : filter (fun p => if in_dec oid_eq_dec (fst p) (o1 :: used) then false else true) m = filter (fun p : ObjectId * ditem => if in_dec oid_eq_dec (fst p) used then false else true) m).
      { apply filter_ext_in. intros [o2 v2] I. cbn [fst]. assert (o2 <> o1) by (intros ->; apply N1, in_map_iff; exists (o1, v2); auto).
        destruct (in_dec oid_eq_dec o2 (o1 :: used)) as [[E|J]|J], (in_dec oid_eq_dec o2 used) as [J'|J']; try easy; [congruence|]. elim J. now right. }
      rewrite Ef. now rewrite <- app_assoc. }
    rewrite L by exact Ns. rewrite in_app_iff, IH, in_app_iff, <- in_rev.
    change (sources_get (s :: ss) None o) with (or_else (sparse_get s o) (sources_get ss None o)).
    assert (Is : forall w, sparse_get s o = Some w <-> In (o, w) (sp_map s)) by (intros w; now apply s_find_in).
    assert (Fi : forall w, In (o, w) (filter (fun p : ObjectId * ditem => if in_dec oid_eq_dec (fst p) used then false else true) (sp_map s)) <-> ~ In o used /\ In (o, w) (sp_map s)).
    { intros w. rewrite filter_In. cbn. destruct (in_dec oid_eq_dec o used); intuition discriminate. }
    rewrite Fi. destruct (sparse_get s o) as [w|] eqn:Es; cbn [or_else].
    + split.
      * intros [[U I]|[U I]]; [split; auto; apply Is in I; congruence|]. exfalso. apply U. destruct (in_dec oid_eq_dec o used) as [J|J]; [now right|].
        left. apply in_map_iff. exists (o, w). split; auto. apply Fi. split; auto. now apply Is.
      * intros [U E]. left. split; auto. apply Is. congruence.
    + split.
      * intros [[U I]|[U I]]; [apply Is in I; discriminate|]. split; auto.
      * intros [U I]. right. split; auto. intros [J|J]; auto.
        apply in_map_iff in J as ([o' w] & E & J). cbn in E. subst o'. apply Fi in J as [_ J]. apply Is in J. discriminate.
Qed.

(** ** Allocations *)
Lemma by_offset_0 a : object_by_offset a 0 = a.
Proof. destruct a. unfold object_by_offset. cbn. now rewrite N.lor_0_r. Qed.
Lemma alloc_self a : is_allocation a -> allocation_of a = a.
Proof. intros [W O]. rewrite <- (object_reassemble a W) at 2. now rewrite O, by_offset_0. Qed.

Section Dump.
Variable asize : ObjectId -> N.
Hypothesis asize_ok : forall a, (asize a <= capacity a)%N.
Variable iter : dmap -> dmap.
Hypothesis any_order : forall m, Permutation (iter m) m.
Variable ord : orders.
Hypothesis any_ord : any_orders ord.
Notation valid := (valid asize).
Notation heap_ok := (heap_ok asize).
Variable h : heap.
Hypothesis H : heap_ok h.
Hypothesis K : forall x l, nth_error h x = Some l -> kinds_in l.
Variable a : nat.
Let ch := chain h a.

Lemma big_keys_in k : In k (big_keys ch) <-> exists x l, In (x, l) ch /\ a_find key_dec (big l) k <> None.
Proof.
  unfold big_keys. rewrite in_flat_map. split.
  - intros ([x l] & I & J). exists x, l. split; auto. now apply a_find_keys.
  - intros (x & l & I & J). exists (x, l). split; auto. now apply (a_find_keys key_dec).
Qed.
Lemma big_keys_alloc k : In k (big_keys ch) -> is_allocation (fst k) /\ is_small_alloc (fst k) = false.
Proof.
  intros I. apply big_keys_in in I as (x & l & I & F). destruct (chain_in asize h H a x l I) as (E & _).
  destruct (a_find key_dec (big l) k) as [c|] eqn:Fk; [|easy]. destruct (H x l E) as (_ & _ & B & _). destruct (B k c Fk) as ((A & _) & Sm & _). auto.
Qed.
Lemma look_big_key hh c k o : look_big hh c k o <> None -> exists x l, In (x, l) c /\ a_find key_dec (big l) k <> None.
Proof.
  induction c as [|[x l] c IH]; cbn; [easy|]. destruct (a_find key_dec (big l) k) as [y|] eqn:F.
  - intros _. exists x, l. split; [now left|congruence].
  - intros N. destruct (IH N) as (x' & l' & I & J). exists x', l'. auto.
Qed.
Lemma look_small_name c attr o : look_small c attr o <> None -> In attr (small_names c).
Proof.
  unfold small_names. induction c as [|[x l] c IH]; cbn; [easy|]. destruct (a_find string_dec (small l) attr) as [m|] eqn:F; intros N; apply in_app_iff.
  - left. apply (a_find_keys string_dec). congruence.
  - right. now apply IH.
Qed.
Lemma small_sources_ok attr : Forall (fun s => NoDup (map fst (sp_map s)) /\ forall o v, In (o, v) (sp_map s) -> valid o /\ is_small_alloc o = true) (small_sources ch attr).
Proof.
  assert (G : forall x l, In (x, l) ch -> forall m, a_find string_dec (small l) attr = Some m -> small_ok asize m).
  { intros x l I m F. destruct (chain_in asize h H a x l I) as (E & _). destruct (H x l E) as (_ & Sm & _). eauto. }
  induction ch as [|[x l] c IH]; cbn; [constructor|]. specialize (IH (fun y ly J => G y ly (or_intror J))).
  destruct (a_find string_dec (small l) attr) as [m|] eqn:F; auto. constructor; auto. exact (G x l (or_introl eq_refl) m F).
Qed.
Lemma small_items_in attr o v : In (o, v) (small_items ch attr) <-> look_small ch attr o = Some v.
Proof.
  unfold small_items. rewrite visit_in, small_sources_get; [reflexivity|]. eapply Forall_impl; [|apply small_sources_ok]. intros s [N _]. exact N.
Qed.
Lemma look_small_valid attr o v : look_small ch attr o = Some v -> valid o /\ is_small_alloc o = true.
Proof.
  rewrite <- (small_sources_get attr ch o). assert (F := small_sources_ok attr). induction F as [|s ss [N Q] F IH]; cbn; [discriminate|].
  destruct (sparse_get s o) as [w|] eqn:E; cbn; auto. intros _. apply (s_find_in _ _ _ N) in E. eauto.
Qed.

(** *** One allocation *)
Lemma alloc_items attr alloc : is_allocation alloc -> is_small_alloc alloc = false ->
  let '(items, allocs) := alloc_content h ch attr alloc in
  (forall o v, In (o, v) items -> valid o /\ is_small_alloc o = false /\ allocation_of o = alloc /\ look_big h ch (alloc, attr) o = Some v /\ allocs = []) /\
  (forall al vs, In (al, vs) allocs -> al = alloc /\ (asize alloc <= N.of_nat (length vs) <= capacity alloc)%N /\
     (forall off, (off < N.of_nat (length vs))%N -> (off < asize alloc)%N -> nth_error vs (N.to_nat off) = Some (look_big h ch (alloc, attr) (object_by_offset alloc off))) /\
     (forall off v, (asize alloc <= off)%N -> nth_error vs (N.to_nat off) = Some (Some v) -> v = None)) /\
  NoDup (map fst allocs) /\
  (forall o v, valid o -> allocation_of o = alloc -> look_big h ch (alloc, attr) o = Some v -> In (o, v) items \/ exists vs, In (alloc, vs) allocs).
Proof.
  intros A Sm. unfold alloc_content, sources_of. rewrite Sm.
  assert (D := data_sources_ok asize h ch (alloc, attr) (heap_good_ch asize h a H)). cbn [fst] in D.
  destruct (data_sources h ch (alloc, attr)) as [ss d]. destruct D as (Gs & Gd & G).
  assert (Lt : forall o, valid o -> allocation_of o = alloc -> (offset o < asize alloc)%N).
  { intros o [W V] E. rewrite <- E. apply V. rewrite <- Sm, <- E. reflexivity. }
  destruct (N.eqb_spec (match d with Some d0 => de_size d0 | None => capacity alloc end) 0) as [Z|Z].
  { split; [easy|]. split; [easy|]. split; [constructor|]. intros o v V E F. exfalso. specialize (Lt o V E). destruct d as [d|].
    - destruct Gd as (_ & _ & R & _). lia.
    - assert (X := asize_ok alloc). lia. }
  destruct d as [d|].
  - split; [easy|]. destruct Gd as (Wd & Ad & R & Q).
    assert (Nth : forall off, (off < de_size d)%N -> nth_error (alloc_values alloc (de_size d) ss d) (N.to_nat off) =
       Some (or_else (sources_get ss None (object_by_offset alloc off)) (dense_at d off))).
    { intros off L. unfold alloc_values. rewrite bld_new, fill_sparses. change (fill_dense ?x d) with (fold_left fill_dense [d] x). rewrite fill_denses by auto.
      unfold bld. rewrite !map_map. rewrite (map_nth_error _ (N.to_nat off) (below (de_size d)) (d := off)).
      - cbn [snd or_else denses_get fold_right]. f_equal. f_equal. rewrite or_else_none. unfold dense_look, dense_get.
        rewrite object_by_offset_offset by (auto; lia). rewrite Ad.
        replace (contains alloc (object_by_offset alloc off)) with true; [reflexivity|]. symmetry. apply contains_spec; auto.
        + apply object_by_offset_wf; auto. lia.
        + apply object_by_offset_alloc; auto. lia.
      - rewrite nth_below by lia. now rewrite N2Nat.id. }
    assert (Ln : N.of_nat (length (alloc_values alloc (de_size d) ss d)) = de_size d).
    { unfold alloc_values. rewrite bld_new, fill_sparses. change (fill_dense ?x d) with (fold_left fill_dense [d] x). rewrite fill_denses by auto.
      unfold bld. rewrite !map_length, below_length. lia. }
    split; [|split].
    + intros al vs [Ep|[]]. assert (al = alloc) by congruence. assert (Ev : vs = alloc_values alloc (de_size d) ss d) by congruence. subst al vs. rewrite Ln.
      split; auto. split; auto. split.
      * intros off L1 L2. rewrite Nth by auto. f_equal. rewrite <- G. unfold sources_get.
        assert (X : dense_at d off = dense_get d (object_by_offset alloc off)) by (unfold dense_get; rewrite object_by_offset_offset by (auto; lia); reflexivity).
        rewrite X. clear. cbn [bind]. induction ss as [|s ss IH]; cbn; auto. rewrite <- IH. now rewrite or_else_assoc.
      * intros off v L E. assert (L2 : (off < de_size d)%N) by (rewrite <- Ln; assert (N.to_nat off < length (alloc_values alloc (de_size d) ss d)) by (apply nth_error_Some; congruence); lia).
        rewrite Nth in E by auto. injection E as E. destruct (sources_get ss None (object_by_offset alloc off)) as [w|] eqn:Es.
        -- exfalso. clear - Es Gs L L2 A R asize_ok. induction Gs as [|s ss (_ & N & Rl) Gs IH]; cbn in Es; [discriminate|].
           destruct (sparse_get s (object_by_offset alloc off)) as [w'|] eqn:E1; cbn in Es; auto. apply (s_find_in _ _ _ N) in E1.
           destruct (Rl _ _ E1) as (_ & _ & X). rewrite object_by_offset_offset in X by (auto; lia). lia.
        -- cbn in E. exact (Q off v L E).
    + constructor; [easy|constructor].
    + intros o v V E F. right. eexists. left. reflexivity.
  - assert (It : forall o v, In (o, v) (match ss with [s] => sp_map s | _ => visit_all ss end) <-> look_big h ch (alloc, attr) o = Some v).
    { intros o v. rewrite <- G. destruct ss as [|s [|s2 ss]].
      - cbn. split; [easy|discriminate].
      - cbn. rewrite or_else_none. inversion Gs as [|? ? (_ & N & _) _]; subst. unfold sparse_get. symmetry. now apply s_find_in.
      - apply visit_in. eapply Forall_impl; [|exact Gs]. intros x (_ & N & _). exact N. }
    split; [|split; [easy|split; [constructor|]]].
    + intros o v I. apply It in I. assert (Rl : real asize alloc o).
      { clear - I Gs G. rewrite <- G in I. clear G. induction Gs as [|s ss (_ & N & Rl) Gs IH]; cbn in I; [discriminate|].
        destruct (sparse_get s o) as [w'|] eqn:E1; cbn in I; auto. apply (s_find_in _ _ _ N) in E1. eauto. }
      split; [eapply real_valid; eauto|]. destruct Rl as (_ & E & _). split; [rewrite <- Sm, <- E; reflexivity|]. auto.
    + intros o v V E F. left. now apply It.
Qed.

(** *** One attribute *)
Lemma index_allocs_in attr alloc : In alloc (index_allocs ord ch attr) <-> In (alloc, attr) (big_keys ch).
Proof.
  unfold index_allocs. destruct any_ord as (_ & P & _). rewrite (in_perm _ _ _ (P _)), nodup_In, in_map_iff. split.
  - intros ([al at'] & E & I). cbn in E. subst al. apply filter_In in I as [I J]. cbn [snd] in J. destruct (string_dec at' attr) as [->|]; [exact I|discriminate J].
  - intros I. exists (alloc, attr). split; auto. apply filter_In. split; auto. cbn [snd]. now destruct (string_dec attr attr).
Qed.
Lemma index_allocs_nodup attr : NoDup (index_allocs ord ch attr).
Proof. unfold index_allocs. destruct any_ord as (_ & P & _). eapply Permutation_NoDup; [apply Permutation_sym, P|apply NoDup_nodup]. Qed.
Lemma index_names_in attr : In attr (index_names ord ch) <-> (exists al, In (al, attr) (big_keys ch)) \/ In attr (small_names ch).
Proof.
  unfold index_names. destruct any_ord as (P & _). rewrite (in_perm _ _ _ (P _)), nodup_In, in_app_iff, in_map_iff. split.
  - intros [([al at'] & E & I)|I]; auto. cbn in E. subst. left. eauto.
  - intros [(al & I)|I]; auto. left. exists (al, attr). auto.
Qed.

Definition attr_items attr := o_items ord ((if with_small_allocs ch attr then small_items ch attr else []) ++ flat_map fst (map (alloc_content h ch attr) (index_allocs ord ch attr))).
Definition attr_allocs attr := flat_map snd (map (alloc_content h ch attr) (index_allocs ord ch attr)).
Lemma attr_items_in attr o v : In (o, v) (attr_items attr) <->
  (In attr (small_names ch) /\ look_small ch attr o = Some v) \/
  exists alloc, In (alloc, attr) (big_keys ch) /\ In (o, v) (fst (alloc_content h ch attr alloc)).
Proof.
  unfold attr_items. destruct any_ord as (_ & _ & P & _). rewrite (in_perm _ _ _ (P _)), in_app_iff, in_flat_map. unfold with_small_allocs.
  split; (intros [I|I]; [left|right]).
  - destruct (in_dec string_dec attr (small_names ch)) as [J|J]; [|easy]. split; auto. now apply small_items_in.
  - destruct I as (c & I & J). apply in_map_iff in I as (alloc & <- & I). apply index_allocs_in in I. eauto.
  - destruct I as [J I]. destruct (in_dec string_dec attr (small_names ch)); [|easy]. now apply small_items_in.
  - destruct I as (alloc & I & J). exists (alloc_content h ch attr alloc). split; auto. apply List.in_map. now apply index_allocs_in.
Qed.
Lemma attr_allocs_in attr o vs : In (o, vs) (attr_allocs attr) <->
  exists alloc, In (alloc, attr) (big_keys ch) /\ In (o, vs) (snd (alloc_content h ch attr alloc)).
Proof.
  unfold attr_allocs. rewrite in_flat_map. split.
  - intros (c & I & J). apply in_map_iff in I as (alloc & <- & I). apply index_allocs_in in I. eauto.
  - intros (alloc & I & J). exists (alloc_content h ch attr alloc). split; auto. apply List.in_map. now apply index_allocs_in.
Qed.
Lemma alloc_fact attr alloc : In (alloc, attr) (big_keys ch) -> exists items allocs, alloc_content h ch attr alloc = (items, allocs) /\
  (forall o v, In (o, v) items -> valid o /\ is_small_alloc o = false /\ allocation_of o = alloc /\ look_big h ch (alloc, attr) o = Some v /\ allocs = []) /\
  (forall al vs, In (al, vs) allocs -> al = alloc /\ (asize alloc <= N.of_nat (length vs) <= capacity alloc)%N /\
     (forall off, (off < N.of_nat (length vs))%N -> (off < asize alloc)%N -> nth_error vs (N.to_nat off) = Some (look_big h ch (alloc, attr) (object_by_offset alloc off))) /\
     (forall off v, (asize alloc <= off)%N -> nth_error vs (N.to_nat off) = Some (Some v) -> v = None)) /\
  NoDup (map fst allocs) /\
  (forall o v, valid o -> allocation_of o = alloc -> look_big h ch (alloc, attr) o = Some v -> In (o, v) items \/ exists vs, In (alloc, vs) allocs).
Proof.
  intros I. destruct (big_keys_alloc _ I) as [A Sm]. assert (X := alloc_items attr alloc A Sm).
  destruct (alloc_content h ch attr alloc) as [items allocs]. exists items, allocs. auto.
Qed.
Lemma attr_chunks_eq attr : attr_chunks ord h ch attr =
  map (fun '(o, v) => CItem o v) (attr_items attr) ++ map (fun '(o, vs) => CAlloc o vs) (attr_allocs attr).
Proof.
  unfold attr_chunks, attr_items, attr_allocs. f_equal. apply map_ext_in. intros [al vs] I. f_equal. apply by_offset_0.
Qed.
Lemma attr_allocs_nodup attr : NoDup (map fst (attr_allocs attr)).
Proof.
  unfold attr_allocs. rewrite flat_map_concat_map, map_map, concat_map, map_map, <- flat_map_concat_map.
  assert (Nd := index_allocs_nodup attr). assert (Q : forall x, In x (index_allocs ord ch attr) -> In (x, attr) (big_keys ch)) by (intros x; apply index_allocs_in).
  induction (index_allocs ord ch attr) as [|al r IH]; cbn; [constructor|]. apply NoDup_cons_iff in Nd as [N1 N2].
  destruct (alloc_fact attr al (Q al (or_introl eq_refl))) as (items & allocs & E & _ & Fa & Nd & _). rewrite E. cbn [snd].
  apply NoDup_app_disj; [exact Nd|apply IH; auto; intros x I; apply Q; now right|].
  intros x I J. apply in_map_iff in I as ([x1 vs1] & E1 & I). cbn in E1. subst x1. destruct (Fa _ _ I) as (-> & _).
  apply in_flat_map in J as (al2 & J2 & J). destruct (alloc_fact attr al2 (Q al2 (or_intror J2))) as (items2 & allocs2 & E2 & _ & Fa2 & _).
  rewrite E2 in J. apply in_map_iff in J as ([x3 vs3] & E3 & J). cbn in E3. subst x3. destruct (Fa2 _ _ J) as (-> & _). auto.
Qed.

(** *** Lists *)
Lemma index_lists_in alloc : In alloc (index_lists ord ch) <-> exists x l, In (x, l) ch /\ a_find oid_eq_dec (lists l) alloc <> None.
Proof.
  unfold index_lists. destruct any_ord as (_ & P & _). rewrite (in_perm _ _ _ (P _)), nodup_In, in_flat_map. split.
  - intros ([x l] & I & J). exists x, l. split; auto. now apply a_find_keys.
  - intros (x & l & I & J). exists (x, l). split; auto. now apply (a_find_keys oid_eq_dec).
Qed.
Lemma index_dicts_in alloc : In alloc (index_dicts ord ch) <-> exists x l, In (x, l) ch /\ a_find oid_eq_dec (dicts l) alloc <> None.
Proof.
  unfold index_dicts. destruct any_ord as (_ & P & _). rewrite (in_perm _ _ _ (P _)), nodup_In, in_flat_map. split.
  - intros ([x l] & I & J). exists x, l. split; auto. now apply a_find_keys.
  - intros (x & l & I & J). exists (x, l). split; auto. now apply (a_find_keys oid_eq_dec).
Qed.
Lemma lists_alloc alloc : In alloc (index_lists ord ch) -> is_allocation alloc /\ is_list alloc = true /\
  exists v, has_lists ch alloc = Some v /\ lv_size v = capacity alloc.
Proof.
  intros I. apply index_lists_in in I as (x & l & I & F).
  assert (G : forall y ly, In (y, ly) ch -> forall al v, a_find oid_eq_dec (lists ly) al = Some v -> is_allocation al /\ lv_size v = capacity al /\ is_list al = true).
  { intros y ly J al v Fv. destruct (chain_in asize h H a y ly J) as (E & _). destruct (H y ly E) as (_ & _ & _ & Li & _). destruct (Li al v Fv). destruct (K y ly E) as [Ki _]. eauto. }
  assert (X : exists v, has_lists ch alloc = Some v /\ is_allocation alloc /\ lv_size v = capacity alloc /\ is_list alloc = true).
  { induction ch as [|[y ly] c IH]; [easy|]. cbn. destruct (a_find oid_eq_dec (lists ly) alloc) as [v|] eqn:Fy.
    - exists v. split; auto. eapply G; [now left|exact Fy].
    - apply IH; [destruct I as [E|I]; auto; congruence|]. intros y2 ly2 J2 al v2 Fv2. exact (G y2 ly2 (or_intror J2) al v2 Fv2). }
  destruct X as (v & ? & ? & ? & ?). eauto.
Qed.
Lemma look_list_alloc c alloc i : look_list c alloc i <> None -> exists x l, In (x, l) c /\ a_find oid_eq_dec (lists l) alloc <> None.
Proof.
  induction c as [|[x l] c IH]; cbn; [easy|]. destruct (a_find oid_eq_dec (lists l) alloc) as [v|] eqn:F.
  - intros _. exists x, l. split; auto. congruence.
  - intros Nn. destruct (IH Nn) as (x' & l' & I & J). exists x', l'. auto.
Qed.
Definition lists_at alloc := flat_map (fun i => match look_list ch alloc i with Some l => [(object_by_offset alloc i, l)] | None => [] end) (below (capacity alloc)).
Lemma alloc_lists_eq alloc : In alloc (index_lists ord ch) -> alloc_lists ch alloc = Some (lists_at alloc).
Proof.
  intros I. destruct (lists_alloc alloc I) as (_ & E & v & Hv & Sz). unfold alloc_lists. rewrite E, Hv, Sz. reflexivity.
Qed.
Lemma lists_at_in alloc o l : is_allocation alloc -> In (o, l) (lists_at alloc) <-> wf o /\ allocation_of o = alloc /\ list_in ch o = Some l.
Proof.
  intros A. unfold lists_at, list_in. rewrite in_flat_map. split.
  - intros (i & I & J). apply in_below in I. destruct (look_list ch alloc i) as [l'|] eqn:E; [|easy]. destruct J as [J|[]].
    assert (o = object_by_offset alloc i) by congruence. assert (l' = l) by congruence. subst. split; [now apply object_by_offset_wf|].
    rewrite object_by_offset_alloc, object_by_offset_offset by auto. auto.
  - intros (W & <- & E). destruct (item_position o W) as (_ & L & R). exists (offset o). split; [now apply in_below|]. rewrite E, R. now left.
Qed.
Lemma lists_at_nodup alloc : is_allocation alloc -> NoDup (map fst (lists_at alloc)).
Proof.
  intros A. unfold lists_at. assert (Q : forall i, In i (below (capacity alloc)) -> (i < capacity alloc)%N) by (intros i; apply in_below).
  assert (Nd := NoDup_below (capacity alloc)). induction (below (capacity alloc)) as [|i r IH]; cbn; [constructor|].
  apply NoDup_cons_iff in Nd as [N1 N2]. rewrite map_app. apply NoDup_app_disj; [|apply IH; auto; intros; apply Q; now right|].
  - destruct (look_list ch alloc i); cbn; repeat constructor; auto.
  - intros o I J. destruct (look_list ch alloc i); [|easy]. destruct I as [<-|[]]. apply in_map_iff in J as ([o2 l2] & E & J). cbn in E.
    apply in_flat_map in J as (j & J & J2). destruct (look_list ch alloc j); [|easy]. destruct J2 as [J2|[]]. assert (object_by_offset alloc j = object_by_offset alloc i) by congruence.
    assert (i = j); [|congruence]. rewrite <- (object_by_offset_offset alloc i), <- (object_by_offset_offset alloc j); auto; [congruence|apply Q; now right|apply Q; now left].
Qed.

(** *** Dicts *)
Lemma dicts_alloc alloc : In alloc (index_dicts ord ch) -> is_allocation alloc /\ is_dict alloc || is_schema alloc = true.
Proof.
  intros I. apply index_dicts_in in I as (x & l & I & F). destruct (chain_in asize h H a x l I) as (E & _).
  destruct (a_find oid_eq_dec (dicts l) alloc) as [v|] eqn:Fv; [|easy]. destruct (H x l E) as (_ & _ & _ & _ & Di). destruct (Di alloc v Fv). destruct (K x l E) as [_ Ki]. eauto.
Qed.
Lemma look_dict_alloc c alloc i : look_dict c alloc i <> None -> exists x l, In (x, l) c /\ a_find oid_eq_dec (dicts l) alloc <> None.
Proof.
  induction c as [|[x l] c IH]; cbn; [easy|]. destruct (a_find oid_eq_dec (dicts l) alloc) as [v|] eqn:F.
  - intros _. exists x, l. split; auto. congruence.
  - intros Nn. destruct (IH Nn) as (x' & l' & I & J). exists x', l'. auto.
Qed.
Lemma values_of_ok d keys : (forall k, In k keys -> d_get d k <> None) -> exists vs, values_of d keys = Some vs /\ length keys = length vs /\
  (forall k v, In (k, v) (combine keys vs) -> In k keys /\ d_get d k = Some v) /\ forall k, In k keys -> exists v, In (k, v) (combine keys vs).
Proof.
  induction keys as [|k keys IH]; intros G; cbn.
  - exists []. repeat split; easy.
  - destruct (d_get d k) as [v|] eqn:E; [|elim (G k (or_introl eq_refl) E)]. destruct IH as (vs & -> & L & A & B); [intros k' I; apply G; now right|].
    exists (v :: vs). cbn. split; auto. split; [now rewrite L|]. split.
    + intros k' v' [J|J]; [injection J as <- <-; auto|]. destruct (A _ _ J). auto.
    + intros k' [<-|I]; [exists v; now left|]. destruct (B k' I) as (v' & J). exists v'. now right.
Qed.
Lemma dict_content_ok o d : dict_ok d -> sup d -> exists r, dict_content iter ord o d = Some r /\
  (forall o' ks vs, In (o', ks, vs) r -> o' = o /\ length ks = length vs /\ forall k v, In (k, v) (combine ks vs) -> d_get d k = Some v /\ unsupported_key (Some k) = false) /\
  (forall k v, d_get d k = Some v -> exists ks vs, In (o, ks, vs) r /\ In (k, v) (combine ks vs)).
Proof.
  intros D Su. unfold dict_content.
  assert (Ks : forall k, In k (o_keys ord (d_keys iter d [])) <-> d_get d k <> None).
  { intros k. destruct any_ord as (_ & _ & _ & P). rewrite (in_perm _ _ _ (P _)). rewrite (d_keys_In iter any_order d [] k D (Forall_nil _)).
    cbn. unfold f_first. cbn. destruct (d_get d k); split; congruence. }
  destruct (o_keys ord (d_keys iter d [])) as [|k0 ks0].
  - exists []. split; auto. split; [easy|]. intros k v E. exfalso. apply (proj2 (Ks k)). congruence.
  - destruct (values_of_ok d (k0 :: ks0)) as (vs & E & L & A & B); [intros k I; now apply Ks|]. rewrite E. cbn [option_map]. eexists. split; [reflexivity|]. split.
    + intros o' ks vs' [I|[]]. assert (o' = o) by congruence. assert (ks = k0 :: ks0) by congruence. assert (vs' = vs) by congruence. subst. split; auto. split; auto.
      intros k v I2. destruct (A k v I2) as [_ G]. split; auto. rewrite d_get_chain in G. exact (find_maps_sup _ _ _ Su G).
    + intros k v G. exists (k0 :: ks0), vs. split; [now left|]. destruct (B k) as (v' & I); [apply Ks; congruence|]. destruct (A k v' I). congruence.
Qed.
Lemma alloc_dicts_ok alloc : In alloc (index_dicts ord ch) -> exists r, alloc_dicts iter ord ch alloc = Some r /\
  (forall o ks vs, In (o, ks, vs) r -> wf o /\ allocation_of o = alloc /\ length ks = length vs /\ forall k v, In (k, v) (combine ks vs) -> dict_in ch o k = Some v /\ unsupported_key (Some k) = false) /\
  (forall o k v, wf o -> allocation_of o = alloc -> dict_in ch o k = Some v -> exists ks vs, In (o, ks, vs) r /\ In (k, v) (combine ks vs)).
Proof.
  intros I. destruct (dicts_alloc alloc I) as [A E]. unfold alloc_dicts.
  replace (negb (is_dict alloc) && negb (is_schema alloc)) with false by (destruct (is_dict alloc), (is_schema alloc); easy).
  set (f := fun i => match look_dict ch alloc i with Some d => dict_content iter ord (object_by_offset alloc i) d | None => Some [] end).
  assert (Dk := chain_dicts_ok asize h a H). fold ch in Dk.
  assert (Fi : forall i, look_dict ch alloc i = None \/ exists d, look_dict ch alloc i = Some d /\ dict_ok d /\ sup d).
  { intros i. assert (X := look_dict_ok ch alloc i Dk). assert (Y := look_dict_sup ch alloc i Dk). destruct (look_dict ch alloc i) as [d|]; eauto. }
  destruct (concat_opt_map f (below (capacity alloc))) as (r & Er & R).
  { intros i J. unfold f. destruct (Fi i) as [->|(d & -> & D & Su)]; [easy|]. destruct (dict_content_ok (object_by_offset alloc i) d D Su) as (r & -> & _). easy. }
  exists r. split; auto. split.
  - intros o ks vs J. apply R in J as (i & y & J1 & J2 & J3). apply in_below in J1. unfold f in J2. destruct (Fi i) as [En|(d & Ed & D & Su)].
    + rewrite En in J2. injection J2 as <-. easy.
    + rewrite Ed in J2. destruct (dict_content_ok (object_by_offset alloc i) d D Su) as (r2 & E2 & C1 & _). rewrite E2 in J2.
      assert (r2 = y) by congruence. subst y. destruct (C1 _ _ _ J3) as (-> & L & C). split; [now apply object_by_offset_wf|].
      split; [now apply object_by_offset_alloc|]. split; auto. intros k v Ik. unfold dict_in. rewrite object_by_offset_alloc, object_by_offset_offset, Ed by auto. auto.
  - intros o k v W Eo G. destruct (item_position o W) as (_ & L & Re). unfold dict_in in G. rewrite Eo in *. destruct (Fi (offset o)) as [En|(d & Ed & D & Su)]; [now rewrite En in G|].
    rewrite Ed in G. destruct (dict_content_ok o d D Su) as (r2 & E2 & _ & C2). destruct (C2 k v G) as (ks & vs & J1 & J2).
    exists ks, vs. split; auto. apply R. exists (offset o), r2. split; [now apply in_below|]. split; auto. unfold f. now rewrite Ed, Re.
Qed.

(** *** All of it *)
Lemma concat_opt_nodup {A B C} (f : A -> list (B * C)) (key : B -> A) l : NoDup l -> (forall x, In x l -> NoDup (map fst (f x))) ->
  (forall x b c, In x l -> In (b, c) (f x) -> key b = x) -> NoDup (map fst (flat_map f l)).
Proof.
  intros Nd F G. induction l as [|x l IH]; cbn; [constructor|]. apply NoDup_cons_iff in Nd as [N1 N2]. rewrite map_app. apply NoDup_app_disj.
  - apply F. now left.
  - apply IH; auto; [intros y I; apply F; now right|]. intros y b c I J. eapply G; eauto. now right.
  - intros b I J. apply in_map_iff in I as ([b1 c1] & E1 & I). cbn in E1. subst b1. apply in_map_iff in J as ([b2 c2] & E2 & J). cbn in E2. subst b2.
    apply in_flat_map in J as (y & Iy & J). assert (key b = x) by (eapply G; eauto; now left). assert (key b = y) by (eapply G; eauto; now right). congruence.
Qed.
Theorem encode_describes imm : exists m, encode_impl iter ord h a imm = Some m /\ m_immutable m = imm /\ describes asize m (content_at h a).
Proof.
  unfold encode_impl. fold ch.
  rewrite (concat_opt_flat lists_at) by (intros x I; now apply alloc_lists_eq). cbn [bind].
  destruct (concat_opt_map (alloc_dicts iter ord ch) (index_dicts ord ch)) as (ds & -> & Ds).
  { intros x I. destruct (alloc_dicts_ok x I) as (r & -> & _). easy. }
  cbn [bind]. eexists. split; [reflexivity|]. cbn [m_immutable]. split; auto.
  assert (At : forall attr cs, In (attr, cs) (map (fun attr => (attr, attr_chunks ord h ch attr)) (index_names ord ch)) -> cs = attr_chunks ord h ch attr).
  { intros attr cs I. apply in_map_iff in I as (x & E & _). congruence. }
  assert (Ci : forall attr o v, In (CItem o v) (attr_chunks ord h ch attr) <-> In (o, v) (attr_items attr)).
  { intros attr o v. rewrite attr_chunks_eq, in_app_iff, !in_map_iff. split.
    - intros [([o' v'] & E & I)|([o' v'] & E & I)]; congruence.
    - intros I. left. exists (o, v). auto. }
  assert (Ca : forall attr o v, In (CAlloc o v) (attr_chunks ord h ch attr) <-> In (o, v) (attr_allocs attr)).
  { intros attr o v. rewrite attr_chunks_eq, in_app_iff, !in_map_iff. split.
    - intros [([o' v'] & E & I)|([o' v'] & E & I)]; congruence.
    - intros I. right. exists (o, v). auto. }
  constructor; cbn [m_attrs m_lists m_dicts].
  - rewrite map_map. cbn. rewrite map_id. unfold index_names. destruct any_ord as (P & _). eapply Permutation_NoDup; [apply Permutation_sym, P|apply NoDup_nodup].
  - intros attr cs o v I J. rewrite (At _ _ I) in J. apply Ci, attr_items_in in J as [[_ J]|(alloc & J1 & J)].
    + destruct (look_small_valid _ _ _ J) as [V Sm]. split; [exact V|]. cbn. unfold attr_in. now rewrite Sm.
    + destruct (alloc_fact attr alloc J1) as (items & allocs & E & Fi & _). rewrite E in J. destruct (Fi o v J) as (V & Sm & Eo & L & _).
      split; [exact V|]. cbn. unfold attr_in. now rewrite Sm, Eo.
  - intros attr cs o vs I J. rewrite (At _ _ I) in J. apply Ca, attr_allocs_in in J as (alloc & J1 & J).
    destruct (alloc_fact attr alloc J1) as (items & allocs & E & _ & Fa & _). rewrite E in J. destruct (Fa o vs J) as (-> & L & F1 & F2).
    destruct (big_keys_alloc _ J1) as [A Sm]. cbn [fst] in A, Sm. split; [exact A|]. split; auto. split; auto. split; auto.
    intros off L1 L2. rewrite F1 by auto. cbn. unfold attr_in.
    rewrite object_by_offset_alloc by (auto; lia). replace (is_small_alloc (object_by_offset alloc off)) with (is_small_alloc alloc); [now rewrite Sm|].
    change (is_small_alloc (object_by_offset alloc off)) with (is_small_alloc (allocation_of (object_by_offset alloc off))). now rewrite object_by_offset_alloc by (auto; lia).
  - intros attr cs I. exists (attr_items attr), (attr_allocs attr). split; [rewrite (At _ _ I); apply attr_chunks_eq|]. split; [apply attr_allocs_nodup|].
    intros o v J X. apply in_map_iff in X as ([al vs] & E & X). cbn in E. subst al. apply attr_allocs_in in X as (alloc & X1 & X).
    destruct (alloc_fact attr alloc X1) as (items & allocs & E & _ & Fa & _). rewrite E in X. destruct (Fa _ _ X) as (Eo & _).
    destruct (big_keys_alloc _ X1) as [_ Sm]. cbn [fst] in Sm. rewrite <- Eo in Sm.
    apply attr_items_in in J as [[_ J]|(alloc2 & J1 & J)].
    + destruct (look_small_valid _ _ _ J) as [_ Sm2]. change (is_small_alloc o = false) in Sm. congruence.
    + destruct (alloc_fact attr alloc2 J1) as (items2 & allocs2 & E2 & Fi & _). rewrite E2 in J. destruct (Fi o v J) as (_ & _ & Eo2 & _ & ->).
      assert (alloc2 = alloc) by congruence. subst. rewrite E in E2. assert (allocs = []) by congruence. subst. easy.
  - intros attr o v V G. cbn in G. unfold attr_in in G. exists (attr_chunks ord h ch attr).
    assert (In attr (index_names ord ch) -> In (attr, attr_chunks ord h ch attr) (map (fun attr0 => (attr0, attr_chunks ord h ch attr0)) (index_names ord ch))).
    { intros I. apply in_map_iff. exists attr. auto. }
    fold ch in G. destruct (is_small_alloc o) eqn:Sm.
    + assert (I : In attr (small_names ch)) by (eapply look_small_name; rewrite G; easy). split; [apply H0, index_names_in; auto|]. left. apply Ci, attr_items_in. auto.
    + assert (I : In (allocation_of o, attr) (big_keys ch)) by (apply big_keys_in; eapply look_big_key; rewrite G; easy).
      split; [apply H0, index_names_in; left; eauto|]. destruct (alloc_fact attr _ I) as (items & allocs & E & _ & _ & _ & Fo).
      destruct (Fo o v V eq_refl G) as [J|(vs & J)].
      * left. apply Ci, attr_items_in. right. exists (allocation_of o). rewrite E. auto.
      * right. exists vs. apply Ca, attr_allocs_in. exists (allocation_of o). rewrite E. auto.
  - apply (concat_opt_nodup _ allocation_of).
    + unfold index_lists. destruct any_ord as (_ & P & _). eapply Permutation_NoDup; [apply Permutation_sym, P|apply NoDup_nodup].
    + intros x I. apply lists_at_nodup. now apply lists_alloc.
    + intros x o l I J. apply lists_at_in in J; [easy|]. now apply lists_alloc.
  - intros o l. rewrite in_flat_map. split.
    + intros (al & I & J). apply lists_at_in in J; [|now apply lists_alloc]. cbn. tauto.
    + intros [W G]. cbn in G. assert (I : In (allocation_of o) (index_lists ord ch)) by (apply index_lists_in; unfold list_in in G; eapply look_list_alloc; fold ch in G; rewrite G; easy).
      exists (allocation_of o). split; auto. apply lists_at_in; auto. now apply lists_alloc.
  - intros o l J. apply in_flat_map in J as (al & I & J). destruct (lists_alloc _ I) as (A & E & _). apply lists_at_in in J as (_ & -> & _); auto.
  - intros o ks vs J. apply Ds in J as (al & y & I & E & J). destruct (alloc_dicts_ok al I) as (r & E2 & R & _). rewrite E2 in E. assert (r = y) by congruence. subst y.
    destruct (R _ _ _ J) as (W & <- & L & G). split; auto. split; [now apply dicts_alloc|]. auto.
  - intros o k v W G. cbn in G. assert (I : In (allocation_of o) (index_dicts ord ch)).
    { apply index_dicts_in. unfold dict_in in G. fold ch in G. eapply look_dict_alloc. intros E. rewrite E in G. discriminate. }
    destruct (alloc_dicts_ok _ I) as (r & E & _ & R). destruct (R o k v W eq_refl G) as (ks & vs & J1 & J2). exists ks, vs. split; auto.
    apply Ds. eauto.
Qed.
End Dump.
