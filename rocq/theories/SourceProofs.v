From Coq Require Import NArith ZArith List Bool Arith Lia ZifyBool ZifyN.
From Verif Require Import ObjectIdModel ObjectIdProofs SchemaModel ItemModel DictModel DictProofs.
From Verif Require DataListModel ListRunSpec DataListOpsProofs.
From Verif Require Import SourceModel SourceSpec.
Import ListNotations.
Local Open Scope nat_scope.

(** ** Small facts *)

Lemma as_kind_val k (x : cval k) : as_kind k (val k x) = Some x.
Proof.
  unfold as_kind, val. destruct (kind_eq_dec k k) as [e|n]; [|congruence].
  now rewrite (Eqdep_dec.UIP_dec kind_eq_dec e eq_refl).
Qed.
Lemma as_kind_some k v x : as_kind k v = Some x -> v = val k x.
Proof.
  destruct v as [k' y]. unfold as_kind. destruct (kind_eq_dec k' k) as [e|n]; [|discriminate].
  destruct e. cbn. now intros [= ->].
Qed.
Lemma as_kind_other k k' x : k' <> k -> as_kind k (val k' x) = None.
Proof. intros H. unfold as_kind, val. destruct (kind_eq_dec k' k); congruence. Qed.
Lemma as_kind_none k v : as_kind k v = None -> projT1 v <> k.
Proof. destruct v as [k' y]. unfold as_kind. destruct (kind_eq_dec k' k); cbn; congruence. Qed.

Lemma fupd_same {A} (f : N -> A) i v : fupd f i v i = v.
Proof. unfold fupd. now rewrite N.eqb_refl. Qed.
Lemma fupd_other {A} (f : N -> A) i v j : j <> i -> fupd f i v j = f j.
Proof. unfold fupd. intros H. apply N.eqb_neq in H. now rewrite H. Qed.

Lemma in_below n off : In off (below n) <-> (off < n)%N.
Proof.
  unfold below. rewrite in_map_iff. split.
  - intros (x & <- & H). apply in_seq in H. lia.
  - intros H. exists (N.to_nat off). rewrite N2Nat.id. split; auto. apply in_seq. lia.
Qed.
Lemma NoDup_below n : NoDup (below n).
Proof.
  unfold below. apply FinFun.Injective_map_NoDup; [|apply seq_NoDup].
  intros a b E. lia.
Qed.

(** A loop over distinct offsets, each step of which changes the entry of its own
    offset only *)
Definition memN (off : N) (l : list N) : bool := existsb (N.eqb off) l.
Lemma memN_spec off l : memN off l = true <-> In off l.
Proof.
  unfold memN. rewrite existsb_exists. split.
  - intros (x & I & E). apply N.eqb_eq in E. now subst.
  - intros I. exists off. now rewrite N.eqb_refl.
Qed.
Lemma fold_point {S} (R : S -> view -> bool -> Prop) (step : S -> N -> S)
    (g : N -> entry -> entry) (c : N -> entry -> bool) :
  (forall st v w e, (forall off, v off = w off) -> R st v e -> R st w e) ->
  forall l, NoDup l ->
  (forall st v e off, In off l -> R st v e ->
     R (step st off) (fupd v off (g off (v off))) (e || c off (v off))) ->
  forall st v e, R st v e ->
  R (fold_left step l st) (fun off => if memN off l then g off (v off) else v off)
    (e || existsb (fun off => c off (v off)) l).
Proof.
  intros Ext. induction l as [|x l IH]; intros ND H st v e HR.
  - cbn. rewrite orb_false_r. eapply Ext; [|exact HR]. reflexivity.
  - apply NoDup_cons_iff in ND as [NI ND]. cbn [fold_left].
    pose proof (H st v e x (or_introl eq_refl) HR) as H1.
    specialize (IH ND (fun st v e off I => H st v e off (or_intror I)) _ _ _ H1).
    assert (E : forall off, In off l -> fupd v x (g x (v x)) off = v off).
    { intros off I. apply fupd_other. intros ->. contradiction. }
    cbn [existsb]. rewrite orb_assoc.
    replace (existsb (fun off => c off (v off)) l)
      with (existsb (fun off => c off (fupd v x (g x (v x)) off)) l).
    + eapply Ext; [|exact IH]. intros off. cbn beta.
      unfold memN. cbn [existsb]. destruct (N.eqb_spec off x) as [->|NE].
      * cbn [orb]. destruct (existsb (N.eqb x) l) eqn:M.
        { apply memN_spec in M. contradiction. }
        apply fupd_same.
      * cbn [orb]. rewrite fupd_other by auto. reflexivity.
    + clear -E. induction l as [|y l IHl]; [reflexivity|]. cbn.
      rewrite E by (now left). f_equal. apply IHl. intros off I. apply E. now right.
Qed.

(** ** Sparse sources *)
Lemma same_oid_spec a b : same_oid a b = true <-> a = b.
Proof. unfold same_oid. destruct (oid_eq_dec a b); split; congruence. Qed.
Lemma same_oid_refl a : same_oid a a = true.
Proof. now apply same_oid_spec. Qed.
Lemma s_find_set m o v o' : s_find (s_set m o v) o' = if same_oid o o' then Some v else s_find m o'.
Proof.
  induction m as [|[o1 v1] m IH]; cbn [s_find s_set].
  - reflexivity.
  - destruct (same_oid o1 o) eqn:E; cbn [s_find s_set].
    + apply same_oid_spec in E. subst o1. destruct (same_oid o o'); reflexivity.
    + destruct (same_oid o1 o') eqn:E'.
      * destruct (same_oid o o') eqn:E2; auto.
        apply same_oid_spec in E', E2. subst. now rewrite same_oid_refl in E.
      * apply IH.
Qed.
Lemma s_set_keys m o v x : In x (map fst (s_set m o v)) <-> x = o \/ In x (map fst m).
Proof.
  induction m as [|[o1 v1] m IH]; cbn; [intuition|].
  destruct (same_oid o1 o) eqn:E; cbn; [|rewrite IH; intuition].
  apply same_oid_spec in E. subst. intuition.
Qed.
Lemma s_set_NoDup m o v : NoDup (map fst m) -> NoDup (map fst (s_set m o v)).
Proof.
  induction m as [|[o1 v1] m IH]; cbn; intros H.
  - constructor; [easy|constructor].
  - apply NoDup_cons_iff in H as [H1 H2]. destruct (same_oid o1 o) eqn:E; cbn.
    + now constructor.
    + constructor; auto. rewrite s_set_keys. intros [->|I]; auto.
      now rewrite same_oid_refl in E.
Qed.
Lemma s_find_in m o v : NoDup (map fst m) -> (s_find m o = Some v <-> In (o, v) m).
Proof.
  induction m as [|[o1 v1] m IH]; cbn; intros H; [easy|].
  apply NoDup_cons_iff in H as [H1 H2]. destruct (same_oid o1 o) eqn:E.
  - apply same_oid_spec in E. subst. split.
    + intros [= ->]. now left.
    + intros [[= ->]|I]; auto. exfalso. apply H1. change o with (fst (o, v)). now apply List.in_map.
  - rewrite IH by auto. split; [auto|]. intros [[= -> ->]|I]; auto.
    now rewrite same_oid_refl in E.
Qed.
Lemma s_find_none m o : s_find m o = None <-> ~ In o (map fst m).
Proof.
  induction m as [|[o1 v1] m IH]; cbn; [intuition|]. destruct (same_oid o1 o) eqn:E.
  - apply same_oid_spec in E. subst. split; [discriminate|]. intros H. exfalso. apply H. now left.
  - rewrite IH. split; [|tauto]. intros H [->|I]; auto. now rewrite same_oid_refl in E.
Qed.

Definition wf_sparse (s : sparse) : Prop :=
  NoDup (map fst (sp_map s)) /\ forall o v, In (o, v) (sp_map s) -> belongs s o = true.

Lemma sparse_set_get s o v o' :
  sparse_get (sparse_set s o v) o' = if same_oid o o' && belongs s o then Some v else sparse_get s o'.
Proof.
  unfold sparse_set, sparse_get. destruct (belongs s o); cbn [sp_map].
  - rewrite s_find_set. now rewrite andb_true_r.
  - now rewrite andb_false_r.
Qed.
Lemma sparse_set_alloc s o v : sp_alloc (sparse_set s o v) = sp_alloc s.
Proof. unfold sparse_set. now destruct (belongs s o). Qed.
Lemma sparse_set_wf s o v : wf_sparse s -> wf_sparse (sparse_set s o v).
Proof.
  intros [H1 H2]. unfold sparse_set. destruct (belongs s o) eqn:B; [|now split]. split; cbn [sp_map sp_alloc].
  - now apply s_set_NoDup.
  - intros x y I. assert (J : In x (map fst (s_set (sp_map s) o v))).
    { change x with (fst (x, y)). now apply List.in_map. }
    apply s_set_keys in J as [->|J]; [exact B|]. apply in_map_iff in J as ([x' y'] & <- & J).
    exact (H2 _ _ J).
Qed.
Lemma sparse_belongs_of_get s o v : wf_sparse s -> sparse_get s o = Some v -> belongs s o = true.
Proof. intros [H1 H2] G. apply (H2 o v). now apply s_find_in. Qed.

Lemma sparse_set_fold (item : nat -> ditem) ps : forall s,
  let s' := fold_left (fun s '(i, o) => sparse_set s o (item i)) ps s in
  sp_alloc s' = sp_alloc s /\ (wf_sparse s -> wf_sparse s') /\
  forall o, sparse_get s' o =
    if belongs s o
    then match last_write (map (fun '(i, o) => (o, item i)) ps) o with Some v => Some v | None => sparse_get s o end
    else sparse_get s o.
Proof.
  induction ps as [|[i o1] ps IH]; intros s; cbn zeta; cbn [fold_left map last_write].
  - split; [auto|]. split; [auto|]. intros o. now destruct (belongs s o).
  - destruct (IH (sparse_set s o1 (item i))) as (A & B & C). rewrite sparse_set_alloc in A.
    assert (HB : forall o, belongs (sparse_set s o1 (item i)) o = belongs s o).
    { intros o. unfold belongs. now rewrite sparse_set_alloc. }
    split; [exact A|]. split; [intros W; apply B; now apply sparse_set_wf|].
    intros o. rewrite C, HB, sparse_set_get. destruct (belongs s o) eqn:Bo.
    + destruct (last_write _ o); auto. destruct (same_oid o1 o) eqn:E; cbn [andb]; auto.
      apply same_oid_spec in E. subst. now rewrite Bo.
    + destruct (same_oid o1 o) eqn:E; cbn [andb]; auto. apply same_oid_spec in E. subst. now rewrite Bo.
Qed.
Lemma sparse_set_all_ok s objs vs s' : wf_sparse s -> sparse_set_all s objs vs = Some s' ->
  length objs = sl_size vs /\ wf_sparse s' /\ sp_alloc s' = sp_alloc s /\
  forall o, sparse_get s' o =
    if belongs s o then match last_write (writes objs vs) o with Some v => Some v | None => sparse_get s o end
    else sparse_get s o.
Proof.
  intros W. unfold sparse_set_all. destruct (Nat.eqb_spec (length objs) (sl_size vs)) as [E|E]; [|discriminate].
  cbn [negb]. intros [= <-].
  destruct (sparse_set_fold (fun i => slice_at vs i) (present_at objs) s) as (A & B & C).
  split; [exact E|]. split; [exact (B W)|]. split; [exact A|]. exact C.
Qed.

(** ** Multitype buffers *)
Lemma find_kind_some ks k n : find_kind ks k = Some n -> nth_error ks n = Some k.
Proof.
  revert n. induction ks as [|k' ks IH]; intros n; cbn; [discriminate|].
  destruct (kind_eq_dec k' k) as [->|NE].
  - now intros [= <-].
  - destruct (find_kind ks k) as [m|]; [|discriminate]. intros [= <-]. cbn. now apply IH.
Qed.
Lemma find_kind_none ks k : find_kind ks k = None -> ~ In k ks.
Proof.
  induction ks as [|k' ks IH]; cbn; [tauto|]. destruct (kind_eq_dec k' k); [discriminate|].
  destruct (find_kind ks k); [discriminate|]. intros _ [->|I]; auto. now apply IH.
Qed.

Lemma nth_error_ext {A} (a b : list A) : (forall n, nth_error a n = nth_error b n) -> a = b.
Proof.
  revert b. induction a as [|x a IH]; intros [|y b] H; auto.
  - now specialize (H 0).
  - now specialize (H 0).
  - pose proof (H 0) as H0. cbn in H0. injection H0 as ->. f_equal. apply IH. intros n. apply (H (S n)).
Qed.
Lemma nth_error_combine_seq {A} (l : list A) n s :
  nth_error (combine (seq s (length l)) l) n = option_map (pair (s + n)) (nth_error l n).
Proof.
  revert n s. induction l as [|a l IH]; intros n s; cbn.
  - now destruct n.
  - destruct n; cbn; [now rewrite Nat.add_0_r|]. rewrite IH. f_equal. f_equal. lia.
Qed.
Lemma nth_error_mapi {A B} (f : nat * A -> B) (l : list A) n :
  nth_error (map f (combine (seq 0 (length l)) l)) n = option_map (fun a => f (n, a)) (nth_error l n).
Proof. rewrite nth_error_map, nth_error_combine_seq. now destruct (nth_error l n). Qed.


Lemma kinds_write bufs ti k off v : kinds (write_buf bufs ti k off v) = kinds bufs.
Proof.
  unfold kinds, write_buf. rewrite map_map.
  apply nth_error_ext. intros n. rewrite !nth_error_map, nth_error_combine_seq.
  destruct (nth_error bufs n) as [[k' f]|]; cbn [option_map]; auto.
  destruct (0 + n =? ti); auto. destruct (kind_eq_dec k k'); reflexivity.
Qed.
Lemma length_write bufs ti k off v : length (write_buf bufs ti k off v) = length bufs.
Proof. unfold write_buf. now rewrite map_length, combine_length, seq_length, Nat.min_id. Qed.
Lemma nth_error_kinds bufs n : nth_error (kinds bufs) n = option_map (@projT1 _ _) (nth_error bufs n).
Proof. apply nth_error_map. Qed.

Lemma buf_at_write bufs ti k off v n off' : nth_error (kinds bufs) ti = Some k ->
  buf_at (write_buf bufs ti k off v) n off' =
  if (n =? ti) && (off' =? off)%N then Some (val k v) else buf_at bufs n off'.
Proof.
  intros K. unfold buf_at, write_buf. rewrite nth_error_mapi.
  rewrite nth_error_kinds in K.
  destruct (Nat.eqb_spec n ti) as [->|NE].
  - destruct (nth_error bufs ti) as [[k' f]|]; [|discriminate]. cbn in K. injection K as ->.
    cbn [option_map]. destruct (kind_eq_dec k k) as [e|]; [|congruence].
    rewrite (Eqdep_dec.UIP_dec kind_eq_dec e eq_refl). cbn [eq_rect array_at andb]. unfold fupd.
    now destruct (off' =? off)%N.
  - destruct (nth_error bufs n) as [[k' f]|]; reflexivity.
Qed.

Definition wf_multi (types : list kind) (idx : N -> tidx) (bufs : list {k : kind & array k}) : Prop :=
  types = kinds bufs /\ NoDup types /\
  forall off n, idx off = TIdx n -> exists v, buf_at bufs n off = Some v.
Definition multi_at (idx : N -> tidx) (bufs : list {k : kind & array k}) : view :=
  fun off => match idx off with
             | TUnset => None
             | TRemoved => Some None
             | TIdx n => Some (buf_at bufs n off)
             end.

(** Adding a type *)
Lemma add_type_ok types idx bufs k ti types' : wf_multi types idx bufs ->
  get_or_add_typeidx types k = (ti, types') ->
  let bufs' := add_buf ti k bufs in
  wf_multi types' idx bufs' /\ nth_error (kinds bufs') ti = Some k /\
  forall off, multi_at idx bufs' off = multi_at idx bufs off.
Proof.
  intros (T & ND & H) G bufs'. unfold get_or_add_typeidx in G.
  assert (LB : length types = length bufs) by (subst types; unfold kinds; now rewrite map_length).
  destruct (find_kind types k) as [n|] eqn:F; injection G as <- <-.
  - pose proof (find_kind_some _ _ _ F) as F'.
    assert (n < length types) by (apply nth_error_Some; congruence).
    subst bufs'. unfold add_buf. destruct (Nat.eqb_spec n (length bufs)); [lia|].
    repeat split; auto. now rewrite <- T.
  - pose proof (find_kind_none _ _ F) as F'.
    subst bufs'. unfold add_buf. rewrite LB, Nat.eqb_refl.
    assert (B : forall m off, m < length bufs ->
        buf_at (bufs ++ [existT array k (fun _ => None)]) m off = buf_at bufs m off).
    { intros m off L. unfold buf_at. now rewrite nth_error_app1. }
    assert (Lt : forall m off v, buf_at bufs m off = Some v -> m < length bufs).
    { intros m off v E. unfold buf_at in E. apply nth_error_Some. now destruct (nth_error bufs m). }
    split; [split; [|split]|split].
    + unfold kinds. now rewrite map_app, T.
    + apply NoDup_app_disj; auto.
      * constructor; [easy|constructor].
      * intros x I [<-|[]]. contradiction.
    + intros off n I. destruct (H _ _ I) as [v E]. exists v. rewrite B; eauto.
    + unfold kinds. rewrite map_app, nth_error_app2 by (rewrite map_length; lia).
      rewrite map_length, Nat.sub_diag. reflexivity.
    + intros off. unfold multi_at. destruct (idx off) eqn:I; auto. destruct (H _ _ I) as [v E].
      now rewrite B by eauto.
Qed.

(** Writing one value *)
Lemma multi_write_ok types idx bufs ti k off v : wf_multi types idx bufs ->
  nth_error (kinds bufs) ti = Some k ->
  wf_multi types (fupd idx off (TIdx ti)) (write_buf bufs ti k off v) /\
  forall off', multi_at (fupd idx off (TIdx ti)) (write_buf bufs ti k off v) off' =
               write (multi_at idx bufs) off (Some (val k v)) off'.
Proof.
  intros (T & ND & H) K. split; [split; [|split]|].
  - now rewrite kinds_write.
  - exact ND.
  - intros off' n I. rewrite buf_at_write by auto. unfold fupd in I.
    destruct (N.eqb_spec off' off) as [->|NE].
    + injection I as <-. rewrite Nat.eqb_refl. cbn. eauto.
    + rewrite andb_false_r. eauto.
  - intros off'. unfold multi_at, write, fupd. destruct (N.eqb_spec off' off) as [->|NE].
    + rewrite buf_at_write by auto. now rewrite Nat.eqb_refl, N.eqb_refl.
    + destruct (idx off') eqn:I; auto. rewrite buf_at_write by auto.
      destruct (N.eqb_spec off' off); [contradiction|]. now rewrite andb_false_r.
Qed.
Lemma multi_remove_ok types idx bufs off : wf_multi types idx bufs ->
  wf_multi types (fupd idx off TRemoved) bufs /\
  forall off', multi_at (fupd idx off TRemoved) bufs off' = write (multi_at idx bufs) off None off'.
Proof.
  intros (T & ND & H). split; [split; [|split]|]; auto.
  - intros off' n I. unfold fupd in I. destruct (off' =? off)%N; [discriminate|eauto].
  - intros off'. unfold multi_at, write, fupd. now destruct (off' =? off)%N.
Qed.

(** ** Dense sources *)
Definition wf_dense (d : dense) : Prop :=
  match de_data d with
  | Typed k vals mask => forall off v, vals off = Some v -> mask_at mask off = true
  | Multi types idx bufs => wf_multi types idx bufs
  | ReadOnly s => wf_dslice s /\ ds_values s <> [] /\ ds_size s = de_size d
  end.
(** Nothing is stored beyond [n] *)
Definition quiet (n : N) (f : view) : Prop := forall off x, (n <= off)%N -> f off = Some x -> x = None.

Lemma multi_set_ok types idx bufs off v : wf_multi types idx bufs ->
  exists types' idx' bufs', multi_set types idx bufs off v = Multi types' idx' bufs' /\
    wf_multi types' idx' bufs' /\
    forall off', multi_at idx' bufs' off' = write (multi_at idx bufs) off v off'.
Proof.
  intros W. unfold multi_set. destruct v as [[k x]|].
  - destruct (get_or_add_typeidx types k) as [ti types'] eqn:G.
    destruct (add_type_ok _ _ _ _ _ _ W G) as (W1 & K & V1).
    destruct (multi_write_ok _ _ _ ti k off x W1 K) as (W2 & V2).
    do 3 eexists. split; [reflexivity|]. split; [exact W2|]. intros off'. rewrite V2. unfold write.
    now rewrite V1.
  - destruct (multi_remove_ok _ _ _ off W) as (W2 & V2). do 3 eexists. split; [reflexivity|]. now split.
Qed.
Lemma create_multitype_ok k vals mask :
  (forall off v, vals off = Some v -> mask_at mask off = true) ->
  let '(types, idx, bufs) := create_multitype k vals mask in
  wf_multi types idx bufs /\
  forall off, multi_at idx bufs off = match vals off with
                                      | Some v => Some (Some (val k v))
                                      | None => if mask_at mask off then Some None else None
                                      end.
Proof.
  intros H. unfold create_multitype. split; [split; [|split]|].
  - reflexivity.
  - constructor; [easy|constructor].
  - intros off n. destruct (vals off) as [v|] eqn:V.
    + intros [= <-]. exists (val k v). unfold buf_at. cbn. now rewrite V.
    + now destruct (mask_at mask off).
  - intros off. unfold multi_at. destruct (vals off) as [v|] eqn:V.
    + unfold buf_at. cbn. now rewrite V.
    + now destruct (mask_at mask off).
Qed.
Lemma mask_at_set_bit mask off off' : mask_at (set_bit mask off) off' = ((off' =? off)%N || mask_at mask off').
Proof. destruct mask as [f|]; cbn; unfold fupd; destruct (off' =? off)%N; reflexivity. Qed.

Definition typed_at (k : kind) (vals : array k) (mask : option (N -> bool)) : view :=
  fun off => match vals off with
             | Some v => Some (Some (val k v))
             | None => if mask_at mask off then Some None else None
             end.
Definition wf_typed (k : kind) (vals : array k) (mask : option (N -> bool)) : Prop :=
  forall off v, vals off = Some v -> mask_at mask off = true.
Lemma typed_put_ok k vals mask off x : wf_typed k vals mask ->
  wf_typed k (fupd vals off x) (set_bit mask off) /\
  forall off', typed_at k (fupd vals off x) (set_bit mask off) off' = write (typed_at k vals mask) off (item_of_opt k x) off'.
Proof.
  intros W. split.
  - intros off' v. unfold fupd. rewrite mask_at_set_bit. destruct (off' =? off)%N; cbn; eauto.
  - intros off'. unfold typed_at, write, fupd. rewrite mask_at_set_bit.
    destruct (off' =? off)%N; cbn [orb]; auto. now destruct x.
Qed.

Lemma dense_set_ok d o v : wf_dense d -> is_mutable d = true ->
  exists d', dense_set d o v = Some d' /\ wf_dense d' /\ is_mutable d' = true /\
    de_alloc d' = de_alloc d /\ de_size d' = de_size d /\
    forall off, dense_at d' off =
      if contains (de_alloc d) o then write (dense_at d) (offset o) v off else dense_at d off.
Proof.
  intros W M. unfold dense_set, wf_dense, is_mutable, dense_at in *.
  destruct (de_data d) as [k vals mask|types idx bufs|s] eqn:D; [| |discriminate].
  - destruct (contains (de_alloc d) o); cbn [negb].
    2: { exists d. rewrite D. repeat split; auto. }
    fold (wf_typed k vals mask) in W. fold (typed_at k vals mask).
    destruct v as [x|].
    + destruct (as_kind k x) as [y|] eqn:A.
      * apply as_kind_some in A. subst x.
        destruct (typed_put_ok k vals mask (offset o) (Some y) W) as (W' & V).
        eexists. split; [reflexivity|]. cbn [de_data de_alloc de_size]. repeat split; auto.
      * destruct (typed_put_ok k vals mask (offset o) (vals (offset o)) W) as (W' & V).
        assert (W1 : wf_typed k vals (set_bit mask (offset o))).
        { intros off' w E. rewrite mask_at_set_bit. rewrite (W _ _ E). apply orb_true_r. }
        pose proof (create_multitype_ok k vals (set_bit mask (offset o)) W1) as C.
        destruct (create_multitype k vals (set_bit mask (offset o))) as [[types idx] bufs].
        destruct C as [C1 C2].
        destruct (multi_set_ok types idx bufs (offset o) (Some x) C1) as (t' & i' & b' & E & W2 & V2).
        rewrite E. eexists. split; [reflexivity|]. cbn [de_data de_alloc de_size].
        split; [exact W2|]. split; [auto|]. split; [auto|]. split; [auto|].
        intros off. change (multi_at i' b' off = write (typed_at k vals mask) (offset o) (Some x) off).
        rewrite V2. unfold write. destruct (N.eqb_spec off (offset o)); auto.
        rewrite C2. unfold typed_at. rewrite mask_at_set_bit.
        destruct (N.eqb_spec off (offset o)); [contradiction|]. reflexivity.
    + destruct (typed_put_ok k vals mask (offset o) None W) as (W' & V).
      eexists. split; [reflexivity|]. cbn [de_data de_alloc de_size]. repeat split; auto.
  - destruct (contains (de_alloc d) o); cbn [negb].
    2: { exists d. rewrite D. split; [auto|]. split; [exact W|]. auto. }
    destruct (multi_set_ok types idx bufs (offset o) v W) as (t' & i' & b' & E & W2 & V2).
    rewrite E. eexists. split; [reflexivity|]. cbn [de_data de_alloc de_size].
    split; [exact W2|]. split; [auto|]. split; [auto|]. split; [auto|].
    intros off. exact (V2 off).
Qed.

(** *** Many writes *)
Definition write_all (alloc : ObjectId) (ws : list (ObjectId * ditem)) (f : view) : view :=
  fold_left (fun f '(o, v) => if contains alloc o then write f (offset o) v else f) ws f.
Lemma write_all_ext alloc ws : forall f g, (forall off, f off = g off) ->
  forall off, write_all alloc ws f off = write_all alloc ws g off.
Proof.
  induction ws as [|[o v] ws IH]; intros f g H off; cbn; auto.
  apply IH. intros off'. destruct (contains alloc o); auto. unfold write. now destruct (off' =? offset o)%N.
Qed.
Lemma present_at_alt objs s : forall i o,
  In (i, o) (flat_map (fun '((i, o) : nat * option ObjectId) =>
               match o with Some o => [(i, o)] | None => [] end) (combine (seq s (length objs)) objs))
  <-> s <= i /\ nth_error objs (i - s) = Some (Some o).
Proof.
  revert s. induction objs as [|x objs IH]; intros s i o; cbn.
  - split; [easy|]. intros [_ H]. now destruct (i - s).
  - rewrite in_app_iff, IH. split.
    + intros [I|[L E]].
      * destruct x; cbn in I; [|easy]. destruct I as [[= <- <-]|[]]. split; auto. now rewrite Nat.sub_diag.
      * split; [lia|]. replace (i - s) with (S (i - S s)) by lia. exact E.
    + intros [L E]. destruct (Nat.eq_dec i s) as [->|NE].
      * rewrite Nat.sub_diag in E. cbn in E. injection E as ->. left. now left.
      * right. split; [lia|]. replace (i - s) with (S (i - S s)) in E by lia. exact E.
Qed.
Lemma in_present_at objs i o : In (i, o) (present_at objs) <-> nth_error objs i = Some (Some o).
Proof. unfold present_at. rewrite present_at_alt. rewrite Nat.sub_0_r. intuition lia. Qed.

Lemma typed_fold_ok k alloc (x : nat -> option (cval k)) ps : forall vals mask, wf_typed k vals mask ->
  let '(vals', mask') := fold_left (fun '(vals, mask) '(i, o) =>
      if contains alloc o then (fupd vals (offset o) (x i), set_bit mask (offset o)) else (vals, mask))
      ps (vals, mask) in
  wf_typed k vals' mask' /\
  forall off, typed_at k vals' mask' off =
    write_all alloc (map (fun '(i, o) => (o, item_of_opt k (x i))) ps) (typed_at k vals mask) off.
Proof.
  induction ps as [|[i o] ps IH]; intros vals mask W; cbn [fold_left map].
  - split; auto.
  - unfold write_all. cbn [fold_left]. fold (write_all alloc).
    destruct (contains alloc o) eqn:C.
    + destruct (typed_put_ok k vals mask (offset o) (x i) W) as (W' & V).
      specialize (IH _ _ W'). destruct (fold_left _ ps _) as [vals' mask']. destruct IH as [A B].
      split; auto. intros off. rewrite B. now apply write_all_ext.
    + apply IH. exact W.
Qed.

Lemma multi_fold_true_ok k alloc ti (x : nat -> option (cval k)) types ps : forall idx bufs, wf_multi types idx bufs ->
  nth_error (kinds bufs) ti = Some k ->
  let '(idx', bufs') := fold_left (fun '(idx, bufs) '(i, o) =>
      if negb (contains alloc o) then (idx, bufs) else
      let off := offset o in
      match x i with
      | Some v => (fupd idx off (TIdx ti), write_buf bufs ti k off v)
      | None =>
          (fupd idx off TRemoved,
           match string_default k with Some e => write_buf bufs ti k off e | None => bufs end)
      end) ps (idx, bufs) in
  wf_multi types idx' bufs' /\
  forall off, multi_at idx' bufs' off =
    write_all alloc (map (fun '(i, o) => (o, item_of_opt k (x i))) ps) (multi_at idx bufs) off.
Proof.
  induction ps as [|[i o] ps IH]; intros idx bufs W K; cbn [fold_left map].
  - split; auto.
  - unfold write_all. cbn [fold_left]. fold (write_all alloc).
    destruct (contains alloc o) eqn:C; cbn [negb]; [|now apply IH].
    cbn zeta. destruct (x i) as [v|].
    + destruct (multi_write_ok _ _ _ ti k (offset o) v W K) as (W' & V).
      specialize (IH _ _ W'). rewrite kinds_write in IH. specialize (IH K).
      destruct (fold_left _ ps _) as [idx' bufs']. destruct IH as [A B].
      split; auto. intros off. rewrite B. now apply write_all_ext.
    + assert (G : exists bufs1,
        (match string_default k with Some e => write_buf bufs ti k (offset o) e | None => bufs end) = bufs1 /\
        kinds bufs1 = kinds bufs /\
        (forall n off, off <> offset o -> buf_at bufs1 n off = buf_at bufs n off)).
      { eexists. split; [reflexivity|]. destruct (string_default k) as [e|]; [|auto].
        split; [apply kinds_write|]. intros n off NE. rewrite buf_at_write by auto.
        apply N.eqb_neq in NE. now rewrite NE, andb_false_r. }
      destruct G as (bufs1 & -> & K1 & B1).
      assert (W' : wf_multi types (fupd idx (offset o) TRemoved) bufs1).
      { destruct W as (W1 & W2 & W3). split; [congruence|]. split; [auto|].
        intros off n. unfold fupd. destruct (N.eqb_spec off (offset o)); [discriminate|].
        intros I. rewrite B1 by auto. eauto. }
      specialize (IH _ _ W'). rewrite K1 in IH. specialize (IH K).
      destruct (fold_left _ ps _) as [idx' bufs']. destruct IH as [A B].
      split; auto. intros off. rewrite B. apply write_all_ext. intros off'.
      unfold multi_at, write, fupd. destruct (N.eqb_spec off' (offset o)); auto.
      destruct (idx off'); auto. now rewrite B1.
Qed.
Lemma multi_mark_ok alloc (p : nat -> bool) types bufs ps : forall idx, wf_multi types idx bufs ->
  let idx' := fold_left (fun idx '(i, o) =>
      if contains alloc o && p i then fupd idx (offset o) TRemoved else idx) ps idx in
  wf_multi types idx' bufs /\
  forall off, multi_at idx' bufs off =
    write_all alloc (flat_map (fun '(i, o) => if p i then [(o, None)] else []) ps) (multi_at idx bufs) off.
Proof.
  induction ps as [|[i o] ps IH]; intros idx W; cbn [fold_left flat_map].
  - split; auto.
  - destruct (p i) eqn:P; cbn [app].
    + rewrite andb_true_r. unfold write_all. cbn [fold_left]. fold (write_all alloc).
      destruct (contains alloc o) eqn:C; [|now apply IH].
      destruct (multi_remove_ok _ _ _ (offset o) W) as (W' & V). destruct (IH _ W') as [A B].
      split; auto. intros off. rewrite B. now apply write_all_ext.
    + rewrite andb_false_r. now apply IH.
Qed.

(** The values of one type in a mixed slice, the objects being distinct *)
Definition offsets (alloc : ObjectId) (ps : list (nat * ObjectId)) : list N :=
  map (fun p => offset (snd p)) (filter (fun p => contains alloc (snd p)) ps).
Lemma multi_fold_false_ok k alloc ti (x : nat -> option (cval k)) types ps : forall idx bufs,
  NoDup (offsets alloc ps) -> wf_multi types idx bufs ->
  nth_error (kinds bufs) ti = Some k ->
  let '(idx', bufs') := fold_left (fun '(idx, bufs) '(i, o) =>
      if negb (contains alloc o) then (idx, bufs) else
      let off := offset o in
      match x i with
      | Some v => (fupd idx off (TIdx ti), write_buf bufs ti k off v)
      | None =>
          (idx, match string_default k with Some e => write_buf bufs ti k off e | None => bufs end)
      end) ps (idx, bufs) in
  wf_multi types idx' bufs' /\ kinds bufs' = kinds bufs /\
  (forall off, ~ In off (offsets alloc ps) -> idx' off = idx off /\ forall n, buf_at bufs' n off = buf_at bufs n off) /\
  (forall i o, In (i, o) ps -> contains alloc o = true ->
     match x i with
     | Some v => idx' (offset o) = TIdx ti /\ buf_at bufs' ti (offset o) = Some (val k v)
     | None => idx' (offset o) = idx (offset o)
     end /\ forall n, n <> ti -> buf_at bufs' n (offset o) = buf_at bufs n (offset o)).
Proof.
  induction ps as [|[i o] ps IH]; intros idx bufs ND W K; cbn [fold_left].
  - split; [auto|]. split; [auto|]. split; [auto|]. easy.
  - unfold offsets in ND |- *. cbn [filter snd map] in ND |- *. destruct (contains alloc o) eqn:C; cbn [negb].
    2: { specialize (IH idx bufs ND W K). destruct (fold_left _ ps _) as [idx' bufs'].
         destruct IH as (A & B & D & E). split; [auto|]. split; [auto|]. split; [auto|].
         intros i1 o1 [[= <- <-]|I] Ci; [congruence|]. now apply E. }
    cbn [map snd] in ND |- *. fold (offsets alloc ps) in ND |- *. apply NoDup_cons_iff in ND as [NI ND].
    set (st1 := let off := offset o in
      match x i with
      | Some v => (fupd idx off (TIdx ti), write_buf bufs ti k off v)
      | None =>
          (idx, match string_default k with Some e => write_buf bufs ti k off e | None => bufs end)
      end).
    assert (H1 : let '(idx1, bufs1) := st1 in wf_multi types idx1 bufs1 /\ kinds bufs1 = kinds bufs /\
       (forall off, off <> offset o -> idx1 off = idx off /\ forall n, buf_at bufs1 n off = buf_at bufs n off) /\
       match x i with
       | Some v => idx1 (offset o) = TIdx ti /\ buf_at bufs1 ti (offset o) = Some (val k v)
       | None => idx1 (offset o) = idx (offset o)
       end /\ forall n, n <> ti -> buf_at bufs1 n (offset o) = buf_at bufs n (offset o)).
    { subst st1. cbn zeta. destruct (x i) as [v|].
      - destruct (multi_write_ok _ _ _ ti k (offset o) v W K) as (W' & V).
        split; [exact W'|]. split; [apply kinds_write|]. split; [|split].
        + intros off NE. rewrite fupd_other by auto. split; auto. intros n. rewrite buf_at_write by auto.
          apply N.eqb_neq in NE. now rewrite NE, andb_false_r.
        + rewrite fupd_same. split; auto. rewrite buf_at_write by auto. now rewrite Nat.eqb_refl, N.eqb_refl.
        + intros n NE. rewrite buf_at_write by auto. apply Nat.eqb_neq in NE. now rewrite NE.
      - destruct (string_default k) as [e|]; [|auto].
        + split; [|split; [apply kinds_write|split; [|split]]].
          * destruct W as (W1 & W2 & W3). split; [now rewrite kinds_write|]. split; auto.
            intros off n I. rewrite buf_at_write by auto. destruct ((n =? ti) && (off =? offset o)%N); eauto.
          * intros off NE. split; auto. intros n. rewrite buf_at_write by auto.
            apply N.eqb_neq in NE. now rewrite NE, andb_false_r.
          * auto.
          * intros n NE. rewrite buf_at_write by auto. apply Nat.eqb_neq in NE. now rewrite NE. }
    destruct st1 as [idx1 bufs1]. destruct H1 as (W1 & K1 & O1 & X1 & N1).
    specialize (IH idx1 bufs1 ND W1). rewrite K1 in IH. specialize (IH K).
    destruct (fold_left _ ps _) as [idx' bufs']. destruct IH as (A & B & D & E).
    split; [auto|]. split; [auto|]. split.
    + intros off I. destruct (D off) as [D1 D2]; [intros J; apply I; now right|].
      destruct (O1 off) as [O2 O3]; [intros ->; apply I; now left|].
      split; [congruence|]. intros n. now rewrite D2.
    + intros i1 o1 [[= <- <-]|I] Ci.
      * destruct (D (offset o) NI) as [D1 D2]. split.
        -- destruct (x i); rewrite D1; [rewrite D2|]; auto.
        -- intros n NE. rewrite D2. auto.
      * destruct (E _ _ I Ci) as [E1 E2].
        assert (NE : offset o1 <> offset o).
        { intros Eq. apply NI. rewrite <- Eq. unfold offsets.
          apply (List.in_map (fun p : nat * ObjectId => offset (snd p)) _ (i1, o1)).
          apply filter_In. split; auto. }
        destruct (O1 _ NE) as [O2 O3]. split.
        -- destruct (x i1); auto. congruence.
        -- intros n Hn. rewrite E2 by auto. apply O3.
Qed.

Lemma write_all_app alloc a b f : write_all alloc (a ++ b) f = write_all alloc b (write_all alloc a f).
Proof. unfold write_all. apply fold_left_app. Qed.
Lemma write_all_cons alloc o v ws f : write_all alloc ((o, v) :: ws) f =
  write_all alloc ws (if contains alloc o then write f (offset o) v else f).
Proof. reflexivity. Qed.
Lemma write_all_out alloc (item : nat -> ditem) ps : forall f off, ~ In off (offsets alloc ps) ->
  write_all alloc (map (fun '(i, o) => (o, item i)) ps) f off = f off.
Proof.
  induction ps as [|[i o] ps IH]; intros f off NI; [reflexivity|].
  unfold offsets in NI. cbn [filter snd] in NI. cbn [map]. rewrite write_all_cons.
  destruct (contains alloc o).
  - cbn [map snd In] in NI. rewrite IH by (intros I; apply NI; now right). unfold write.
    destruct (N.eqb_spec off (offset o)); auto. exfalso. apply NI. now left.
  - now apply IH.
Qed.
Lemma write_all_in alloc (item : nat -> ditem) ps : forall f i o, NoDup (offsets alloc ps) ->
  In (i, o) ps -> contains alloc o = true ->
  write_all alloc (map (fun '(i, o) => (o, item i)) ps) f (offset o) = Some (item i).
Proof.
  induction ps as [|[i1 o1] ps IH]; intros f i o ND I C; [easy|].
  unfold offsets in ND. cbn [filter snd] in ND. cbn [map]. rewrite write_all_cons.
  destruct (contains alloc o1) eqn:C1.
  - cbn [map snd] in ND. apply NoDup_cons_iff in ND as [NI ND]. destruct I as [[= -> ->]|I].
    + rewrite write_all_out by auto. unfold write. now rewrite N.eqb_refl.
    + now apply IH.
  - destruct I as [[= -> ->]|I]; [congruence|]. now apply IH.
Qed.
Lemma in_offsets alloc ps off : In off (offsets alloc ps) <->
  exists i o, In (i, o) ps /\ contains alloc o = true /\ off = offset o.
Proof.
  unfold offsets. rewrite in_map_iff. split.
  - intros ([i o] & <- & I). apply filter_In in I as [I C]. eauto.
  - intros (i & o & I & C & ->). exists (i, o). split; auto. apply filter_In. auto.
Qed.

Lemma slice_at_unique vs i a x : ListRunSpec.slice_wf vs -> i < sl_size vs ->
  In a (sl_values vs) -> DataListModel.array_item i a = Some x -> slice_at vs i = Some x.
Proof.
  intros [W1 W2] L I E. apply in_split in I as (pre & post & S).
  assert (F : Forall (fun a' => DataListModel.array_item i a' = None) (pre ++ post)).
  { eapply W2; eauto. congruence. }
  apply Forall_app in F as [F _].
  unfold slice_at. rewrite S, fold_right_app. cbn [fold_right]. rewrite E.
  clear -F. induction F as [|y l H F IH]; cbn; auto. now rewrite H.
Qed.
Lemma slice_at_none vs i : slice_at vs i = None -> Forall (fun a => DataListModel.array_item i a = None) (sl_values vs).
Proof.
  unfold slice_at. induction (sl_values vs) as [|a l IH]; cbn; intros H; constructor.
  - now destruct (DataListModel.array_item i a).
  - apply IH. now destruct (DataListModel.array_item i a).
Qed.
Lemma slice_at_some vs i x : slice_at vs i = Some x -> exists a, In a (sl_values vs) /\ DataListModel.array_item i a = Some x.
Proof.
  unfold slice_at. induction (sl_values vs) as [|a l IH]; cbn; [discriminate|].
  destruct (DataListModel.array_item i a) eqn:E.
  - intros [= ->]. eauto.
  - intros H. destruct (IH H) as (b & I & F). eauto.
Qed.

Lemma write_all_skip alloc ws : forall f off,
  (forall o v, In (o, v) ws -> contains alloc o = true -> offset o <> off) -> write_all alloc ws f off = f off.
Proof.
  induction ws as [|[o v] ws IH]; intros f off H; [reflexivity|]. rewrite write_all_cons.
  rewrite IH by (intros o1 v1 I; apply (H o1 v1); now right). destruct (contains alloc o) eqn:C; auto.
  unfold write. destruct (N.eqb_spec off (offset o)) as [E|]; auto. exfalso. apply (H o v); auto. now left.
Qed.
Lemma write_all_none alloc o ws : contains alloc o = true -> In (o, None) ws -> (forall o v, In (o, v) ws -> v = None) ->
  forall f, write_all alloc ws f (offset o) = Some None.
Proof.
  intros C. induction ws as [|[o1 v1] ws IH] using rev_ind; intros I A f; [easy|].
  rewrite write_all_app, write_all_cons. cbn. destruct (contains alloc o1) eqn:C1.
  - unfold write. destruct (N.eqb_spec (offset o) (offset o1)) as [E|NE].
    + f_equal. apply (A o1 v1). apply in_or_app. right. now left.
    + apply IH.
      * apply in_app_or in I as [I|[[= -> ->]|[]]]; auto. congruence.
      * intros o2 v2 J. apply (A o2 v2). apply in_or_app. now left.
  - apply IH.
    + apply in_app_or in I as [I|[[= -> ->]|[]]]; auto. congruence.
    + intros o2 v2 J. apply (A o2 v2). apply in_or_app. now left.
Qed.
Lemma offsets_inj alloc ps : forall i o i' o', NoDup (offsets alloc ps) -> In (i, o) ps -> In (i', o') ps ->
  contains alloc o = true -> contains alloc o' = true -> offset o = offset o' -> i = i'.
Proof.
  induction ps as [|[i1 o1] ps IH]; intros i o i' o' ND I J C C' E; [easy|].
  unfold offsets in ND. cbn [filter snd] in ND. destruct (contains alloc o1) eqn:C1.
  - cbn [map snd] in ND. apply NoDup_cons_iff in ND as [NI ND]. fold (offsets alloc ps) in NI, ND.
    destruct I as [[= -> ->]|I], J as [[= -> ->]|J]; auto.
    + exfalso. apply NI. rewrite E. apply in_offsets. eauto.
    + exfalso. apply NI. rewrite <- E. apply in_offsets. eauto.
    + eapply IH; eauto.
  - destruct I as [[= -> ->]|I], J as [[= -> ->]|J]; try congruence. eapply IH; eauto.
Qed.

(** One array of a mixed slice *)
Lemma kinds_add ti k bufs : exists r, kinds (add_buf ti k bufs) = kinds bufs ++ r.
Proof.
  unfold add_buf, kinds. destruct (ti =? length bufs).
  - rewrite map_app. eauto.
  - exists []. now rewrite app_nil_r.
Qed.
Section Mixed.
  Variables (alloc : ObjectId) (objs : list (option ObjectId)) (base : view).
  Hypothesis ND : NoDup (offsets alloc (present_at objs)).
  Definition mixed_inv (done : list {k : kind & list (option (cval k))})
      (types : list kind) (idx : N -> tidx) (bufs : list {k : kind & array k}) : Prop :=
    wf_multi types idx bufs /\
    (forall off, ~ In off (offsets alloc (present_at objs)) -> multi_at idx bufs off = base off) /\
    (forall i o a w, In (i, o) (present_at objs) -> contains alloc o = true -> In a done ->
       DataListModel.array_item i a = Some w ->
       exists n, idx (offset o) = TIdx n /\ nth_error (kinds bufs) n = Some (projT1 a) /\
                 buf_at bufs n (offset o) = Some w).
  Lemma mixed_step done k xs types idx bufs :
    mixed_inv done types idx bufs -> ~ In k (map (@projT1 _ _) done) ->
    (forall i o a, In (i, o) (present_at objs) -> In a done -> DataListModel.array_item i a <> None -> nth i xs None = None) ->
    let '(types', idx', bufs') := multi_set_array false alloc objs k xs types idx bufs in
    mixed_inv (existT _ k xs :: done) types' idx' bufs'.
  Proof.
    intros (W & Out & In1) NK U. unfold multi_set_array.
    destruct (get_or_add_typeidx types k) as [ti types'] eqn:G.
    destruct (add_type_ok _ _ _ _ _ _ W G) as (W1 & K & V1).
    destruct (kinds_add ti k bufs) as [r Kr].
    pose proof (multi_fold_false_ok k alloc ti (fun i => nth i xs None) types' (present_at objs)
      idx (add_buf ti k bufs) ND W1 K) as F.
    destruct (fold_left _ (present_at objs) _) as [idx' bufs']. destruct F as (A & B & D & E).
    split; [exact A|]. split.
    - intros off NI. rewrite <- (Out off NI), <- (V1 off). destruct (D off NI) as [D1 D2].
      unfold multi_at. rewrite D1. destruct (idx off); auto. now rewrite D2.
    - intros i o a w I C J X. destruct (E i o I C) as [E1 E2].
      destruct J as [<-|J].
      + cbn [DataListModel.array_item] in X. destruct (nth i xs None) as [v|]; [|discriminate].
        cbn in X. injection X as <-. destruct E1 as [E1 E3]. exists ti. split; [exact E1|]. split; [|exact E3].
        rewrite B. exact K.
      + assert (N0 : nth i xs None = None) by (apply (U i o a); auto; congruence).
        rewrite N0 in E1. destruct (In1 i o a w I C J X) as (n & I1 & K1 & B1).
        exists n. rewrite E1. split; [exact I1|].
        assert (K2 : nth_error (kinds (add_buf ti k bufs)) n = Some (projT1 a)).
        { rewrite Kr, nth_error_app1; auto. apply nth_error_Some. congruence. }
        assert (NE : n <> ti).
        { intros ->. rewrite K in K2. injection K2 as K2. apply NK. rewrite K2. now apply List.in_map. }
        split; [now rewrite B|]. rewrite E2 by auto.
        pose proof (V1 (offset o)) as V. unfold multi_at in V. rewrite I1 in V. rewrite B1 in V. congruence.
  Qed.
  Lemma mixed_fold vs : slice_ok vs -> length objs = sl_size vs ->
    forall todo done types idx bufs, Permutation.Permutation (done ++ todo) (sl_values vs) ->
    mixed_inv done types idx bufs ->
    let '(types', idx', bufs') :=
        fold_left (fun '(types, idx, bufs) (a : {k : kind & list (option (cval k))}) =>
          let 'existT _ k xs := a in multi_set_array false alloc objs k xs types idx bufs)
          todo (types, idx, bufs) in
    mixed_inv (sl_values vs) types' idx' bufs'.
  Proof.
    intros [SW SK] L. induction todo as [|[k xs] todo IH]; intros done types idx bufs P H; cbn [fold_left].
    - rewrite app_nil_r in P. destruct H as (A & B & C). split; [exact A|]. split; [exact B|].
      intros i o a w I Ca J. apply C; auto. eapply Permutation.Permutation_in; [symmetry; exact P|exact J].
    - assert (NDk : NoDup (map (@projT1 _ _) (done ++ existT _ k xs :: todo))).
      { eapply Permutation.Permutation_NoDup; [|exact SK]. apply Permutation.Permutation_map. now symmetry. }
      assert (NK : ~ In k (map (@projT1 _ _) done)).
      { rewrite map_app in NDk. cbn in NDk. apply NoDup_remove_2 in NDk. intros I. apply NDk.
        apply in_or_app. now left. }
      assert (U : forall i o a, In (i, o) (present_at objs) -> In a done -> DataListModel.array_item i a <> None -> nth i xs None = None).
      { intros i o a I J X. destruct (nth i xs None) as [v|] eqn:E; auto. exfalso.
        assert (Li : i < sl_size vs). { rewrite <- L. apply in_present_at in I. apply nth_error_Some. congruence. }
        destruct (DataListModel.array_item i a) as [w|] eqn:Ea; [|congruence].
        assert (Ia : In a (sl_values vs)).
        { eapply Permutation.Permutation_in; [exact P|]. apply in_or_app. now left. }
        assert (Ib : In (existT _ k xs) (sl_values vs)).
        { eapply Permutation.Permutation_in; [exact P|]. apply in_or_app. right. now left. }
        destruct SW as [SW1 SW2]. apply in_split in Ia as (pre & post & S).
        assert (Ea' : DataListModel.array_item i a <> None) by congruence.
        pose proof (SW2 i Li pre a post S Ea') as F.
        rewrite S in Ib. apply in_app_or in Ib.
        assert (Q : In (existT (fun k => list (option (cval k))) k xs) (pre ++ post)).
        { apply in_or_app. destruct Ib as [Ib|[->|Ib]]; auto. exfalso. apply NK.
          change k with (projT1 (existT (fun k => list (option (cval k))) k xs)). now apply List.in_map. }
        rewrite Forall_forall in F. apply F in Q. cbn in Q. rewrite E in Q. discriminate. }
      pose proof (mixed_step done k xs types idx bufs H NK U) as St.
      destruct (multi_set_array false alloc objs k xs types idx bufs) as [[types1 idx1] bufs1].
      apply (IH (existT _ k xs :: done)); auto.
      rewrite <- P. cbn. apply Permutation.Permutation_cons_app. reflexivity.
  Qed.
End Mixed.

Lemma flat_map_all {A B} (g : A -> B) ps : flat_map (fun p => [g p]) ps = map g ps.
Proof. induction ps; cbn; congruence. Qed.
Lemma multi_set_all_ok alloc objs vs types idx bufs : slice_ok vs -> length objs = sl_size vs ->
  length (sl_values vs) <= 1 \/ NoDup (offsets alloc (present_at objs)) ->
  wf_multi types idx bufs ->
  exists types' idx' bufs', multi_set_all alloc objs vs types idx bufs = Multi types' idx' bufs' /\
    wf_multi types' idx' bufs' /\
    forall off, multi_at idx' bufs' off = write_all alloc (writes objs vs) (multi_at idx bufs) off.
Proof.
  intros SO L H W. unfold multi_set_all.
  destruct (sl_values vs) as [|[k xs] [|a2 r]] eqn:S.
  - destruct (multi_mark_ok alloc (fun _ => true) types bufs (present_at objs) idx W) as [A B].
    cbn zeta in A, B. do 3 eexists. split; [reflexivity|]. split; [exact A|].
    intros off. rewrite B. unfold writes. f_equal. f_equal.
    assert (E : forall i, slice_at vs i = None) by (intros i; unfold slice_at; now rewrite S).
    clear -E. induction (present_at objs) as [|[i o] l IH]; cbn; [auto|]. rewrite E. f_equal; auto.
  - unfold multi_set_array.
    destruct (get_or_add_typeidx types k) as [ti types'] eqn:G.
    destruct (add_type_ok _ _ _ _ _ _ W G) as (W1 & K & V1).
    pose proof (multi_fold_true_ok k alloc ti (fun i => nth i xs None) types' (present_at objs)
      idx (add_buf ti k bufs) W1 K) as F.
    destruct (fold_left _ (present_at objs) _) as [idx' bufs']. destruct F as (A & B).
    do 3 eexists. split; [reflexivity|]. split; [exact A|].
    intros off. rewrite B. rewrite (write_all_ext _ _ _ _ V1). unfold writes.
    replace (map (fun '(i, o) => (o, slice_at vs i)) (present_at objs))
      with (map (fun '(i, o) => (o : ObjectId, item_of_opt k (nth i xs None))) (present_at objs)); [reflexivity|].
    apply map_ext. intros [i o]. now rewrite (DataListOpsProofs.single_items k xs vs i S).
  - destruct H as [H|ND]; [cbn in H; lia|]. rewrite <- S. clear S.
    pose proof (mixed_fold alloc objs (multi_at idx bufs) ND vs SO L (sl_values vs) [] types idx bufs
       (Permutation.Permutation_refl _)) as F.
    destruct (fold_left _ (sl_values vs) _) as [[types1 idx1] bufs1].
    destruct F as (A & B & C); [split; [exact W|split; [auto|easy]]|].
    destruct (multi_mark_ok alloc (fun i => match slice_at vs i with None => true | Some _ => false end)
       types1 bufs1 (present_at objs) idx1 A) as [A2 B2].
    cbn zeta in A2, B2. do 3 eexists. split; [reflexivity|]. split; [exact A2|].
    intros off. rewrite B2. destruct (in_dec N.eq_dec off (offsets alloc (present_at objs))) as [I|NI].
    + apply in_offsets in I as (i & o & I & Co & ->). unfold writes.
      rewrite (write_all_in alloc (slice_at vs) _ _ i o ND I Co).
      destruct (slice_at vs i) as [w|] eqn:E.
      * destruct (slice_at_some _ _ _ E) as (a & Ia & Ea).
        destruct (C i o a w I Co Ia Ea) as (n & I1 & K1 & B1).
        assert (Q : multi_at idx1 bufs1 (offset o) = Some (Some w)) by (unfold multi_at; now rewrite I1, B1).
        rewrite <- Q. apply write_all_skip. intros o2 v2 J. apply in_flat_map in J as ([i2 o3] & J & J2).
        destruct (slice_at vs i2) eqn:E2; [easy|]. cbn in J2. destruct J2 as [[= <- <-]|[]].
        intros C2 Eq. assert (i2 = i) by (eapply offsets_inj; eauto). congruence.
      * apply write_all_none; auto.
        { apply in_flat_map. exists (i, o). rewrite E. split; auto. now left. }
        intros o2 v2 J. apply in_flat_map in J as ([i2 o3] & J & J2).
        destruct (slice_at vs i2); [easy|]. cbn in J2. destruct J2 as [[= <- <-]|[]]. reflexivity.
    + unfold writes. rewrite write_all_out by auto. rewrite <- (B off NI). apply write_all_skip.
      intros o2 v2 J C2 Eq. apply NI. apply in_flat_map in J as ([i2 o3] & J & J2).
      destruct (slice_at vs i2) eqn:E2; [easy|]. cbn in J2. destruct J2 as [[= <- <-]|[]].
      apply in_offsets. eauto.
Qed.

Lemma dense_set_all_ok d objs vs : wf_dense d -> is_mutable d = true ->
  slice_ok vs -> length objs = sl_size vs ->
  length (sl_values vs) <= 1 \/ NoDup (offsets (de_alloc d) (present_at objs)) ->
  exists d', dense_set_all d objs vs = Some d' /\ wf_dense d' /\ is_mutable d' = true /\
    de_alloc d' = de_alloc d /\ de_size d' = de_size d /\
    forall off, dense_at d' off = write_all (de_alloc d) (writes objs vs) (dense_at d) off.
Proof.
  intros W M SO L H. unfold dense_set_all, wf_dense, is_mutable in *.
  destruct (de_data d) as [k vals mask|types idx bufs|s] eqn:D; [| |discriminate];
    rewrite (proj2 (Nat.eqb_eq _ _) L); cbn [negb].
  - assert (Dv : forall off, dense_at d off = typed_at k vals mask off) by (intros off; unfold dense_at; now rewrite D).
    assert (Multi_case : exists d',
      (let '(types, idx, bufs) := create_multitype k vals mask in
       Some (mkDense (de_alloc d) (de_size d) (multi_set_all (de_alloc d) objs vs types idx bufs))) = Some d' /\
      match de_data d' with
      | Typed k vals mask => forall off v, vals off = Some v -> mask_at mask off = true
      | Multi types idx bufs => wf_multi types idx bufs
      | ReadOnly s => wf_dslice s /\ ds_values s <> [] /\ ds_size s = de_size d'
      end /\ match de_data d' with ReadOnly _ => false | _ => true end = true /\
      de_alloc d' = de_alloc d /\ de_size d' = de_size d /\
      forall off, dense_at d' off = write_all (de_alloc d) (writes objs vs) (dense_at d) off).
    { pose proof (create_multitype_ok k vals mask W) as C.
      destruct (create_multitype k vals mask) as [[types idx] bufs]. destruct C as [C1 C2].
      destruct (multi_set_all_ok (de_alloc d) objs vs types idx bufs SO L H C1) as (t' & i' & b' & E & W2 & V2).
      rewrite E. eexists. split; [reflexivity|]. cbn [de_data de_alloc de_size].
      split; [exact W2|]. split; [auto|]. split; [auto|]. split; [auto|].
      intros off. change (multi_at i' b' off = write_all (de_alloc d) (writes objs vs) (dense_at d) off).
      rewrite V2. apply write_all_ext. intros off'. rewrite Dv. apply C2. }
    destruct (sl_values vs) as [|[k' xs] [|a2 r]] eqn:S; [| |exact Multi_case].
    + pose proof (typed_fold_ok k (de_alloc d) (fun _ => None) (present_at objs) vals mask W) as F.
      destruct (fold_left _ (present_at objs) _) as [vals' mask']. destruct F as [A B].
      eexists. split; [reflexivity|]. cbn [de_data de_alloc de_size].
      split; [exact A|]. split; [auto|]. split; [auto|]. split; [auto|].
      intros off. change (typed_at k vals' mask' off = write_all (de_alloc d) (writes objs vs) (dense_at d) off).
      rewrite B. rewrite (write_all_ext _ _ _ _ Dv). unfold writes.
      replace (map (fun '(i, o) => (o, slice_at vs i)) (present_at objs))
        with (map (fun '((i, o) : nat * ObjectId) => (o, item_of_opt k None)) (present_at objs)); [reflexivity|].
      apply map_ext. intros [i o]. unfold slice_at. now rewrite S.
    + destruct (kind_eq_dec k' k) as [e|n]; [|exact Multi_case]. destruct e. cbn [eq_rect].
      pose proof (typed_fold_ok k' (de_alloc d) (fun i => nth i xs None) (present_at objs) vals mask W) as F.
      destruct (fold_left _ (present_at objs) _) as [vals' mask']. destruct F as [A B].
      eexists. split; [reflexivity|]. cbn [de_data de_alloc de_size].
      split; [exact A|]. split; [auto|]. split; [auto|]. split; [auto|].
      intros off. change (typed_at k' vals' mask' off = write_all (de_alloc d) (writes objs vs) (dense_at d) off).
      rewrite B. rewrite (write_all_ext _ _ _ _ Dv). unfold writes.
      replace (map (fun '(i, o) => (o, slice_at vs i)) (present_at objs))
        with (map (fun '(i, o) => (o : ObjectId, item_of_opt k' (nth i xs None))) (present_at objs)); [reflexivity|].
      apply map_ext. intros [i o]. now rewrite (DataListOpsProofs.single_items k' xs vs i S).
  - destruct (multi_set_all_ok (de_alloc d) objs vs types idx bufs SO L H W) as (t' & i' & b' & E & W2 & V2).
    rewrite E. eexists. split; [reflexivity|]. cbn [de_data de_alloc de_size].
    split; [exact W2|]. split; [auto|]. split; [auto|]. split; [auto|].
    intros off. change (multi_at i' b' off = write_all (de_alloc d) (writes objs vs) (dense_at d) off).
    rewrite V2. apply write_all_ext. intros off'. unfold dense_at. now rewrite D.
Qed.

(** *** Copies *)
Lemma ro_at_single s k f : ds_values s = [existT _ k f] ->
  forall off, ro_at s off = match f off with
                            | Some v => Some (Some (val k v))
                            | None => match ds_tidx s with
                                      | None => Some None
                                      | Some t => match t off with TRemoved => Some None | _ => None end
                                      end
                            end.
Proof. intros E off. unfold ro_at. now rewrite E. Qed.
Lemma ro_at_tidx s t : wf_dslice s -> ds_tidx s = Some t ->
  forall off, ro_at s off = match t off with
                            | TUnset => None
                            | TRemoved => Some None
                            | TIdx n => Some (buf_at (ds_values s) n off)
                            end.
Proof.
  intros (T & ND & Q) E off. rewrite E in T. unfold ro_at. rewrite E.
  destruct (ds_values s) as [|[k f] [|a r]] eqn:S; auto.
  destruct (f off) as [v|] eqn:F.
  - assert (t off = TIdx 0) as ->.
    { apply T. unfold buf_at. cbn. now rewrite F. }
    unfold buf_at. cbn. now rewrite F.
  - destruct (t off) as [| |n] eqn:X; auto. apply T in X. exfalso. apply X. unfold buf_at.
    destruct n as [|n]; cbn; [now rewrite F|]. now destruct n.
Qed.

Lemma mutable_copy_ok d : wf_dense d ->
  wf_dense (mutable_copy d) /\ is_mutable (mutable_copy d) = true /\
  de_alloc (mutable_copy d) = de_alloc d /\ de_size (mutable_copy d) = de_size d /\
  (forall off, (off < de_size d)%N -> dense_at (mutable_copy d) off = dense_at d off) /\
  (forall n, quiet n (dense_at d) -> quiet n (dense_at (mutable_copy d))).
Proof.
  intros W. unfold mutable_copy, wf_dense, is_mutable, dense_at in *. cbn [de_data de_alloc de_size].
  destruct (de_data d) as [k vals mask|types idx bufs|s] eqn:D.
  - repeat split; auto.
  - split; [exact W|]. auto.
  - destruct W as (W & NE & SZ). pose proof W as (T & ND & Q).
    destruct (ds_values s) as [|[k f] [|a r]] eqn:S; [congruence| |].
    + assert (R := ro_at_single s k f S). destruct (ds_tidx s) as [t|] eqn:E; cbn [option_map].
      * assert (Ft : forall off v, f off = Some v -> (off <? ds_size s)%N = true /\ t off = TIdx 0).
        { intros off v F. split.
          - destruct (N.ltb_spec off (ds_size s)) as [|G]; auto. specialize (Q off 0 G).
            unfold buf_at in Q. cbn in Q. now rewrite F in Q.
          - apply T. unfold buf_at. cbn. now rewrite F. }
        split; [intros off v F; cbn; destruct (Ft _ _ F) as [-> ->]; auto|].
        split; [auto|]. split; [auto|]. split; [auto|]. split.
        -- intros off Lt. rewrite R. destruct (f off) as [v|] eqn:F; auto. cbn.
           rewrite SZ, (proj2 (N.ltb_lt _ _) Lt). cbn.
           destruct (t off) as [| |n] eqn:X; auto. apply T in X. exfalso. apply X. unfold buf_at.
           destruct n as [|n]; cbn; [|now destruct n]. now rewrite F.
        -- intros n Qn off x G. destruct (f off) as [v|] eqn:F.
           ++ specialize (Qn off (Some (val k v)) G). rewrite R, F in Qn. intros _. now specialize (Qn eq_refl).
           ++ destruct (mask_at _ off); [now intros [= <-]|discriminate].
      * split; [auto|]. split; [auto|]. split; [auto|]. split; [auto|]. split.
        -- intros off Lt. rewrite R. reflexivity.
        -- intros n Qn off x G. specialize (Qn off x G). now rewrite R in Qn.
    + destruct (ds_tidx s) as [t|] eqn:E; [|destruct T as [? T]; discriminate].
      rewrite <- S in *. assert (R := ro_at_tidx s t W E).
      split.
      { split; [reflexivity|]. split; [exact ND|]. intros off n X. apply T in X.
        destruct (buf_at (ds_values s) n off); [eauto|congruence]. }
      split; [auto|]. split; [auto|]. split; [auto|]. split.
      * intros off Lt. now rewrite R.
      * intros n Qn off x G. specialize (Qn off x G). now rewrite R in Qn.
Qed.

(** *** All entries *)
Lemma buf_at_mask idx bufs n off :
  buf_at (map (fun '((n, a) : nat * {k : kind & array k}) =>
           let 'existT _ k f := a in
           existT array k (fun off => match idx off with
                                      | TIdx m => if m =? n then f off else None
                                      | _ => None
                                      end)) (combine (seq 0 (length bufs)) bufs)) n off =
  match idx off with TIdx m => if m =? n then buf_at bufs n off else None | _ => None end.
Proof.
  unfold buf_at. rewrite nth_error_mapi. destruct (nth_error bufs n) as [[k f]|]; cbn.
  - destruct (idx off) as [| |m]; auto. destruct (m =? n); auto.
  - destruct (idx off) as [| |m]; auto. now destruct (m =? n).
Qed.
Lemma get_all_ok d : wf_dense d -> quiet (de_size d) (dense_at d) ->
  wf_dslice (get_all d) /\ ds_size (get_all d) = de_size d /\
  forall off, ro_at (get_all d) off = dense_at d off.
Proof.
  intros W Q. unfold get_all, wf_dense in *.
  destruct (de_data d) as [k vals mask|types idx bufs|s] eqn:D.
  - split; [split; [|split]|split].
    + cbn. destruct mask as [m|]; cbn; [|eauto]. intros off n. unfold buf_at.
      destruct (vals off) as [v|] eqn:V.
      * split; [intros [= <-]; cbn; now rewrite V|]. intros H. destruct n as [|n]; auto.
        cbn in H. now destruct n.
      * split; [destruct (m off); discriminate|]. intros H. exfalso. apply H. destruct n as [|n]; cbn.
        -- now rewrite V.
        -- now destruct n.
    + constructor; [easy|constructor].
    + cbn. intros off n G. unfold buf_at. destruct n as [|n]; cbn; [|now destruct n].
      destruct (vals off) as [v|] eqn:V; auto. specialize (Q off (Some (val k v)) G).
      unfold dense_at in Q. rewrite D, V in Q. now specialize (Q eq_refl).
    + reflexivity.
    + intros off. unfold ro_at, dense_at. rewrite D. cbn. destruct (vals off) as [v|] eqn:V; auto.
      destruct mask as [m|]; cbn; auto. rewrite V. now destruct (m off).
  - destruct W as (W1 & W2 & W3).
    assert (WD : wf_dslice (mkDslice (de_size d) (Some idx)
        (map (fun '((n, a) : nat * {k : kind & array k}) =>
           let 'existT _ k f := a in
           existT array k (fun off => match idx off with
                                      | TIdx m => if m =? n then f off else None
                                      | _ => None
                                      end)) (combine (seq 0 (length bufs)) bufs)))).
    { split; [|split]; cbn [ds_tidx ds_values ds_size].
      - intros off n. rewrite buf_at_mask. split.
        + intros I. rewrite I, Nat.eqb_refl. destruct (W3 _ _ I) as [v ->]. discriminate.
        + intros H. destruct (idx off) as [| |m]; [now elim H|now elim H|].
          destruct (Nat.eqb_spec m n) as [E|]; [now subst|now elim H].
      - replace (kinds _) with (kinds bufs); [congruence|]. unfold kinds.
        apply nth_error_ext. intros n. rewrite !nth_error_map, nth_error_combine_seq.
        destruct (nth_error bufs n) as [[k f]|]; reflexivity.
      - intros off n G. rewrite buf_at_mask. destruct (idx off) as [| |m] eqn:I; auto.
        destruct (Nat.eqb_spec m n) as [->|]; auto. apply (Q off); auto.
        unfold dense_at. now rewrite D, I. }
    split; [exact WD|]. split; [reflexivity|].
    intros off. rewrite (ro_at_tidx _ idx WD eq_refl). unfold dense_at. rewrite D. cbn [ds_values].
    destruct (idx off) as [| |m] eqn:I; auto. rewrite buf_at_mask, I, Nat.eqb_refl. reflexivity.
  - destruct W as (W & NE & SZ). split; [exact W|]. split; [exact SZ|]. intros off. unfold dense_at. now rewrite D.
Qed.

(** *** Lookups into a builder *)
Lemma fill_fold (off : N) t (g : nat -> entry -> entry) (bufs : list {k : kind & array k}) m : t = TIdx m ->
  forall cur s, m < s ->
  fold_left (fun cur '((n, a) : nat * {k : kind & array k}) =>
        match t with
        | TIdx m => if m =? n then insert_if_not_set cur (array_at a off) else cur
        | _ => g n cur
        end) (combine (seq s (length bufs)) bufs) cur = cur.
Proof.
  intros ->. induction bufs as [|a l IH]; intros cur s H; cbn; auto.
  destruct (Nat.eqb_spec m s); [lia|]. apply IH. lia.
Qed.
Lemma fill_fold_at (off : N) t (g : nat -> entry -> entry) m : t = TIdx m ->
  forall bufs cur s v, s <= m -> buf_at bufs (m - s) off = Some v ->
  fold_left (fun cur '((n, a) : nat * {k : kind & array k}) =>
        match t with
        | TIdx m => if m =? n then insert_if_not_set cur (array_at a off) else cur
        | _ => g n cur
        end) (combine (seq s (length bufs)) bufs) cur = insert_if_not_set cur (Some v).
Proof.
  intros ->. induction bufs as [|a l IH]; intros cur s v L B; cbn.
  - unfold buf_at in B. now destruct (m - s).
  - destruct (Nat.eqb_spec m s) as [->|NE].
    + rewrite Nat.sub_diag in B. cbn in B. rewrite B. apply (fill_fold off (TIdx s) g l s); auto.
    + apply IH; [lia|]. replace (m - s) with (S (m - S s)) in B by lia. exact B.
Qed.
Lemma dense_fill_ok d o cur : wf_dense d -> contains (de_alloc d) o = true ->
  dense_fill d o cur = match cur with Some _ => cur | None => dense_get d o end.
Proof.
  intros W C. unfold dense_fill, dense_get, dense_at, wf_dense in *. rewrite C. cbn [negb].
  destruct (de_data d) as [k vals mask|types idx bufs|s] eqn:D.
  - destruct (vals (offset o)) as [v|] eqn:V.
    + rewrite (W _ _ V). now destruct cur.
    + destruct (mask_at mask (offset o)); now destruct cur.
  - destruct W as (W1 & W2 & W3). destruct (idx (offset o)) as [| |m] eqn:I.
    + assert (E : forall l : list (nat * {k : kind & array k}), fold_left (fun cur '(_, _) => cur) l cur = cur).
      { induction l as [|[? ?] l IH]; cbn; auto. }
      rewrite E. now destruct cur.
    + assert (E : forall (l : list (nat * {k : kind & array k})) c, fold_left (fun cur '(_, _) => cur) l c = c :> entry).
      { induction l as [|[? ?] l IH]; cbn; auto. }
      rewrite E. now destruct cur.
    + destruct (W3 _ _ I) as [v B]. rewrite B.
      etransitivity; [apply (fill_fold_at (offset o) (TIdx m) (fun _ c => c) m eq_refl bufs cur 0 v); [lia|now rewrite Nat.sub_0_r]|].
      now destruct cur.
  - destruct W as (W & NE & SZ). destruct (ds_tidx s) as [t|] eqn:E.
    + pose proof (ro_at_tidx s t W E (offset o)) as R. destruct W as (T & ND & Q). rewrite E in T.
      destruct (ds_values s) as [|a1 [|a2 r]] eqn:S; [congruence| |].
      * rewrite R. destruct (t (offset o)) as [| |n] eqn:X.
        -- now destruct cur.
        -- assert (array_at a1 (offset o) = None) as ->; [|now destruct cur].
           destruct (array_at a1 (offset o)) eqn:Y; auto. exfalso.
           assert (t (offset o) = TIdx 0); [|congruence]. apply T. unfold buf_at. cbn. congruence.
        -- assert (n = 0) as ->.
           { destruct n as [|n]; auto. apply T in X. exfalso. apply X. unfold buf_at. cbn. now destruct n. }
           unfold buf_at. cbn. now destruct cur.
      * rewrite <- S in *. clear S a1 a2 r. rewrite R. destruct (t (offset o)) as [| |m] eqn:X.
        -- assert (G : forall l : list (nat * {k : kind & array k}), fold_left (fun cur '(_, _) => cur) l cur = cur).
           { induction l as [|[? ?] l IH]; cbn; auto. }
           rewrite G. now destruct cur.
        -- destruct (ds_values s) as [|a l]; [congruence|]. cbn [length seq combine fold_left].
           assert (G : forall (l : list (nat * {k : kind & array k})) x,
              fold_left (fun cur '(_, _) => insert_if_not_set cur None) l (Some x) = Some x).
           { induction l0 as [|[? ?] l0 IH]; cbn; auto. }
           destruct cur; cbn [insert_if_not_set]; now rewrite G.
        -- pose proof (proj1 (T _ _) X) as B. destruct (buf_at (ds_values s) m (offset o)) as [v|] eqn:B1; [|congruence].
           etransitivity; [apply (fill_fold_at (offset o) (TIdx m) (fun _ c => c) m eq_refl (ds_values s) cur 0 v); [lia|now rewrite Nat.sub_0_r]|].
           now destruct cur.
    + destruct W as (T & _). rewrite E in T. destruct T as [[k f] T]. rewrite T.
      rewrite (ro_at_single s k f T). rewrite E. cbn. destruct (f (offset o)); now destruct cur.
Qed.
Lemma dense_fill_out d o cur : contains (de_alloc d) o = false -> dense_fill d o cur = cur.
Proof. intros C. unfold dense_fill. now rewrite C. Qed.
Definition known (e : entry) : ditem := match e with Some x => x | None => None end.
Lemma dense_get_plain_ok check d o : wf_dense d ->
  (contains (de_alloc d) o = true -> dense_get_plain check d o = known (dense_get d o)) /\
  (check = true -> contains (de_alloc d) o = false -> dense_get_plain check d o = None).
Proof.
  intros W.
  assert (F : (contains (de_alloc d) o = true -> match dense_fill d o None with Some x => x | None => None end = known (dense_get d o)) /\
     (contains (de_alloc d) o = false -> match dense_fill d o None with Some x => x | None => None end = None)).
  { split; intros C; [now rewrite dense_fill_ok by auto|now rewrite dense_fill_out]. }
  destruct F as [F1 F2].
  unfold dense_get_plain. destruct (de_data d) as [k vals mask|types idx bufs|s] eqn:D.
  - split.
    + intros C. rewrite C, andb_false_r. unfold dense_get, dense_at. rewrite D.
      destruct (vals (offset o)); auto. now destruct (mask_at mask (offset o)).
    + intros -> C. now rewrite C.
  - split; auto.
  - destruct (ds_values s) as [|[k f] [|a2 r]] eqn:S; [split; auto| |split; auto].
    split.
    + intros C. rewrite C, andb_false_r. unfold dense_get, dense_at. rewrite D.
      rewrite (ro_at_single s k f S). cbn. destruct (f (offset o)); auto.
      destruct (ds_tidx s) as [t|]; auto. now destruct (t (offset o)).
    + intros -> C. now rewrite C.
Qed.

(** *** Merging *)
Definition found (v : ditem) : entry := match v with Some x => Some (Some x) | None => None end.
Definition conflicts (p : policy) (this other : entry) : bool :=
  match p with RaiseOnConflict => clash strict_differ this other | _ => false end.

Lemma combine_none {A} p (e : option A) : combine_entries p e None = e.
Proof. reflexivity. Qed.
Lemma conflicts_none p e : conflicts p e None = false.
Proof. destruct p, e; reflexivity. Qed.

Definition multi_rel (types : list kind) (ti : nat) (k : kind)
    (st : (N -> tidx) * list {k : kind & array k} * bool) (v : view) (e : bool) : Prop :=
  let '(idx, bufs, err) := st in
  wf_multi types idx bufs /\ nth_error (kinds bufs) ti = Some k /\
  (forall off, multi_at idx bufs off = v off) /\ err = e.

Lemma kind_index_unique types n m (k : kind) : NoDup types -> nth_error types n = Some k -> nth_error types m = Some k -> n = m.
Proof.
  intros ND E1 E2. apply (NoDup_nth_error types); auto.
  - apply nth_error_Some. congruence.
  - congruence.
Qed.
Lemma buf_at_kind bufs n off v k : nth_error (kinds bufs) n = Some k -> buf_at bufs n off = Some v -> projT1 v = k.
Proof.
  rewrite nth_error_kinds. unfold buf_at. destruct (nth_error bufs n) as [[k' f]|]; [|discriminate].
  cbn. intros [= ->]. destruct (f off); [|discriminate]. now intros [= <-].
Qed.

Lemma merge_array_ok p size k (f : array k) types idx bufs err types' idx' bufs' err' :
  wf_multi types idx bufs ->
  (forall off, (size <= off)%N -> f off = None) ->
  merge_array p size k f types idx bufs err = (types', idx', bufs', err') ->
  wf_multi types' idx' bufs' /\
  (forall off, multi_at idx' bufs' off = combine_entries p (multi_at idx bufs off) (found (item_of_opt k (f off)))) /\
  err' = err || existsb (fun off => conflicts p (multi_at idx bufs off) (found (item_of_opt k (f off)))) (below size).
Proof.
  intros W Q. unfold merge_array. destruct (get_or_add_typeidx types k) as [ti types1] eqn:G.
  destruct (add_type_ok _ _ _ _ _ _ W G) as (W1 & K & V1).
  set (step := fun '(idx, bufs, err) off => _).
  pose proof (fold_point (multi_rel types1 ti k) step
    (fun off cur => combine_entries p cur (found (item_of_opt k (f off))))
    (fun off cur => conflicts p cur (found (item_of_opt k (f off))))) as FP.
  assert (H1 : forall st v w e, (forall off, v off = w off) -> multi_rel types1 ti k st v e -> multi_rel types1 ti k st w e).
  { intros [[i b] er] v w e E (A & B & C & D). split; [auto|]. split; [auto|]. split; [|auto]. intros off. now rewrite C. }
  specialize (FP H1 (below size) (NoDup_below size)).
  assert (H2 : forall st v e off, In off (below size) -> multi_rel types1 ti k st v e ->
     multi_rel types1 ti k (step st off) (fupd v off (combine_entries p (v off) (found (item_of_opt k (f off)))))
       (e || conflicts p (v off) (found (item_of_opt k (f off))))).
  { intros [[i b] er] v e off _ (A & B & C & D). unfold step. destruct (f off) as [x|] eqn:F; cbn [item_of_opt found].
    2: { cbn [combine_entries]. rewrite conflicts_none, orb_false_r. split; [auto|]. split; [auto|]. split; [|auto].
         intros off'. unfold fupd. destruct (N.eqb_spec off' off) as [->|]; apply C. }
    change (found (item_of_opt k (Some x))) with (Some (Some (val k x)) : entry).
    assert (Take : multi_rel types1 ti k (fupd i off (TIdx ti), write_buf b ti k off x, er)
        (fupd v off (Some (Some (val k x)))) e).
    { destruct (multi_write_ok _ _ _ ti k off x A B) as (A' & V). split; [exact A'|].
      split; [now rewrite kinds_write|]. split; [|auto]. intros off'. rewrite V. unfold write, fupd.
      destruct (off' =? off)%N; auto. }
    assert (Keep : forall e', multi_rel types1 ti k (i, b, e') (fupd v off (v off)) e').
    { intros e'. split; [exact A|]. split; [auto|]. split; [|auto]. intros off'. rewrite C. unfold fupd.
      destruct (N.eqb_spec off' off) as [->|]; auto. }
    pose proof (C off) as Co. unfold multi_at in Co. destruct A as (A1 & A2 & A3).
    destruct p; cbn [conflicts].
    - destruct (i off) as [| |m] eqn:I.
      + assert (E1 : combine_entries RaiseOnConflict (v off) (Some (Some (val k x))) = Some (Some (val k x))) by now rewrite <- Co.
        assert (E2 : clash strict_differ (v off) (Some (Some (val k x))) = false) by now rewrite <- Co.
        rewrite E1, E2, orb_false_r. exact Take.
      + assert (E1 : combine_entries RaiseOnConflict (v off) (Some (Some (val k x))) = v off) by now rewrite <- Co.
        assert (E2 : clash strict_differ (v off) (Some (Some (val k x))) = true) by now rewrite <- Co.
        rewrite E1, E2, orb_true_r. apply Keep.
      + destruct (A3 _ _ I) as [w B1]. rewrite B1 in Co. rewrite B1.
        replace (combine_entries RaiseOnConflict (v off) (Some (Some (val k x)))) with (v off) by (now rewrite <- Co).
        replace (er || negb (m =? ti) ||
           match as_kind k w with Some w0 => cval_differ k w0 x | None => true end)
          with (e || clash strict_differ (v off) (Some (Some (val k x)))); [apply Keep|].
        rewrite <- Co, D, <- orb_assoc. f_equal. cbn [clash]. unfold strict_differ.
        destruct w as [kw w]. destruct (Nat.eqb_spec m ti) as [->|NE]; cbn [negb orb].
        * assert (kw = k) by (apply (buf_at_kind b ti off (existT _ kw w) k); auto). subst kw.
          change (existT cval k w) with (val k w). rewrite !as_kind_val. reflexivity.
        * assert (kw <> k).
          { intros ->. apply NE. apply (kind_index_unique types1 m ti k); auto.
            - rewrite A1. destruct (nth_error (kinds b) m) as [km|] eqn:E.
              + f_equal. symmetry. now apply (buf_at_kind b m off (existT _ k w) km).
              + exfalso. rewrite nth_error_kinds in E. unfold buf_at in B1. now destruct (nth_error b m).
            - now rewrite A1. }
          rewrite as_kind_other by auto. reflexivity.
    - rewrite orb_false_r. replace (combine_entries Overwrite (v off) _) with (Some (Some (val k x))); [exact Take|].
      now destruct (v off).
    - rewrite orb_false_r. destruct (i off) as [| |m] eqn:I.
      + assert (E1 : combine_entries KeepOriginal (v off) (Some (Some (val k x))) = Some (Some (val k x))) by now rewrite <- Co.
        rewrite E1. exact Take.
      + assert (E1 : combine_entries KeepOriginal (v off) (Some (Some (val k x))) = v off) by now rewrite <- Co.
        rewrite E1, D. apply Keep.
      + assert (E1 : combine_entries KeepOriginal (v off) (Some (Some (val k x))) = v off) by now rewrite <- Co.
        rewrite E1, D. apply Keep. }
  specialize (FP H2 (idx, add_buf ti k bufs, err) (multi_at idx bufs) err).
  assert (H3 : multi_rel types1 ti k (idx, add_buf ti k bufs, err) (multi_at idx bufs) err).
  { split; [exact W1|]. split; [exact K|]. split; [exact V1|reflexivity]. }
  specialize (FP H3).
  destruct (fold_left step (below size) (idx, add_buf ti k bufs, err)) as [[idx2 bufs2] err2].
  intros E. injection E as <- <- <- <-. destruct FP as (A & B & C & D).
  split; [exact A|]. split; [|exact D].
  intros off. rewrite C. destruct (memN off (below size)) eqn:M; auto.
  rewrite Q; [reflexivity|]. destruct (N.le_gt_cases size off) as [|Lt]; auto.
  apply in_below in Lt. apply memN_spec in Lt. congruence.
Qed.

(** The arrays of a slice, one after another, when at most one has a value at an offset *)
Definition first_at (arrays : list {k : kind & array k}) (off : N) : ditem :=
  fold_right (fun a r => match array_at a off with Some x => Some x | None => r end) None arrays.
Definition exclusive (arrays : list {k : kind & array k}) : Prop :=
  forall off n m, buf_at arrays n off <> None -> buf_at arrays m off <> None -> n = m.
Lemma first_at_none arrays off : (forall n, buf_at arrays n off = None) -> first_at arrays off = None.
Proof.
  induction arrays as [|a l IH]; intros H; cbn; auto.
  pose proof (H 0) as H0. unfold buf_at in H0. cbn in H0. rewrite H0. apply IH. intros n. apply (H (S n)).
Qed.
Lemma first_at_some arrays n off : exclusive arrays -> buf_at arrays n off <> None -> first_at arrays off = buf_at arrays n off.
Proof.
  revert n. induction arrays as [|a l IH]; intros n U H.
  - exfalso. apply H. unfold buf_at. now destruct n.
  - cbn. destruct (array_at a off) as [x|] eqn:E.
    + assert (n = 0) as ->; [|unfold buf_at; cbn; now rewrite E].
      apply (U off); auto. unfold buf_at. cbn. congruence.
    + destruct n as [|n]; [exfalso; apply H; unfold buf_at; cbn; auto|].
      apply IH; auto. intros off' i j Hi Hj. specialize (U off' (S i) (S j) Hi Hj). lia.
Qed.
Lemma existsb_orb {A} (f g : A -> bool) l : existsb f l || existsb g l = existsb (fun x => f x || g x) l.
Proof. induction l as [|x l IH]; cbn; auto. rewrite <- IH. destruct (f x), (g x), (existsb f l); reflexivity. Qed.
Lemma existsb_ext_in {A} (f g : A -> bool) l : (forall x, In x l -> f x = g x) -> existsb f l = existsb g l.
Proof.
  induction l as [|x l IH]; cbn; intros H; auto. rewrite H by auto. f_equal. apply IH. auto.
Qed.
Lemma existsb_false {A} (f : A -> bool) l : (forall x, In x l -> f x = false) -> existsb f l = false.
Proof. induction l as [|x l IH]; cbn; intros H; auto. rewrite H by auto. cbn. apply IH. auto. Qed.

Lemma merge_arrays_ok p size : forall arrays types idx bufs err types' idx' bufs' err',
  wf_multi types idx bufs ->
  (forall n off, (size <= off)%N -> buf_at arrays n off = None) ->
  exclusive arrays ->
  fold_left (fun '(types, idx, bufs, err) (a : {k : kind & array k}) =>
      let 'existT _ k f := a in merge_array p size k f types idx bufs err)
      arrays (types, idx, bufs, err) = (types', idx', bufs', err') ->
  wf_multi types' idx' bufs' /\
  (forall off, multi_at idx' bufs' off = combine_entries p (multi_at idx bufs off) (found (first_at arrays off))) /\
  err' = err || existsb (fun off => conflicts p (multi_at idx bufs off) (found (first_at arrays off))) (below size).
Proof.
  induction arrays as [|a arrays IH]; intros types idx bufs err types' idx' bufs' err' W Q U; cbn [fold_left].
  - intros E. injection E as <- <- <- <-. split; [auto|]. split; [auto|].
    rewrite existsb_false; [now rewrite orb_false_r|]. intros off _. apply conflicts_none.
  - destruct (let 'existT _ k f := a in merge_array p size k f types idx bufs err)
      as [[[types1 idx1] bufs1] err1] eqn:M.
    assert (ABC : wf_multi types1 idx1 bufs1 /\
      (forall off, multi_at idx1 bufs1 off = combine_entries p (multi_at idx bufs off) (found (array_at a off))) /\
      err1 = err || existsb (fun off => conflicts p (multi_at idx bufs off) (found (array_at a off))) (below size)).
    { destruct a as [k f].
      assert (Q0 : forall off, (size <= off)%N -> f off = None).
      { intros off G. specialize (Q 0 off G). unfold buf_at in Q. cbn in Q. now destruct (f off). }
      exact (merge_array_ok _ _ _ _ _ _ _ _ _ _ _ _ W Q0 M). }
    destruct ABC as (A & B & C). clear M.
    intros E.
    assert (U1 : exclusive arrays).
    { intros off n m Hn Hm. specialize (U off (S n) (S m) Hn Hm). lia. }
    destruct (IH types1 idx1 bufs1 err1 types' idx' bufs' err' A (fun n => Q (S n)) U1 E) as (A2 & B2 & C2).
    assert (P : forall off, match array_at a off with
        | Some x => first_at (a :: arrays) off = Some x /\ first_at arrays off = None
        | None => first_at (a :: arrays) off = first_at arrays off
        end).
    { intros off. destruct (array_at a off) as [x|] eqn:F.
      - split; [cbn; now rewrite F|]. apply first_at_none. intros n.
        destruct (buf_at arrays n off) eqn:X; auto. exfalso.
        assert (0 = S n); [|lia]. apply (U off).
        + unfold buf_at. cbn. now rewrite F.
        + unfold buf_at in *. cbn. congruence.
      - cbn. now rewrite F. }
    split; [exact A2|]. split.
    + intros off. rewrite B2, B. specialize (P off). destruct (array_at a off) as [x|].
      * destruct P as [P1 P2]. rewrite P1, P2. reflexivity.
      * rewrite P. reflexivity.
    + rewrite C2, C, <- orb_assoc, existsb_orb. f_equal. apply existsb_ext_in. intros off _.
      rewrite B. specialize (P off). destruct (array_at a off) as [x|].
      * destruct P as [P1 P2]. rewrite P1, P2. cbn [found]. rewrite conflicts_none, orb_false_r. reflexivity.
      * rewrite P. cbn [found]. rewrite conflicts_none. reflexivity.
Qed.

(** The removed entries of the other source *)
Lemma merge_removed_ok p types bufs (removed : N -> bool) l : NoDup l -> forall idx err idx' err',
  wf_multi types idx bufs ->
  fold_left (fun st off => if removed off then
      let '(idx, err) := st in
      match p with
      | Overwrite => (fupd idx off TRemoved, err)
      | _ =>
          if negb (is_present_idx (idx off)) then (fupd idx off TRemoved, err)
          else (idx, err || match p with RaiseOnConflict => true | _ => false end)
      end else st) l (idx, err) = (idx', err') ->
  wf_multi types idx' bufs /\
  (forall off, multi_at idx' bufs off =
     if memN off l && removed off then combine_entries p (multi_at idx bufs off) (Some None) else multi_at idx bufs off) /\
  err' = err || existsb (fun off => removed off && conflicts p (multi_at idx bufs off) (Some None)) l.
Proof.
  intros ND idx err idx' err' W.
  set (R := fun (st : (N -> tidx) * bool) (v : view) e => let '(i, er) := st in
     wf_multi types i bufs /\ (forall off, multi_at i bufs off = v off) /\ er = e).
  set (step := fun st off => _).
  pose proof (fold_point R step
    (fun off cur => if removed off then combine_entries p cur (Some None) else cur)
    (fun off cur => removed off && conflicts p cur (Some None))) as FP.
  assert (H1 : forall st v w e, (forall off, v off = w off) -> R st v e -> R st w e).
  { intros [i er] v w e E (A & B & C). split; [auto|]. split; [|auto]. intros off. now rewrite B. }
  specialize (FP H1 l ND).
  assert (H2 : forall st v e off, In off l -> R st v e ->
     R (step st off) (fupd v off (if removed off then combine_entries p (v off) (Some None) else v off))
       (e || (removed off && conflicts p (v off) (Some None)))).
  { intros [i er] v e off _ (A & B & C). unfold step.
    assert (Keep : forall e', R (i, e') (fupd v off (v off)) e').
    { intros e'. split; [auto|]. split; [|auto]. intros off'. unfold fupd. destruct (N.eqb_spec off' off) as [->|]; auto. }
    assert (Take : R (fupd i off TRemoved, er) (fupd v off (Some None)) e).
    { destruct (multi_remove_ok _ _ _ off A) as (A' & V). split; [auto|]. split; [|auto].
      intros off'. rewrite V. unfold write, fupd. now destruct (off' =? off)%N. }
    destruct (removed off); [|cbn [andb]; rewrite orb_false_r, C; apply Keep].
    cbn [andb]. pose proof (B off) as Bo. unfold multi_at in Bo. destruct A as (A1 & A2 & A3).
    destruct p; cbn [conflicts].
    - destruct (i off) as [| |m] eqn:I; cbn [is_present_idx negb].
      + assert (E1 : combine_entries RaiseOnConflict (v off) (Some None) = Some None) by now rewrite <- Bo.
        assert (E2 : clash strict_differ (v off) (Some None) = false) by now rewrite <- Bo.
        rewrite E1, E2, orb_false_r. exact Take.
      + assert (E1 : combine_entries RaiseOnConflict (v off) (Some None) = Some None) by now rewrite <- Bo.
        assert (E2 : clash strict_differ (v off) (Some None) = false) by now rewrite <- Bo.
        rewrite E1, E2, orb_false_r. exact Take.
      + destruct (A3 _ _ I) as [w B1]. rewrite B1 in Bo.
        assert (E1 : combine_entries RaiseOnConflict (v off) (Some None) = v off) by now rewrite <- Bo.
        assert (E2 : clash strict_differ (v off) (Some None) = true).
        { rewrite <- Bo. destruct w as [kw w]. reflexivity. }
        rewrite E1, E2, !orb_true_r. apply Keep.
    - rewrite orb_false_r.
      assert (E1 : combine_entries Overwrite (v off) (Some None) = Some None) by now destruct (v off).
      rewrite E1. exact Take.
    - rewrite !orb_false_r. destruct (i off) as [| |m] eqn:I; cbn [is_present_idx negb].
      + assert (E1 : combine_entries KeepOriginal (v off) (Some None) = Some None) by now rewrite <- Bo.
        rewrite E1. exact Take.
      + assert (E1 : combine_entries KeepOriginal (v off) (Some None) = Some None) by now rewrite <- Bo.
        rewrite E1. exact Take.
      + assert (E1 : combine_entries KeepOriginal (v off) (Some None) = v off) by now rewrite <- Bo.
        rewrite E1, C. apply Keep. }
  specialize (FP H2 (idx, err) (multi_at idx bufs) err).
  assert (H3 : R (idx, err) (multi_at idx bufs) err) by (split; auto).
  specialize (FP H3). intros E. rewrite E in FP. destruct FP as (A & B & C).
  split; [exact A|]. split; [|exact C]. intros off. rewrite B.
  destruct (memN off l); cbn [andb]; auto.
Qed.

Lemma wf_dslice_exclusive s : wf_dslice s -> exclusive (ds_values s).
Proof.
  intros (T & _) off n m Hn Hm. destruct (ds_tidx s) as [t|].
  - apply T in Hn, Hm. congruence.
  - destruct T as [a T]. rewrite T in Hn, Hm. unfold buf_at in *. destruct n as [|n]; [|now destruct n].
    destruct m as [|m]; auto. now destruct m.
Qed.
(** What a slice says, in two parts *)
Definition removed_in (s : dslice) (off : N) : bool :=
  match ro_at s off with Some None => true | _ => false end.
Lemma ro_at_parts s off : wf_dslice s ->
  ro_at s off = match first_at (ds_values s) off with
                | Some x => Some (Some x)
                | None => if removed_in s off then Some None else None
                end /\
  (removed_in s off = true -> first_at (ds_values s) off = None).
Proof.
  intros W. pose proof (wf_dslice_exclusive s W) as U. unfold removed_in.
  destruct (ds_tidx s) as [t|] eqn:E.
  - rewrite (ro_at_tidx s t W E). destruct W as (T & _). rewrite E in T.
    assert (Z : match t off with TIdx n => True | _ => first_at (ds_values s) off = None end).
    { destruct (t off) as [| |n] eqn:X; auto; apply first_at_none; intros n;
        destruct (buf_at (ds_values s) n off) eqn:Y; auto; exfalso;
        assert (t off = TIdx n) by (apply T; congruence); congruence. }
    destruct (t off) as [| |n] eqn:X.
    + rewrite Z. auto.
    + rewrite Z. auto.
    + apply T in X. rewrite (first_at_some _ _ _ U X).
      destruct (buf_at (ds_values s) n off); [|congruence]. split; auto. discriminate.
  - destruct W as (T & _). rewrite E in T. destruct T as [[k f] T].
    rewrite (ro_at_single s k f T). rewrite E, T. cbn. destruct (f off); cbn; auto. split; auto. discriminate.
Qed.

Lemma multi_merge_ok p size s types idx bufs x err : wf_dslice s -> wf_multi types idx bufs ->
  (forall off, (size <= off)%N -> exists y, multi_at idx bufs off = y /\ (y = None \/ y = Some None)) ->
  (forall off y, (size <= off)%N -> ro_at s off = Some y -> y = None) ->
  multi_merge p size s types idx bufs = (x, err) ->
  exists types' idx' bufs', x = Multi types' idx' bufs' /\ wf_multi types' idx' bufs' /\
    (forall off, (off < N.min (ds_size s) size)%N ->
       multi_at idx' bufs' off = combine_entries p (multi_at idx bufs off) (ro_at s off)) /\
    (forall off, (N.min (ds_size s) size <= off)%N ->
       found (known (multi_at idx' bufs' off)) = found (known (multi_at idx bufs off))) /\
    err = existsb (fun off => conflicts p (multi_at idx bufs off) (ro_at s off)) (below (N.min (ds_size s) size)).
Proof.
  intros WS W Q Qs. unfold multi_merge.
  destruct (fold_left _ (ds_values s) _) as [[[types1 idx1] bufs1] err1] eqn:F.
  pose proof (wf_dslice_exclusive s WS) as U.
  assert (Qv : forall n off, (ds_size s <= off)%N -> buf_at (ds_values s) n off = None).
  { intros n off G. destruct WS as (_ & _ & H). now apply H. }
  destruct (merge_arrays_ok p (ds_size s) (ds_values s) types idx bufs false types1 idx1 bufs1 err1 W Qv U F) as (W1 & V1 & E1).
  clear F.
  assert (P := fun off => ro_at_parts s off WS).
  (* both loops over removed entries have this form *)
  assert (L : exists n, (N.min (ds_size s) size <= n)%N /\ (n <= ds_size s)%N /\ forall idx2 err2,
     match ds_tidx s with
     | Some t => fold_left (fun st off => match t off with TRemoved => (fun '(idx, err) off =>
            match p with
            | Overwrite => (fupd idx off TRemoved, err)
            | _ =>
                if negb (is_present_idx (idx off)) then (fupd idx off TRemoved, err)
                else (idx, err || match p with RaiseOnConflict => true | _ => false end)
            end) st off | _ => st end) (below (N.min (ds_size s) size)) (idx2, err2)
     | None =>
        match rev (ds_values s) with
        | existT _ k f :: _ =>
            fold_left (fun st off => match f off with Some _ => st | None => (fun '(idx, err) off =>
            match p with
            | Overwrite => (fupd idx off TRemoved, err)
            | _ =>
                if negb (is_present_idx (idx off)) then (fupd idx off TRemoved, err)
                else (idx, err || match p with RaiseOnConflict => true | _ => false end)
            end) st off end)
              (below (ds_size s)) (idx2, err2)
        | [] => (idx2, err2)
        end
     end = fold_left (fun st off => if removed_in s off then
      let '(idx, err) := st in
      match p with
      | Overwrite => (fupd idx off TRemoved, err)
      | _ =>
          if negb (is_present_idx (idx off)) then (fupd idx off TRemoved, err)
          else (idx, err || match p with RaiseOnConflict => true | _ => false end)
      end else st) (below n) (idx2, err2)).
  { destruct (ds_tidx s) as [t|] eqn:E.
    - exists (N.min (ds_size s) size). split; [lia|]. split; [lia|]. intros idx2 err2.
      generalize (idx2, err2). generalize (below (N.min (ds_size s) size)) as l.
      induction l as [|off l IH]; intros st; cbn [fold_left]; auto.
      rewrite IH. f_equal. unfold removed_in. rewrite (ro_at_tidx s t WS E).
      destruct (t off) as [| |n] eqn:X; [reflexivity|now destruct st|].
      destruct WS as (T & _). rewrite E in T. apply T in X.
      destruct (buf_at (ds_values s) n off); [reflexivity|congruence].
    - exists (ds_size s). split; [lia|]. split; [lia|]. intros idx2 err2.
      destruct WS as (T & _). rewrite E in T. destruct T as [[k f] T]. rewrite T. cbn [rev app].
      generalize (idx2, err2). generalize (below (ds_size s)) as l.
      induction l as [|off l IH]; intros st; cbn [fold_left]; auto.
      rewrite IH. f_equal. unfold removed_in. rewrite (ro_at_single s k f T), E. destruct st. now destruct (f off). }
  destruct L as (n & Ln1 & Ln2 & L). rewrite L.
  destruct (fold_left _ (below n) (idx1, err1)) as [idx2 err2] eqn:F2.
  destruct (merge_removed_ok p types1 bufs1 (removed_in s) (below n) (NoDup_below n) idx1 err1 idx2 err2 W1 F2) as (W2 & V2 & E2).
  clear F2 L. intros E. injection E as <- <-.
  exists types1, idx2, bufs1. split; [reflexivity|]. split; [exact W2|].
  assert (Mem : forall off, memN off (below n) = true <-> (off < n)%N).
  { intros off. rewrite memN_spec. apply in_below. }
  split; [|split].
  - intros off Lt. rewrite V2, V1. assert (M : memN off (below n) = true) by (apply Mem; lia). rewrite M. cbn [andb].
    destruct (P off) as [P1 P2]. rewrite P1. destruct (removed_in s off).
    + rewrite (P2 eq_refl). reflexivity.
    + destruct (first_at (ds_values s) off); reflexivity.
  - intros off G. rewrite V2, V1. destruct (P off) as [P1 P2].
    assert (Z : first_at (ds_values s) off = None).
    { destruct (first_at (ds_values s) off) as [y|] eqn:Y; auto. exfalso.
      destruct (N.le_gt_cases size off) as [Gs|Gs].
      - specialize (Qs off (Some y) Gs). rewrite P1 in Qs. specialize (Qs eq_refl). discriminate.
      - assert (Gd : (ds_size s <= off)%N) by lia.
        rewrite first_at_none in Y; [discriminate|]. intros m. now apply Qv. }
    rewrite Z. cbn [found]. rewrite combine_none.
    destruct (memN off (below n)) eqn:M; cbn [andb]; [|reflexivity].
    destruct (removed_in s off) eqn:Rm; [|reflexivity].
    apply Mem in M. assert (Gs : (size <= off)%N) by lia.
    destruct (Q off Gs) as (y & -> & [-> | ->]); [reflexivity|]. destruct p; reflexivity.
  - rewrite E2, E1. cbn [orb].
    assert (C : forall off, conflicts p (multi_at idx bufs off) (ro_at s off) =
       conflicts p (multi_at idx bufs off) (found (first_at (ds_values s) off))
       || (removed_in s off && conflicts p (multi_at idx1 bufs1 off) (Some None))).
    { intros off. destruct (P off) as [P1 P2]. rewrite V1, P1. destruct (removed_in s off).
      - rewrite (P2 eq_refl). cbn [found andb]. rewrite conflicts_none. reflexivity.
      - cbn [andb]. rewrite orb_false_r. now destruct (first_at (ds_values s) off). }
    (* nothing beyond the smaller size *)
    assert (Far : forall off, (N.min (ds_size s) size <= off)%N -> (off < ds_size s)%N ->
       conflicts p (multi_at idx bufs off) (found (first_at (ds_values s) off)) = false /\
       removed_in s off && conflicts p (multi_at idx1 bufs1 off) (Some None) = false).
    { intros off G G2. assert (Gs : (size <= off)%N) by lia.
      assert (CC : conflicts p (multi_at idx bufs off) (ro_at s off) = false).
      { destruct (ro_at s off) as [y|] eqn:Y; [|apply conflicts_none].
        rewrite (Qs off y Gs Y). destruct (Q off Gs) as (z & -> & [-> | ->]); destruct p; reflexivity. }
      rewrite C in CC. now apply orb_false_iff in CC. }
    assert (Cut : forall (g : N -> bool) m, (N.min (ds_size s) size <= m)%N -> (m <= ds_size s)%N ->
        (forall off, (N.min (ds_size s) size <= off)%N -> (off < ds_size s)%N -> g off = false) ->
        existsb g (below m) = existsb g (below (N.min (ds_size s) size))).
    { intros g m Lm1 Lm2 Hg. apply eq_true_iff_eq. rewrite !existsb_exists. split.
      - intros (off & I & Eg). apply in_below in I. exists off. split; auto. apply in_below.
        destruct (N.le_gt_cases (N.min (ds_size s) size) off) as [G|G]; auto.
        rewrite Hg in Eg; auto; [discriminate|lia].
      - intros (off & I & Eg). apply in_below in I. exists off. split; auto. apply in_below. lia. }
    rewrite (Cut _ (ds_size s)); [|lia|lia|intros off G1 G2; now apply Far].
    rewrite (Cut _ n); [|lia|lia|intros off G1 G2; now apply Far].
    rewrite existsb_orb. apply existsb_ext_in. intros off _. symmetry. apply C.
Qed.

Lemma typed_merge_ok p size s k (f : array k) vals mask x err : wf_dslice s -> ds_values s = [existT _ k f] ->
  wf_typed k vals mask ->
  typed_merge p size s k f vals mask = (x, err) ->
  exists vals' mask', x = Typed k vals' mask' /\ wf_typed k vals' mask' /\
    (forall off, (off < N.min (ds_size s) size)%N ->
       typed_at k vals' mask' off = combine_entries p (typed_at k vals mask off) (ro_at s off)) /\
    (forall off, (N.min (ds_size s) size <= off)%N -> typed_at k vals' mask' off = typed_at k vals mask off) /\
    err = existsb (fun off => conflicts p (typed_at k vals mask off) (ro_at s off)) (below (N.min (ds_size s) size)).
Proof.
  intros WS SV W. unfold typed_merge.
  set (R := fun (st : array k * option (N -> bool) * bool) (v : view) e => let '(va, ma, er) := st in
     wf_typed k va ma /\ (forall off, typed_at k va ma off = v off) /\ er = e).
  set (step := fun '(vals, mask, err) off => _).
  pose proof (fold_point R step
    (fun off cur => combine_entries p cur (ro_at s off))
    (fun off cur => conflicts p cur (ro_at s off))) as FP.
  assert (H1 : forall st v w e, (forall off, v off = w off) -> R st v e -> R st w e).
  { intros [[va ma] er] v w e E (A & B & C). split; [auto|]. split; [|auto]. intros off. now rewrite B. }
  specialize (FP H1 (below (N.min (ds_size s) size)) (NoDup_below _)).
  assert (RO : forall off, ro_at s off =
     if match ds_tidx s with None => true | Some t => match t off with TUnset => false | _ => true end end
     then Some (item_of_opt k (f off)) else None).
  { intros off. rewrite (ro_at_single s k f SV). destruct (ds_tidx s) as [t|] eqn:E.
    - destruct WS as (T & _). rewrite E in T. destruct (f off) as [v|] eqn:F.
      + assert (t off = TIdx 0) as ->; [|reflexivity]. apply T. unfold buf_at. rewrite SV. cbn. now rewrite F.
      + destruct (t off) as [| |n] eqn:X; auto. exfalso. apply T in X. apply X. unfold buf_at. rewrite SV.
        destruct n as [|n]; cbn; [now rewrite F|]. now destruct n.
    - now destruct (f off). }
  assert (H2 : forall st v e off, In off (below (N.min (ds_size s) size)) -> R st v e ->
     R (step st off) (fupd v off (combine_entries p (v off) (ro_at s off)))
       (e || conflicts p (v off) (ro_at s off))).
  { intros [[va ma] er] v e off _ (A & B & C). unfold step. rewrite RO.
    assert (Keep : forall e', R (va, ma, e') (fupd v off (v off)) e').
    { intros e'. split; [auto|]. split; [|auto]. intros off'. unfold fupd. destruct (N.eqb_spec off' off) as [->|]; auto. }
    assert (Put : R (fupd va off (f off), set_bit ma off, er) (fupd v off (Some (item_of_opt k (f off)))) e).
    { destruct (typed_put_ok k va ma off (f off) A) as (A' & V). split; [exact A'|]. split; [|auto].
      intros off'. rewrite V. unfold write, fupd. now destruct (off' =? off)%N. }
    destruct (match ds_tidx s with None => true | Some t => match t off with TUnset => false | _ => true end end); cbn [negb].
    2: { rewrite conflicts_none, orb_false_r, C. apply Keep. }
    pose proof (B off) as Bo. unfold typed_at in Bo.
    assert (Vo : v off = if mask_at ma off then Some (item_of_opt k (va off)) else None).
    { rewrite <- Bo. destruct (va off) as [w|] eqn:F; [now rewrite (A _ _ F)|]. reflexivity. }
    destruct p; cbn [conflicts].
    - destruct (mask_at ma off).
      + assert (E1 : combine_entries RaiseOnConflict (v off) (Some (item_of_opt k (f off))) = v off) by now rewrite Vo.
        assert (E2 : clash strict_differ (v off) (Some (item_of_opt k (f off))) = opt_differ k (va off) (f off)).
        { rewrite Vo. cbn [clash]. destruct (va off) as [a|], (f off) as [b|]; try reflexivity.
          change (strict_differ (Some (val k a)) (Some (val k b)) = cval_differ k a b).
          unfold strict_differ. unfold val at 1. now rewrite as_kind_val. }
        rewrite E1, E2, C. apply Keep.
      + assert (E1 : combine_entries RaiseOnConflict (v off) (Some (item_of_opt k (f off))) = Some (item_of_opt k (f off))) by now rewrite Vo.
        assert (E2 : clash strict_differ (v off) (Some (item_of_opt k (f off))) = false) by now rewrite Vo.
        rewrite E1, E2, orb_false_r. exact Put.
    - rewrite orb_false_r.
      assert (E1 : combine_entries Overwrite (v off) (Some (item_of_opt k (f off))) = Some (item_of_opt k (f off))) by now destruct (v off).
      rewrite E1. exact Put.
    - rewrite orb_false_r. destruct (mask_at ma off).
      + assert (E1 : combine_entries KeepOriginal (v off) (Some (item_of_opt k (f off))) = v off) by now rewrite Vo.
        rewrite E1, C. apply Keep.
      + assert (E1 : combine_entries KeepOriginal (v off) (Some (item_of_opt k (f off))) = Some (item_of_opt k (f off))) by now rewrite Vo.
        rewrite E1. exact Put. }
  specialize (FP H2 (vals, mask, false) (typed_at k vals mask) false).
  assert (H3 : R (vals, mask, false) (typed_at k vals mask) false) by (split; auto).
  specialize (FP H3).
  destruct (fold_left step (below (N.min (ds_size s) size)) (vals, mask, false)) as [[vals' mask'] err'] eqn:Fo.
  match type of FP with R ?x _ _ => replace x with (vals', mask', err') in FP by (symmetry; exact Fo) end.
  destruct FP as (A & B & C). intros E. injection E as <- <-. exists vals', mask'. split; [reflexivity|]. split; [exact A|].
  assert (Mem : forall off, memN off (below (N.min (ds_size s) size)) = true <-> (off < N.min (ds_size s) size)%N).
  { intros off. rewrite memN_spec. apply in_below. }
  split; [|split].
  - intros off Lt. apply Mem in Lt. rewrite B, Lt. reflexivity.
  - intros off G. rewrite B. destruct (memN off _) eqn:M; auto. apply Mem in M. lia.
  - exact C.
Qed.

Lemma dense_merge_ok p d s : wf_dense d -> is_mutable d = true -> wf_dslice s ->
  quiet (de_size d) (dense_at d) -> quiet (de_size d) (ro_at s) ->
  exists d' err, dense_merge p d s = Some (d', err) /\ wf_dense d' /\ is_mutable d' = true /\
    de_alloc d' = de_alloc d /\ de_size d' = de_size d /\
    (forall off, (off < N.min (ds_size s) (de_size d))%N ->
       dense_at d' off = combine_entries p (dense_at d off) (ro_at s off)) /\
    (forall off, (N.min (ds_size s) (de_size d) <= off)%N ->
       found (known (dense_at d' off)) = found (known (dense_at d off))) /\
    err = existsb (fun off => conflicts p (dense_at d off) (ro_at s off)) (below (N.min (ds_size s) (de_size d))).
Proof.
  intros W M WS Q Qs. unfold dense_merge, wf_dense, is_mutable in *.
  assert (Q' : forall off, (de_size d <= off)%N -> exists y, dense_at d off = y /\ (y = None \/ y = Some None)).
  { intros off G. exists (dense_at d off). split; auto. destruct (dense_at d off) as [y|] eqn:Y; auto.
    right. now rewrite (Q off y G Y). }
  destruct (de_data d) as [k vals mask|types idx bufs|s0] eqn:D; [| |discriminate].
  - assert (Dv : forall off, dense_at d off = typed_at k vals mask off) by (intros off; unfold dense_at; now rewrite D).
    assert (Multi_case : exists d' err,
      (let '(types, idx, bufs) := create_multitype k vals mask in
       (fun '(x, err) => Some (mkDense (de_alloc d) (de_size d) x, err))
         (multi_merge p (de_size d) s types idx bufs)) = Some (d', err) /\
      match de_data d' with
      | Typed k vals mask => forall off v, vals off = Some v -> mask_at mask off = true
      | Multi types idx bufs => wf_multi types idx bufs
      | ReadOnly s => wf_dslice s /\ ds_values s <> [] /\ ds_size s = de_size d'
      end /\ match de_data d' with ReadOnly _ => false | _ => true end = true /\
      de_alloc d' = de_alloc d /\ de_size d' = de_size d /\
      (forall off, (off < N.min (ds_size s) (de_size d))%N ->
         dense_at d' off = combine_entries p (dense_at d off) (ro_at s off)) /\
      (forall off, (N.min (ds_size s) (de_size d) <= off)%N ->
         found (known (dense_at d' off)) = found (known (dense_at d off))) /\
      err = existsb (fun off => conflicts p (dense_at d off) (ro_at s off)) (below (N.min (ds_size s) (de_size d)))).
    { pose proof (create_multitype_ok k vals mask W) as C.
      destruct (create_multitype k vals mask) as [[types idx] bufs]. destruct C as [C1 C2].
      assert (C3 : forall off, multi_at idx bufs off = dense_at d off) by (intros off; rewrite Dv; apply C2).
      destruct (multi_merge p (de_size d) s types idx bufs) as [x err] eqn:E.
      destruct (multi_merge_ok p (de_size d) s types idx bufs x err WS C1) as (t' & i' & b' & -> & W2 & V1 & V2 & Er); auto.
      { intros off G. rewrite C3. auto. }
      do 2 eexists. split; [reflexivity|]. cbn [de_data de_alloc de_size].
      split; [exact W2|]. split; [auto|]. split; [auto|]. split; [auto|].
      split; [|split].
      - intros off Lt. rewrite <- C3. exact (V1 off Lt).
      - intros off G. rewrite <- C3. exact (V2 off G).
      - rewrite Er. apply existsb_ext_in. intros off _. now rewrite C3. }
    destruct (ds_values s) as [|[k' f] [|a r]] eqn:S; [exact Multi_case| |exact Multi_case].
    destruct (kind_eq_dec k' k) as [e|n]; [|exact Multi_case]. destruct e. cbn [eq_rect].
    destruct (typed_merge p (de_size d) s k' f vals mask) as [x err] eqn:E.
    destruct (typed_merge_ok p (de_size d) s k' f vals mask x err WS S W E) as (v' & m' & -> & W2 & V1 & V2 & Er).
    do 2 eexists. split; [reflexivity|]. cbn [de_data de_alloc de_size].
    split; [exact W2|]. split; [auto|]. split; [auto|]. split; [auto|].
    split; [|split].
    + intros off Lt. rewrite Dv. exact (V1 off Lt).
    + intros off G. rewrite Dv. f_equal. f_equal. exact (V2 off G).
    + rewrite Er. apply existsb_ext_in. intros off _. now rewrite Dv.
  - assert (Dv : forall off, dense_at d off = multi_at idx bufs off) by (intros off; unfold dense_at; now rewrite D).
    destruct (multi_merge p (de_size d) s types idx bufs) as [x err] eqn:E.
    destruct (multi_merge_ok p (de_size d) s types idx bufs x err WS W) as (t' & i' & b' & -> & W2 & V1 & V2 & Er); auto.
    { intros off G. rewrite <- Dv. auto. }
    do 2 eexists. split; [reflexivity|]. cbn [de_data de_alloc de_size].
    split; [exact W2|]. split; [auto|]. split; [auto|]. split; [auto|].
    split; [|split].
    + intros off Lt. rewrite Dv. exact (V1 off Lt).
    + intros off G. rewrite Dv. exact (V2 off G).
    + rewrite Er. apply existsb_ext_in. intros off _. now rewrite Dv.
Qed.
