(** Proofs about layered dicts. *)
From Coq Require Import NArith ZArith List Bool Arith Lia Permutation Eqdep_dec Sorted.
From Verif Require Import ObjectIdModel SchemaModel ItemModel DictModel DictSpec.
Import ListNotations.
Local Open Scope nat_scope.

Lemma value_eqb_spec a b : reflect (a = b) (value_eqb a b).
Proof.
  destruct a as [ka va], b as [kb vb]. unfold value_eqb. destruct (kind_eq_dec ka kb) as [e|n].
  - subst kb. cbn [eq_rect]. destruct (cval_eq_dec ka va vb) as [->|n]; constructor; [reflexivity|].
    intros H. apply n. apply inj_pair2_eq_dec in H; [exact H | apply kind_eq_dec].
  - constructor. intros H. injection H as H1 _. contradiction.
Qed.
Lemma value_eqb_refl a : value_eqb a a = true.
Proof. destruct (value_eqb_spec a a); auto. Qed.
Lemma value_eqb_sym a b : value_eqb a b = value_eqb b a.
Proof. destruct (value_eqb_spec a b), (value_eqb_spec b a); subst; auto; congruence. Qed.

(** ** Maps *)
Definition keys_ok (m : dmap) : Prop := NoDup (map fst m).
Lemma m_find_In m k v : keys_ok m -> (m_find m k = Some v <-> In (k, v) m).
Proof.
  unfold keys_ok. induction m as [|[k' v'] m IH]; cbn; intros N.
  - split; [discriminate|tauto].
  - inversion N as [|? ? N1 N2]; subst. destruct (value_eqb_spec k' k) as [->|D].
    + split.
      * intros H. injection H as ->. auto.
      * intros [H|H]; [congruence|]. exfalso. apply N1. apply in_map_iff. exists (k, v). auto.
    + rewrite (IH N2). split; [auto|]. intros [H|H]; [congruence|auto].
Qed.
Lemma m_find_None m k : m_find m k = None <-> ~ In k (map fst m).
Proof.
  induction m as [|[k' v'] m IH]; cbn; [tauto|]. destruct (value_eqb_spec k' k) as [->|D].
  - split; [discriminate|]. intros H. exfalso. apply H. auto.
  - rewrite IH. tauto.
Qed.
Lemma m_find_set m k v j : m_find (m_set m k v) j = if value_eqb k j then Some v else m_find m j.
Proof.
  induction m as [|[k' v'] m IH]; cbn [m_set m_find]; [reflexivity|].
  destruct (value_eqb_spec k' k) as [->|D]; cbn [m_find].
  - destruct (value_eqb k j); reflexivity.
  - rewrite IH. destruct (value_eqb_spec k' j) as [->|]; [|reflexivity].
    destruct (value_eqb_spec k j); [congruence|reflexivity].
Qed.
Lemma m_set_keys m k v : forall j, In j (map fst (m_set m k v)) <-> j = k \/ In j (map fst m).
Proof.
  intros j. generalize (m_find_None (m_set m k v) j), (m_find_None m j). rewrite m_find_set.
  destruct (value_eqb_spec k j) as [->|D].
  - intros H _. split; auto. intros _.
    destruct (In_dec (fun a b => reflect_dec _ _ (value_eqb_spec a b)) j (map fst (m_set m j v))) as [I|I]; auto.
    apply H in I. discriminate.
  - intros H1 H2. split.
    + intros I. right.
      destruct (In_dec (fun a b => reflect_dec _ _ (value_eqb_spec a b)) j (map fst m)) as [J|J]; auto.
      apply H2 in J. rewrite J in H1. exfalso. apply H1; auto.
    + intros [E|I]; [congruence|].
      destruct (In_dec (fun a b => reflect_dec _ _ (value_eqb_spec a b)) j (map fst (m_set m k v))) as [J|J]; auto.
      apply H1 in J. exfalso. apply H2 in I; auto.
Qed.
Lemma m_set_ok m k v : keys_ok m -> keys_ok (m_set m k v).
Proof.
  unfold keys_ok. induction m as [|[k' v'] m IH]; cbn; intros N; [repeat constructor; auto|].
  inversion N as [|? ? N1 N2]; subst. destruct (value_eqb_spec k' k) as [->|D]; cbn; constructor; auto.
  rewrite m_set_keys. intros [E|I]; [congruence|auto].
Qed.

(** ** Chains *)
Fixpoint chain (d : dict) : list dict :=
  d :: match d with mkDict _ _ (Some p) => chain p | mkDict _ _ None => [] end.
Definition chain_opt (o : option dict) : list dict := match o with Some d => chain d | None => [] end.
Lemma chain_eq d : chain d = d :: chain_opt (d_parent d).
Proof. destruct d as [a m [p|]]; reflexivity. Qed.
Definition maps (l : list dict) : list dmap := map d_data l.
Fixpoint find_maps (ms : list dmap) (k : value) : option ditem :=
  match ms with
  | [] => None
  | m :: r => match m_find m k with Some v => Some v | None => find_maps r k end
  end.
Lemma find_maps_app a b k : find_maps (a ++ b) k = match find_maps a k with Some v => Some v | None => find_maps b k end.
Proof. induction a as [|m a IH]; cbn; auto. destruct (m_find m k); auto. Qed.

Fixpoint d_get_chain (d : dict) k : d_get d k = find_maps (maps (chain d)) k.
Proof.
  destruct d as [a m [p|]]; cbn.
  - rewrite (d_get_chain p k). reflexivity.
  - reflexivity.
Qed.

Definition dict_ok (d : dict) : Prop := Forall keys_ok (maps (chain d)).
Lemma dict_ok_parent d p : dict_ok d -> d_parent d = Some p -> dict_ok p.
Proof. unfold dict_ok. rewrite chain_eq. intros H E. rewrite E in H. cbn in H. now inversion H. Qed.
Lemma dict_ok_data d : dict_ok d -> keys_ok (d_data d).
Proof. unfold dict_ok. rewrite chain_eq. cbn. intros H. now inversion H. Qed.

Fixpoint first_non_empty_chain (d : dict) :
  match first_non_empty d with
  | Some q => exists pre, chain d = pre ++ chain q /\ Forall (fun x => d_data x = []) pre /\ d_data q <> []
  | None => Forall (fun x => d_data x = []) (chain d)
  end.
Proof.
  destruct d as [a [|kv m] [p|]].
  - cbn [first_non_empty]. generalize (first_non_empty_chain p). destruct (first_non_empty p) as [q|].
    + intros (pre & E & F & N). exists (mkDict a [] (Some p) :: pre). rewrite chain_eq. cbn [d_parent chain_opt app].
      rewrite E. repeat split; auto.
    + intros F. rewrite chain_eq. constructor; auto.
  - cbn. constructor; auto.
  - exists []. repeat split; auto. discriminate.
  - exists []. repeat split; auto. discriminate.
Qed.

Section Iter.
Variable iter : dmap -> dmap.
Hypothesis iter_perm : forall m, Permutation (iter m) m.

Lemma iter_nil : iter [] = [].
Proof. apply Permutation_nil. apply Permutation_sym, iter_perm. Qed.

(** All keys of the maps that are not [seen], each from the first map *)
Fixpoint gather (ms : list dmap) (seen : value -> bool) : list (value * ditem) :=
  match ms with
  | [] => []
  | m :: r => filter (fun kv => negb (seen (fst kv))) (iter m) ++ gather r (fun k => seen k || in_map m k)
  end.

Lemma gather_ext ms : forall s1 s2, (forall k, s1 k = s2 k) -> gather ms s1 = gather ms s2.
Proof.
  induction ms as [|m r IH]; intros s1 s2 E; cbn; auto. f_equal.
  - apply filter_ext. intros kv. now rewrite E.
  - apply IH. intros k. now rewrite E.
Qed.
Lemma gather_empty ms : forall r s, Forall (fun m => m = []) ms -> gather (ms ++ r) s = gather r s.
Proof.
  induction ms as [|m ms IH]; intros r s F; cbn; auto. inversion F; subst. rewrite iter_nil. cbn.
  rewrite IH by auto. apply gather_ext. intros k. apply orb_false_r.
Qed.

Lemma in_map_spec m k : in_map m k = true <-> In k (map fst m).
Proof.
  unfold in_map. generalize (m_find_None m k). destruct (m_find m k); intros H.
  - split; auto. intros _. destruct (In_dec (fun a b => reflect_dec _ _ (value_eqb_spec a b)) k (map fst m)) as [I|I]; auto.
    apply H in I. discriminate.
  - split; [discriminate|]. intros I. exfalso. now apply H.
Qed.
Lemma iter_keys m k : In k (map fst (iter m)) <-> In k (map fst m).
Proof. split; apply Permutation_in, Permutation_map; [|apply Permutation_sym]; apply iter_perm. Qed.
Lemma iter_ok m : keys_ok m -> NoDup (map fst (iter m)).
Proof. intros N. eapply Permutation_NoDup; [|exact N]. apply Permutation_map, Permutation_sym, iter_perm. Qed.

Lemma NoDup_filter_fst (f : value * ditem -> bool) l : NoDup (map fst l) -> NoDup (map fst (filter f l)).
Proof.
  induction l as [|x l IH]; cbn; intros N; auto. inversion N as [|? ? N1 N2]; subst.
  destruct (f x); cbn; auto. constructor; auto. intros I. apply N1.
  apply in_map_iff in I. destruct I as (y & E & I). apply in_map_iff. exists y. split; auto.
  apply filter_In in I. tauto.
Qed.

Lemma gather_In ms : forall s k v, Forall keys_ok ms ->
  (In (k, v) (gather ms s) <-> s k = false /\ find_maps ms k = Some v).
Proof.
  induction ms as [|m r IH]; intros s k v F; cbn [gather find_maps].
  - cbn. split; [tauto|]. intros [_ H]. discriminate.
  - inversion F as [|? ? F1 F2]; subst. rewrite in_app_iff, filter_In, (IH _ k v F2). cbn [fst].
    rewrite negb_true_iff, orb_false_iff.
    assert (E : In (k, v) (iter m) <-> m_find m k = Some v).
    { rewrite (m_find_In m k v F1). split; apply Permutation_in; [|apply Permutation_sym]; apply iter_perm. }
    rewrite E. unfold in_map. destruct (m_find m k) as [w|].
    + split; [intros [[H S]|[[_ H] _]]; [auto|discriminate] | intros [S H]; auto].
    + split; [intros [[H _]|[[S _] H]]; [discriminate|auto] | intros [S H]; auto].
Qed.
Lemma gather_seen ms : forall s k, Forall keys_ok ms -> s k = true -> ~ In k (map fst (gather ms s)).
Proof.
  intros s k F S I. apply in_map_iff in I. destruct I as ([k' v] & E & I). cbn in E. subst k'.
  apply gather_In in I; auto. destruct I. congruence.
Qed.
Lemma NoDup_app_disj {A} (a b : list A) : NoDup a -> NoDup b -> (forall x, In x a -> ~ In x b) -> NoDup (a ++ b).
Proof.
  induction a as [|x a IH]; cbn; auto. intros N1 N2 D. inversion N1; subst. constructor.
  - rewrite in_app_iff. intros [I|I]; auto. eapply D; eauto.
  - apply IH; auto.
Qed.
Lemma gather_NoDup ms : forall s, Forall keys_ok ms -> NoDup (map fst (gather ms s)).
Proof.
  induction ms as [|m r IH]; intros s F; cbn [gather]; [constructor|]. inversion F as [|? ? F1 F2]; subst.
  rewrite map_app. apply NoDup_app_disj.
  - apply NoDup_filter_fst, iter_ok, F1.
  - apply IH, F2.
  - intros k I. apply gather_seen; auto. apply orb_true_iff. right. apply in_map_spec.
    apply iter_keys. apply in_map_iff in I. destruct I as (kv & E & I). apply filter_In in I.
    apply in_map_iff. exists kv. tauto.
Qed.

Lemma filter_all {A} (f : A -> bool) l : (forall x, f x = true) -> filter f l = l.
Proof. intros H. induction l as [|x l IH]; cbn; auto. now rewrite H, IH. Qed.

(** What the collector has seen *)
Definition seen (c : collector) (k : value) : bool := in_map (orig c) k || in_keys (used c) k.

Lemma in_keys_spec l k : in_keys l k = true <-> In k l.
Proof.
  unfold in_keys. rewrite existsb_exists. split.
  - intros (x & I & E). destruct (value_eqb_spec x k); [congruence|discriminate].
  - intros I. exists k. split; auto. apply value_eqb_refl.
Qed.

Lemma collect_map_out m more c : keys_ok m ->
  out (collect_map iter m more c) = out c ++ filter (fun kv => negb (seen c (fst kv))) (iter m) /\
  orig (collect_map iter m more c) = orig c /\
  (more = true -> forall k, seen (collect_map iter m more c) k = seen c k || in_map m k).
Proof.
  intros N. apply iter_ok in N. unfold collect_map.
  assert (G : forall l c, NoDup (map fst l) ->
    let c' := fold_left (fun c kv =>
      if negb (in_map (orig c) (fst kv)) && negb (in_keys (used c) (fst kv))
      then mkCol (orig c) (if more then fst kv :: used c else used c) (out c ++ [kv])
      else c) l c in
    out c' = out c ++ filter (fun kv => negb (seen c (fst kv))) l /\ orig c' = orig c /\
    (more = true -> forall k, seen c' k = seen c k || existsb (fun kv => value_eqb (fst kv) k) l)).
  { clear c N. induction l as [|kv l IH]; intros c N; cbn [fold_left filter existsb].
    - rewrite app_nil_r. repeat split; auto. intros _ k. now rewrite orb_false_r.
    - inversion N as [|? ? N1 N2]; subst.
      rewrite <- negb_orb. fold (seen c (fst kv)).
      destruct (seen c (fst kv)) eqn:S; cbn [negb].
      + destruct (IH c N2) as (A & B & C). repeat split; auto. intros M k. rewrite (C M k).
        destruct (value_eqb_spec (fst kv) k) as [E|]; [|reflexivity]. rewrite <- E, S. reflexivity.
      + set (c1 := mkCol _ _ _). destruct (IH c1 N2) as (A & B & C).
        assert (S1 : forall kv', In kv' l -> seen c1 (fst kv') = seen c (fst kv')).
        { intros kv' I. unfold seen, c1. cbn [orig used]. f_equal. destruct more; auto. cbn.
          destruct (value_eqb_spec (fst kv) (fst kv')) as [E|]; auto.
          exfalso. apply N1. rewrite E. now apply List.in_map. }
        repeat split; auto.
        * rewrite A. unfold c1 at 1. cbn [out]. rewrite <- app_assoc. cbn [app]. do 2 f_equal.
          apply filter_ext_in. intros kv' I. now rewrite S1.
        * intros M k. rewrite (C M k). unfold seen, c1. cbn [orig used]. rewrite M. unfold in_keys. cbn [existsb].
          destruct (in_map (orig c) k), (value_eqb (fst kv) k), (existsb (fun x => value_eqb x k) (used c)); try reflexivity. }
  destruct (G (iter m) c N) as (A & B & C). repeat split; auto.
  intros M k. rewrite (C M k). f_equal.
  apply eq_true_iff_eq. rewrite in_map_spec, <- iter_keys, existsb_exists, in_map_iff. split.
  - intros (kv & I & E). exists kv. split; auto. now destruct (value_eqb_spec (fst kv) k).
  - intros (kv & E & I). exists kv. split; auto. subst k. apply value_eqb_refl.
Qed.

(** the part of a chain that is visited *)
Fixpoint upto (stop : option N) (l : list dict) : list dict :=
  match l with
  | [] => []
  | d :: r => if match stop with Some s => (d_addr d =? s)%N | None => false end then [] else d :: upto stop r
  end.
Lemma upto_None l : upto None l = l.
Proof. induction l; cbn; auto. now rewrite IHl. Qed.

Fixpoint collect_chain_out stop d fb c {struct d} : dict_ok d ->
  let c' := collect_chain iter stop d fb c in
  let ms := d_data d :: maps (upto stop (chain_opt (d_parent d))) in
  out c' = out c ++ gather ms (seen c) /\ orig c' = orig c /\
  (fb = true -> forall k, seen c' k = seen c k || match find_maps ms k with Some _ => true | None => false end).
Proof.
  destruct d as [a m p]. intros W. assert (K := dict_ok_data _ W). cbn [d_data d_parent] in *.
  assert (B : forall b, let c' := collect_map iter m b c in
    out c' = out c ++ gather [m] (seen c) /\ orig c' = orig c /\
    (b = true -> forall k, seen c' k = seen c k || match find_maps [m] k with Some _ => true | None => false end)).
  { intros b. destruct (collect_map_out m b c K) as (A1 & A2 & A3). cbn [gather]. rewrite app_nil_r.
    repeat split; auto. intros E k. rewrite (A3 E k). cbn. unfold in_map. now destruct (m_find m k). }
  destruct p as [p|]; [|exact (B fb)].
  cbn [collect_chain chain_opt].
  rewrite (chain_eq p). cbn [upto].
  destruct (match stop with Some s => (d_addr p =? s)%N | None => false end); [exact (B fb)|].
  destruct (B true) as (B1 & B2 & B3). set (c1 := collect_map iter m true c) in *.
  destruct (collect_chain_out stop p fb c1 (dict_ok_parent _ p W eq_refl)) as (A1 & A2 & A3).
  cbn [maps map]. cbn [gather] in *. repeat split.
  - rewrite A1, B1. rewrite <- !app_assoc. cbn [app]. f_equal. f_equal.
    assert (SE : forall k, seen c1 k = seen c k || in_map m k).
    { intros k. rewrite (B3 eq_refl k). cbn. unfold in_map. now destruct (m_find m k). }
    change (gather (d_data p :: maps (upto stop (chain_opt (d_parent p)))) (seen c1) =
            gather (d_data p :: maps (upto stop (chain_opt (d_parent p)))) (fun k => seen c k || in_map m k)).
    now apply gather_ext.
  - congruence.
  - intros F k. rewrite (A3 F k), (B3 eq_refl k). cbn [find_maps]. unfold maps.
    destruct (m_find m k), (seen c k); cbn; auto.
Qed.

Lemma collect_fallbacks_out fbs : forall c, Forall dict_ok fbs ->
  out (collect_fallbacks iter fbs c) = out c ++ gather (maps (flat_map chain fbs)) (seen c).
Proof.
  induction fbs as [|f r IH]; intros c W; cbn [collect_fallbacks flat_map]; [cbn; now rewrite app_nil_r|].
  inversion W as [|? ? W1 W2]; subst.
  set (c0 := mkCol [] (map fst (iter (orig c)) ++ used c) (out c)).
  assert (S0 : forall k, seen c0 k = seen c k).
  { intros k. unfold seen, c0. cbn [orig used in_map m_find orb]. apply eq_true_iff_eq.
    rewrite in_keys_spec, in_app_iff, orb_true_iff, in_map_spec, in_keys_spec, iter_keys. tauto. }
  set (b := match r with [] => false | _ => true end).
  destruct (collect_chain_out None f b c0 W1) as (A1 & A2 & A3). rewrite upto_None in *.
  assert (EM : d_data f :: maps (chain_opt (d_parent f)) = maps (chain f)) by now rewrite (chain_eq f).
  rewrite EM in *. clear EM.
  rewrite IH by exact W2. rewrite A1. unfold maps. rewrite map_app. fold (maps (chain f)). fold (maps (flat_map chain r)).
  change (out c0) with (out c). rewrite <- app_assoc. f_equal.
  assert (GA : forall a b s, gather (a ++ b) s =
    gather a s ++ gather b (fun k => s k || match find_maps a k with Some _ => true | None => false end)).
  { clear. induction a as [|m a IH]; intros b s; cbn [app gather find_maps].
    - cbn [app]. apply gather_ext. intros k. now rewrite orb_false_r.
    - rewrite IH, app_assoc. f_equal. apply gather_ext. intros k. unfold in_map.
      destruct (s k), (m_find m k); cbn; auto. }
  rewrite GA. f_equal; [now apply gather_ext|].
  destruct r as [|f2 r]; [reflexivity|]. apply gather_ext. intros k. rewrite (A3 eq_refl k), S0. reflexivity.
Qed.

Lemma items_of_gather d fbs : dict_ok d -> Forall dict_ok fbs ->
  items_of iter d fbs = gather (maps (chain d ++ flat_map chain fbs)) (fun _ => false).
Proof.
  intros W WF. unfold items_of. assert (K := dict_ok_data d W).
  rewrite (chain_eq d). cbn [app maps map gather]. rewrite (filter_all _ (iter _)) by reflexivity.
  assert (S0 : forall k, seen (mkCol (d_data d) [] (iter (d_data d))) k = false || in_map (d_data d) k).
  { intros k. unfold seen. cbn. apply orb_false_r. }
  destruct (d_parent d) as [p|] eqn:P.
  - destruct (collect_chain_out None p (nonempty fbs) (mkCol (d_data d) [] (iter (d_data d))) (dict_ok_parent d p W P))
      as (A1 & A2 & A3). rewrite upto_None in *.
    assert (EM : d_data p :: maps (chain_opt (d_parent p)) = maps (chain p)) by now rewrite (chain_eq p).
    rewrite EM in *. rewrite collect_fallbacks_out, A1 by exact WF. cbn [out chain_opt].
    rewrite <- app_assoc. f_equal.
    rewrite map_app. fold (maps (chain p)). fold (maps (flat_map chain fbs)).
    assert (GA : forall a b s, gather (a ++ b) s =
      gather a s ++ gather b (fun k => s k || match find_maps a k with Some _ => true | None => false end)).
    { clear. induction a as [|m a IH]; intros b s; cbn [app gather find_maps].
      - cbn [app]. apply gather_ext. intros k. now rewrite orb_false_r.
      - rewrite IH, app_assoc. f_equal. apply gather_ext. intros k. unfold in_map.
        destruct (s k), (m_find m k); cbn; auto. }
    rewrite GA. f_equal; [now apply gather_ext|].
    destruct fbs as [|f r]; [reflexivity|]. apply gather_ext. intros k. now rewrite (A3 eq_refl k), S0.
  - cbn [chain_opt app]. destruct fbs as [|f r].
    + cbn. now rewrite app_nil_r.
    + cbn [nonempty]. rewrite collect_fallbacks_out by exact WF. cbn [out]. f_equal. now apply gather_ext.
Qed.

Lemma d_items_gather fbs : Forall dict_ok fbs ->
  d_items_fb iter fbs = gather (maps (flat_map chain fbs)) (fun _ => false).
Proof.
  induction fbs as [|f r IH]; intros W; [reflexivity|]. inversion W as [|? ? W1 W2]; subst. cbn [d_items_fb flat_map].
  generalize (first_non_empty_chain f). destruct (first_non_empty f) as [q|].
  - intros (pre & E & F & _). rewrite E. rewrite <- app_assoc. unfold maps at 1. rewrite map_app. rewrite gather_empty.
    + apply items_of_gather; auto. unfold dict_ok in *. rewrite E in W1. unfold maps in W1. rewrite map_app in W1.
      apply Forall_app in W1. apply W1.
    + apply Forall_map. exact F.
  - intros F. unfold maps. rewrite map_app, gather_empty; [apply IH, W2|]. apply Forall_map. exact F.
Qed.

Lemma find_maps_chain fbs k : find_maps (maps (flat_map chain fbs)) k = f_first (map d_get fbs) k.
Proof.
  induction fbs as [|f r IH]; cbn; auto. unfold maps. rewrite map_app, find_maps_app. fold (maps (chain f)).
  rewrite <- d_get_chain. destruct (d_get f k); auto.
Qed.

Lemma d_items_lists fbs : Forall dict_ok fbs -> lists_map (d_items_fb iter fbs) (f_first (map d_get fbs)).
Proof.
  intros W. rewrite d_items_gather by exact W.
  assert (K : Forall keys_ok (maps (flat_map chain fbs))).
  { clear -W. induction W; cbn; [constructor|]. unfold maps. rewrite map_app. apply Forall_app. auto. }
  split; [now apply gather_NoDup|]. intros k v. rewrite gather_In by exact K. rewrite find_maps_chain. tauto.
Qed.

(** ** Histories *)
Lemma good_key_spec key : good_key key =
  match key with Some k => if unsupported_key key then None else Some k | None => None end.
Proof. destruct key as [[[] v]|]; reflexivity. Qed.

Definition means (d : dict) (f : fmap) : Prop := dict_ok d /\ forall k, d_get d k = f k.

Lemma mk_ok a m p : keys_ok m -> match p with Some p => dict_ok p | None => True end -> dict_ok (mkDict a m p).
Proof.
  intros K P. unfold dict_ok. rewrite chain_eq. cbn. constructor; auto. destruct p; [exact P|constructor].
Qed.
Lemma parent_ok a m p : dict_ok (mkDict a m p) -> match p with Some p => dict_ok p | None => True end.
Proof. intros W. destruct p; auto. exact (dict_ok_parent _ _ W eq_refl). Qed.

Lemma set_get a m p k v j : d_get (mkDict a (m_set m k v) p) j = f_set (d_get (mkDict a m p)) k v j.
Proof. cbn. rewrite m_find_set. unfold f_set. destruct (value_eqb k j); reflexivity. Qed.

Lemma fold_set_None l : forall m k, m_find (fold_left (fun m k => m_set m k None) l m) k =
  if in_keys l k then Some None else m_find m k.
Proof.
  induction l as [|x l IH]; intros m k; cbn [fold_left]; auto. rewrite IH, m_find_set. unfold in_keys. cbn [existsb].
  destruct (value_eqb x k), (existsb (fun y => value_eqb y k) l); reflexivity.
Qed.
Lemma fold_set_ok l : forall m, keys_ok m -> keys_ok (fold_left (fun m k => m_set m k (@None value)) l m).
Proof. induction l; intros; cbn; auto. apply IHl, m_set_ok, H. Qed.

Lemma d_keys_In d fbs k : dict_ok d -> Forall dict_ok fbs ->
  (In k (d_keys iter d fbs) <-> f_first (map d_get (d :: fbs)) k <> None).
Proof.
  intros W WF. destruct (d_items_lists (d :: fbs)) as [_ L]; [now constructor|].
  unfold d_keys, d_items. rewrite in_map_iff. split.
  - intros ([k' v] & E & I). cbn in E. subst k'. apply L in I. congruence.
  - destruct (f_first _ k) as [v|] eqn:E; [|congruence]. intros _. exists (k, v). split; auto. now apply L.
Qed.

Lemma clear_means d f : means d f -> means (d_clear iter d) (fun k => match f k with Some _ => Some None | None => None end).
Proof.
  intros [W G]. unfold d_clear. split.
  - apply mk_ok; auto. apply fold_set_ok. constructor.
  - intros k. cbn [d_get]. rewrite fold_set_None. cbn [m_find].
    generalize (in_keys_spec (d_keys iter d []) k), (d_keys_In d [] k W (Forall_nil _)). cbn [map f_first]. rewrite G.
    destruct (in_keys (d_keys iter d []) k), (f k); intros [H1 H2] [H3 H4]; auto.
    + exfalso. exact (H3 (H1 eq_refl) eq_refl).
    + exfalso. assert (false = true) by (apply H2, H4; discriminate). discriminate.
Qed.

Lemma derive_means a d f : means d f -> means (derive a d) f.
Proof.
  intros [W G]. unfold derive. destruct d as [a0 [|kv m] p]; cbn [d_data d_parent].
  - split; [apply mk_ok; [constructor | exact (parent_ok _ _ _ W)]|]. intros k. rewrite <- G. reflexivity.
  - split; [apply mk_ok; [constructor | exact W]|]. intros k. rewrite <- G. reflexivity.
Qed.

Lemma dict_step_means d f o : means d f -> means (dict_step iter d o) (f_step f o).
Proof.
  intros M. destruct o as [key v|key v| |a]; cbn [dict_step f_step].
  - rewrite good_key_spec. destruct d as [a m p]. destruct M as [W G]. unfold d_set.
    destruct key as [k|]; [|split; auto]. destruct (unsupported_key (Some k)); [split; auto|]. split.
    + apply mk_ok; [apply m_set_ok, (dict_ok_data _ W) | exact (parent_ok _ _ _ W)].
    + intros j. rewrite set_get. unfold f_set. now rewrite G.
  - rewrite good_key_spec. destruct d as [a m p]. assert (M' := M). destruct M as [W G]. unfold d_get_or_assign.
    destruct key as [k|]; [|exact M']. destruct (unsupported_key (Some k)); [exact M'|].
    assert (S : means (mkDict a (m_set m k v) p) (f_set f k v)).
    { split.
      - apply mk_ok; [apply m_set_ok, (dict_ok_data _ W) | exact (parent_ok _ _ _ W)].
      - intros j. rewrite set_get. unfold f_set. now rewrite G. }
    generalize (G k). cbn [d_get]. destruct p as [p|]; destruct (m_find m k); try destruct (d_get p k); intros E; rewrite <- E; cbn [snd]; first [exact M' | exact S].
  - now apply clear_means.
  - now apply derive_means.
Qed.
Lemma dict_run_means ops : forall d f, means d f -> means (dict_run iter ops d) (f_run ops f).
Proof. induction ops as [|o ops IH]; intros d f M; cbn; auto. apply IH, dict_step_means, M. Qed.
Lemma new_means a : means (new_dict a) f_empty.
Proof. split; [apply mk_ok; [constructor|exact I] | reflexivity]. Qed.

Lemma size_ok d : dict_ok d -> d_size iter d = length (d_keys iter d []).
Proof.
  intros W. unfold d_size. generalize (first_non_empty_chain d). destruct (first_non_empty d) as [q|] eqn:E.
  - intros (pre & C & F & N).
    assert (D : d_keys iter d [] = d_keys iter q []).
    { unfold d_keys, d_items. cbn [d_items_fb]. rewrite E.
      assert (Q : first_non_empty q = Some q) by (destruct q as [? [|? ?] ?]; cbn in *; congruence).
      now rewrite Q. }
    rewrite D. destruct (d_parent q) eqn:P; [reflexivity|].
    unfold d_keys, d_items. cbn [d_items_fb].
    assert (Q : first_non_empty q = Some q) by (destruct q as [? [|? ?] ?]; cbn in *; congruence).
    rewrite Q. unfold items_of. rewrite P. cbn [nonempty]. rewrite map_length.
    now rewrite (Permutation_length (iter_perm (d_data q))).
  - intros _. unfold d_keys, d_items. cbn [d_items_fb]. now rewrite E.
Qed.

Lemma get_or_assign_result d f key v : means d f ->
  fst (d_get_or_assign d key v) =
  match good_key key with Some k => match f k with Some w => w | None => v end | None => None end.
Proof.
  intros [W G]. rewrite good_key_spec. destruct d as [a m p]. unfold d_get_or_assign.
  destruct key as [k|]; auto. destruct (unsupported_key (Some k)); auto.
  generalize (G k). cbn [d_get]. destruct p as [p|]; destruct (m_find m k); try destruct (d_get p k); intros <-; auto.
Qed.

Lemma values_keys d fbs k v : In (k, v) (combine (d_keys iter d fbs) (d_values iter d fbs)) <-> In (k, v) (d_items iter d fbs).
Proof.
  unfold d_keys, d_values. generalize (d_items iter d fbs). intros l.
  assert (E : combine (map fst l) (map snd l) = l) by (induction l as [|[a b] l IH]; cbn; [|rewrite IH]; auto).
  now rewrite E.
Qed.
Lemma combine_items d fbs : combine (d_keys iter d fbs) (d_values iter d fbs) = d_items iter d fbs.
Proof.
  unfold d_keys, d_values. generalize (d_items iter d fbs). intros l.
  induction l as [|[a b] l IH]; cbn; [|rewrite IH]; auto.
Qed.

Lemma keys_with_values_ok d fbs : dict_ok d -> Forall dict_ok fbs ->
  NoDup (d_keys_with_values iter d fbs) /\
  forall k, In k (d_keys_with_values iter d fbs) <-> exists v, f_first (map d_get (d :: fbs)) k = Some (Some v).
Proof.
  intros W WF. destruct (d_items_lists (d :: fbs)) as [N L]; [now constructor|].
  unfold d_keys_with_values. rewrite combine_items. fold (d_items iter d fbs) in *. split.
  - apply NoDup_filter_fst, N.
  - intros k. rewrite in_map_iff. split.
    + intros ([k' [v|]] & E & I); apply filter_In in I; destruct I as [I F]; [|discriminate]. cbn in E. subst k'.
      exists v. now apply L.
    + intros (v & E). apply L in E. exists (k, Some v). split; auto. apply filter_In. auto.
Qed.

(** ** Sorting *)
Section Sorting.
Variable less : value -> value -> bool.
Hypothesis less_irrefl : forall a, less a a = false.
Hypothesis less_trans : forall a b c, less a b = true -> less b c = true -> less a c = true.
Hypothesis less_total : forall a b, a <> b -> less a b = true \/ less b a = true.
Variable sort_keys : list value -> list value.
Variable sort_idx : list value -> list nat.
Definition not_greater (a b : value) : Prop := less b a = false.
Hypothesis sort_keys_ok : forall l, Permutation (sort_keys l) l /\ StronglySorted not_greater (sort_keys l).
Hypothesis sort_idx_ok : forall l, Permutation (sort_idx l) (seq 0 (length l)) /\
  StronglySorted (fun i j => match nth_error l i, nth_error l j with Some a, Some b => not_greater a b | _, _ => True end) (sort_idx l).

Lemma sorted_unique a : forall b, NoDup a -> Permutation a b -> StronglySorted not_greater a -> StronglySorted not_greater b -> a = b.
Proof.
  induction a as [|x a IH]; intros b N P SA SB.
  - apply Permutation_nil in P. now subst.
  - destruct b as [|y b]; [apply Permutation_sym, Permutation_nil in P; discriminate|].
    inversion SA as [|? ? SA1 SA2]; subst. inversion SB as [|? ? SB1 SB2]; subst.
    inversion N as [|? ? N1 N2]; subst.
    assert (E : x = y).
    { destruct (value_eqb_spec x y) as [E|D]; auto. exfalso.
      assert (I1 : In x b). { assert (I : In x (y :: b)) by (eapply Permutation_in; [exact P|now left]). destruct I; [congruence|auto]. }
      assert (I2 : In y a). { assert (I : In y (x :: a)) by (eapply Permutation_in; [apply Permutation_sym, P|now left]). destruct I; [congruence|auto]. }
      rewrite Forall_forall in SA2, SB2. specialize (SA2 y I2). specialize (SB2 x I1). unfold not_greater in *.
      destruct (less_total x y D); congruence. }
    subst y. f_equal. apply IH; auto. eapply Permutation_cons_inv; eauto.
Qed.

Lemma sorted_values_ok d fbs : dict_ok d -> Forall dict_ok fbs ->
  d_sorted_values iter sort_idx d fbs =
  map (fun k => f_first (map d_get (d :: fbs)) k) (d_sorted_keys iter sort_keys d fbs).
Proof.
  intros W WF. destruct (d_items_lists (d :: fbs)) as [N L]; [now constructor|].
  fold (d_items iter d fbs) in *. unfold d_sorted_values, d_sorted_keys, d_keys, d_values.
  set (items := d_items iter d fbs) in *. clearbody items.
  set (f := f_first (map d_get (d :: fbs))) in *. clearbody f.
  destruct (sort_idx_ok (map fst items)) as [PI SI]. destruct (sort_keys_ok (map fst items)) as [PK SK].
  set (idx := sort_idx (map fst items)) in *. clearbody idx.
  set (ks := sort_keys (map fst items)) in *. clearbody ks.
  assert (NE : forall i, In i idx -> exists k v, nth_error items i = Some (k, v)).
  { intros i I. assert (I2 : In i (seq 0 (length (map fst items)))) by (eapply Permutation_in; eauto).
    apply in_seq in I2. rewrite map_length in I2. destruct (nth_error items i) as [[k v]|] eqn:E; eauto.
    apply nth_error_None in E. lia. }
  set (key_at := fun i => match nth_error (map fst items) i with Some k => k | None => val KUnit tt end).
  assert (PM : Permutation (map key_at idx) (map fst items)).
  { apply Permutation_trans with (map key_at (seq 0 (length (map fst items)))); [now apply Permutation_map|].
    assert (EL : map key_at (seq 0 (length (map fst items))) = map fst items); [|now rewrite EL].
    subst key_at. generalize (map fst items). clear. intros l. assert (G : forall l pre, map (fun i => match nth_error (pre ++ l) i with Some k => k | None => val KUnit tt end)
      (seq (length pre) (length l)) = l).
    { clear. induction l as [|x l IH]; intros pre; [reflexivity|]. cbn [length seq map].
      rewrite nth_error_app2, Nat.sub_diag by lia. cbn [nth_error]. f_equal.
      specialize (IH (pre ++ [x])). rewrite app_length, Nat.add_comm in IH. cbn in IH.
        rewrite <- app_assoc in IH. exact IH. }
    exact (G l []). }
  assert (SM : StronglySorted not_greater (map key_at idx)).
  { clear -SI NE. induction SI as [|i idx SI IH F]; cbn; constructor.
    - apply IH. intros j I. apply NE. now right.
    - rewrite Forall_forall in *. intros k I. apply in_map_iff in I. destruct I as (j & <- & I).
      specialize (F j I). unfold key_at.
      destruct (NE i (or_introl eq_refl)) as (k1 & v1 & E1). destruct (NE j (or_intror I)) as (k2 & v2 & E2).
      rewrite (map_nth_error fst _ _ E1), (map_nth_error fst _ _ E2) in *. exact F. }
  assert (EK : map key_at idx = ks).
  { apply sorted_unique; auto.
    - eapply Permutation_NoDup; [apply Permutation_sym, PM | exact N].
    - eapply Permutation_trans; [exact PM | apply Permutation_sym, PK]. }
  rewrite <- EK, map_map. apply map_ext_in. intros i I. destruct (NE i I) as (k & v & E).
  rewrite (map_nth_error snd _ _ E). unfold key_at. rewrite (map_nth_error fst _ _ E). cbn.
  symmetry. apply L. eapply nth_error_In; eauto.
Qed.
End Sorting.

(** ** Modified keys *)
Definition addrs (d : dict) : list N := map d_addr (chain d).

Lemma NoDup_drop {A} (a b : list A) : NoDup (a ++ b) -> NoDup b.
Proof. induction a; cbn; auto. intros N. inversion N; auto. Qed.
Lemma upto_app_stop pre q s r : d_addr q = s -> ~ In s (map d_addr pre) -> upto (Some s) (pre ++ q :: r) = pre.
Proof.
  intros E. induction pre as [|x pre IH]; cbn; intros N.
  - rewrite E, N.eqb_refl. reflexivity.
  - destruct (N.eqb_spec (d_addr x) s); [exfalso; apply N; auto|]. f_equal. apply IH. tauto.
Qed.
Lemma upto_not_in s l : ~ In s (map d_addr l) -> upto (Some s) l = l.
Proof.
  induction l as [|x l IH]; cbn; auto. intros N. destruct (N.eqb_spec (d_addr x) s); [exfalso; apply N; auto|].
  f_equal. apply IH. tauto.
Qed.

Lemma modified_gather d parent : dict_ok d ->
  let stop := option_map d_addr (match parent with Some p => first_non_empty p | None => None end) in
  d_modified_keys iter d parent =
  match first_non_empty d with
  | Some q => map fst (gather (maps (upto stop (chain q))) (fun _ => false))
  | None => []
  end.
Proof.
  intros W. cbv zeta. unfold d_modified_keys. generalize (first_non_empty_chain d).
  destruct (first_non_empty d) as [q|]; [|auto]. intros (pre & C & F & N).
  assert (WQ : dict_ok q).
  { unfold dict_ok in *. rewrite C in W. unfold maps in W. rewrite map_app in W. apply Forall_app in W. apply W. }
  set (stop := option_map d_addr _). rewrite (chain_eq q). cbn [upto].
  destruct (match stop with Some s => (d_addr q =? s)%N | None => false end); [reflexivity|].
  cbn [maps map gather]. rewrite (filter_all _ (iter _)) by reflexivity.
  destruct (d_parent q) as [p|] eqn:P; cbn [chain_opt]; [|cbn; now rewrite app_nil_r].
  rewrite (chain_eq p). cbn [upto].
  destruct (match stop with Some s => (d_addr p =? s)%N | None => false end); [cbn; now rewrite app_nil_r|].
  destruct (collect_chain_out stop p false (mkCol (d_data q) [] (iter (d_data q))) (dict_ok_parent q p WQ P)) as (A & _).
  rewrite A. cbn [out]. f_equal. f_equal. cbn [maps map]. apply gather_ext. intros k. unfold seen. cbn. apply orb_false_r.
Qed.

(** Every key on which [d] differs from [parent] is among the modified ones, when
    [d] sits above [parent], or knows at least the keys of [parent] *)
Lemma modified_ok d parent : dict_ok d -> dict_ok parent -> NoDup (addrs d) ->
  (forall q, first_non_empty parent = Some q ->
     (exists pre, chain d = pre ++ chain q) \/
     (~ In (d_addr q) (addrs d) /\ forall k, d_get parent k <> None -> d_get d k <> None)) ->
  NoDup (d_modified_keys iter d (Some parent)) /\
  (forall k, In k (d_modified_keys iter d (Some parent)) -> d_get d k <> None) /\
  (forall k, d_get d k <> d_get parent k -> In k (d_modified_keys iter d (Some parent))).
Proof.
  intros W WP NA H. rewrite (modified_gather d (Some parent) W).
  generalize (first_non_empty_chain parent).
  set (stop := option_map d_addr (first_non_empty parent)).
  intros FP. generalize (first_non_empty_chain d). destruct (first_non_empty d) as [dq|] eqn:ED.
  - intros (pre & C & F & N).
    assert (GD : forall k, d_get d k = find_maps (maps (chain dq)) k).
    { intros k. rewrite d_get_chain, C. unfold maps. rewrite map_app, find_maps_app.
      assert (E : find_maps (map d_data pre) k = None).
      { clear -F. induction F; cbn; auto. now rewrite H. }
      now rewrite E. }
    assert (WQ : Forall keys_ok (maps (chain dq))).
    { unfold dict_ok in W. rewrite C in W. unfold maps in W. rewrite map_app in W. apply Forall_app in W. apply W. }
    assert (UP : exists rest, chain dq = upto stop (chain dq) ++ rest /\
       forall k, d_get d k <> d_get parent k -> find_maps (maps (upto stop (chain dq))) k <> None).
    { destruct (first_non_empty parent) as [q|] eqn:EQ; cbn in stop.
      - destruct FP as (preP & CP & FPP & NP).
        assert (GP : forall k, d_get parent k = find_maps (maps (chain q)) k).
        { intros k. rewrite d_get_chain, CP. unfold maps. rewrite map_app, find_maps_app.
          assert (E : find_maps (map d_data preP) k = None).
          { clear -FPP. induction FPP; cbn; auto. now rewrite H. }
          now rewrite E. }
        destruct (H q eq_refl) as [(pre2 & C2)|(NI & KN)].
        + (* q is below dq *)
          assert (D2 : exists pre3, chain dq = pre3 ++ chain q).
          { rewrite C in C2. clear -C2 F NP. revert pre2 C2. induction F as [|x pre Hx F IH]; intros pre2 C2; [eauto|].
            destruct pre2 as [|y pre2].
            - cbn in C2. rewrite (chain_eq q) in C2. injection C2 as E _. congruence.
            - cbn in C2. injection C2 as _ C2. eauto. }
          destruct D2 as (pre3 & C3). exists (chain q). rewrite C3.
          assert (NI : ~ In (d_addr q) (map d_addr pre3)).
          { unfold addrs in NA. rewrite C, C3, !map_app in NA. apply NoDup_drop in NA.
            rewrite (chain_eq q) in NA. cbn in NA. intros I. apply in_split in I. destruct I as (l1 & l2 & E).
            rewrite E in NA. rewrite <- app_assoc in NA. cbn in NA. apply NoDup_drop in NA.
            inversion NA as [|? ? NA1 _]. apply NA1. apply in_app_iff. right. now left. }
          assert (U : upto stop (pre3 ++ chain q) = pre3) by (rewrite (chain_eq q); apply upto_app_stop; auto).
          rewrite U. split; [reflexivity|].
          intros k D E. apply D. rewrite GD, GP, C3. unfold maps. rewrite map_app, find_maps_app. fold (maps pre3). now rewrite E.
        + exists []. assert (U : upto stop (chain dq) = chain dq).
          { apply upto_not_in. intros I. apply NI. unfold addrs. rewrite C, map_app. apply in_app_iff. auto. }
          rewrite U. split; [now rewrite app_nil_r|]. intros k D E. apply D. rewrite <- GD in E. rewrite E.
          destruct (d_get parent k) eqn:EP; auto. exfalso. apply (KN k); congruence.
      - exists []. subst stop. rewrite upto_None. split; [now rewrite app_nil_r|].
        intros k D E. apply D. rewrite <- GD in E. rewrite E, d_get_chain. clear -FP. symmetry.
        induction FP; cbn; auto. now rewrite H. }
    destruct UP as (rest & CU & DU).
    assert (WU : Forall keys_ok (maps (upto stop (chain dq)))).
    { rewrite CU in WQ. unfold maps in WQ. rewrite map_app in WQ. apply Forall_app in WQ. apply WQ. }
    split; [now apply gather_NoDup|].
    assert (IK : forall k, In k (map fst (gather (maps (upto stop (chain dq))) (fun _ => false))) <->
                 find_maps (maps (upto stop (chain dq))) k <> None).
    { intros k. rewrite in_map_iff. split.
      - intros ([k' v] & E & I). cbn in E. subst k'. apply gather_In in I; auto. destruct I as [_ I]. congruence.
      - destruct (find_maps (maps (upto stop (chain dq))) k) as [v|] eqn:E; [|congruence]. intros _.
        exists (k, v). split; auto. apply gather_In; auto. }
    split; intros k; rewrite IK; [|apply DU].
    intros D. rewrite GD, CU. unfold maps. rewrite map_app, find_maps_app. fold (maps (upto stop (chain dq))).
    destruct (find_maps (maps (upto stop (chain dq))) k); congruence.
  - intros F. assert (GN : forall k, d_get d k = None).
    { intros k. rewrite d_get_chain. clear -F. induction F; cbn; auto. now rewrite H. }
    split; [constructor|]. split; [intros k []|]. intros k D. exfalso. apply D. rewrite GN.
    destruct (first_non_empty parent) as [q|] eqn:EQ.
    + destruct FP as (preP & CP & FPP & NP). destruct (H q eq_refl) as [(pre2 & C2)|(NI & KN)].
      * exfalso. apply NP. rewrite C2 in F. apply Forall_app in F. destruct F as [_ F]. rewrite chain_eq in F.
        now inversion F.
      * destruct (d_get parent k) eqn:E; auto. exfalso. apply (KN k); [congruence|apply GN].
    + rewrite d_get_chain. clear -FP. symmetry. induction FP; cbn; auto. now rewrite H.
Qed.

(** The layers above [q] in a history, and those cleared away *)
Definition above (q : dict) (d : dict) : Prop :=
  (exists pre, chain d = pre ++ chain q) \/
  (~ In (d_addr q) (addrs d) /\ forall k, d_get q k <> None -> d_get d k <> None).

Lemma addrs_same a m m' p : addrs (mkDict a m p) = addrs (mkDict a m' p).
Proof. unfold addrs. now rewrite !(chain_eq (mkDict _ _ _)). Qed.

Lemma step_known d f o k : means d f -> d_get d k <> None -> d_get (dict_step iter d o) k <> None.
Proof.
  intros M H. destruct (dict_step_means d f o M) as [_ G]. rewrite G. destruct M as [_ G0]. rewrite G0 in H.
  destruct o as [key v|key v| |a]; cbn; auto.
  - destruct (good_key key); auto. unfold f_set. destruct (value_eqb v0 k); congruence.
  - destruct (good_key key) as [j|]; auto. destruct (f j); auto. unfold f_set. destruct (value_eqb j k); congruence.
  - destruct (f k); congruence.
Qed.

(** strictly above: the top layer is not [q] itself, so writes do not change [q] *)
Definition strictly (q d : dict) : Prop :=
  (exists pre x, chain d = (x :: pre) ++ chain q) \/
  (~ In (d_addr q) (addrs d) /\ forall k, d_get q k <> None -> d_get d k <> None).

Lemma strictly_above q d : strictly q d -> above q d.
Proof. intros [(pre & x & E)|H]; [left; eauto|right; auto]. Qed.

Lemma chain_top d x pre r : chain d = (x :: pre) ++ r -> x = d /\ chain_opt (d_parent d) = pre ++ r.
Proof. rewrite chain_eq. cbn. intros E. now inversion E. Qed.

Lemma strictly_write q a m m' p : strictly q (mkDict a m p) ->
  (forall k, d_get (mkDict a m p) k <> None -> d_get (mkDict a m' p) k <> None) ->
  strictly q (mkDict a m' p).
Proof.
  intros [(pre & x & E)|[N K]] H.
  - left. destruct (chain_top _ _ _ _ E) as [-> E2]. cbn in E2. exists pre, (mkDict a m' p). rewrite chain_eq. cbn. now rewrite E2.
  - right. rewrite (addrs_same a m' m p). auto.
Qed.

Definition old_addrs (d : dict) (l : list N) : Prop := forall a, In a l -> ~ In a (addrs d).

Lemma derive_addrs a d : forall x, In x (addrs (derive a d)) -> x = a \/ In x (addrs d).
Proof.
  intros x. unfold derive, addrs. rewrite chain_eq. cbn. intros [->|I]; auto. right.
  destruct d as [a0 [|kv m] p]; cbn in I; [|exact I]. rewrite chain_eq. cbn. auto.
Qed.
Lemma derive_NoDup a d : NoDup (addrs d) -> ~ In a (addrs d) -> NoDup (addrs (derive a d)).
Proof.
  intros N I. unfold derive, addrs. rewrite chain_eq. cbn. unfold addrs in *. destruct d as [a0 [|kv m] p]; cbn.
  - rewrite chain_eq in N, I. cbn in N, I. inversion N; subst. constructor; auto.
  - constructor; auto.
Qed.
Lemma strictly_derive q a d : d_data q <> [] -> d_addr q <> a -> strictly q d -> strictly q (derive a d).
Proof.
  intros NE NA [(pre & x & E)|[N K]].
  - left. destruct (chain_top _ _ _ _ E) as [-> E2]. unfold derive. destruct d as [a0 [|kv m] p]; cbn in E2.
    + exists pre, (mkDict a [] p). rewrite chain_eq. cbn. now rewrite E2.
    + exists (mkDict a0 (kv :: m) p :: pre), (mkDict a [] (Some (mkDict a0 (kv :: m) p))). rewrite chain_eq. cbn -[chain].
      now rewrite E.
  - right. split.
    + intros I. apply derive_addrs in I. destruct I; auto.
    + intros k H. unfold derive. destruct d as [a0 [|kv m] p]; exact (K k H).
Qed.

Lemma chain_suffix_get q d pre : chain d = pre ++ chain q -> forall k, d_get q k <> None -> d_get d k <> None.
Proof.
  intros E k H. rewrite d_get_chain in *. rewrite E. unfold maps. rewrite map_app, find_maps_app. fold (maps (chain q)).
  destruct (find_maps (map d_data pre) k); congruence.
Qed.

Lemma strictly_step q d f o : d_data q <> [] -> means d f -> NoDup (addrs d) -> strictly q d ->
  (forall a, o = DDerive a -> ~ In a (addrs d) /\ d_addr q <> a) ->
  strictly q (dict_step iter d o) /\ NoDup (addrs (dict_step iter d o)) /\
  (forall x, In x (addrs (dict_step iter d o)) -> In x (addrs d) \/ o = DDerive x).
Proof.
  intros NE M N S FR. assert (K := fun k => step_known d f o k M).
  destruct o as [key v|key v| |a]; cbn [dict_step] in *.
  - destruct d as [a m p]. unfold d_set in *. destruct key as [k|]; [|auto].
    destruct (unsupported_key (Some k)); [auto|]. rewrite (addrs_same a (m_set m k v) m p). repeat split; auto.
    eapply strictly_write; eauto.
  - destruct d as [a m p]. unfold d_get_or_assign in *. destruct key as [k|]; [|auto].
    destruct (unsupported_key (Some k)); [auto|].
    destruct p as [p|]; destruct (m_find m k); try destruct (d_get p k); cbn [snd] in *; auto;
      rewrite (addrs_same a (m_set m k v) m _); repeat split; auto; eapply strictly_write; eauto.
  - assert (A : addrs (d_clear iter d) = [d_addr d]) by reflexivity. rewrite A. repeat split.
    + right. rewrite A. split.
      * intros [E|[]]. destruct S as [(pre & x & E2)|[NI _]].
        -- destruct (chain_top _ _ _ _ E2) as [-> E3]. unfold addrs in N. rewrite chain_eq in N. cbn in N. rewrite E3 in N.
           inversion N as [|? ? N1 _]. apply N1. rewrite map_app. apply in_app_iff. right. rewrite chain_eq. cbn. auto.
        -- apply NI. rewrite <- E. unfold addrs. rewrite chain_eq. now left.
      * intros k H. apply K. destruct S as [(pre & x & E2)|[_ KN]]; [|auto]. eapply chain_suffix_get; eauto.
    + constructor; [auto|constructor].
    + intros x [<-|[]]. left. unfold addrs. rewrite chain_eq. now left.
  - destruct (FR a eq_refl) as [F1 F2]. repeat split.
    + now apply strictly_derive.
    + now apply derive_NoDup.
    + intros x I. apply derive_addrs in I. destruct I as [->|I]; auto.
Qed.

Lemma new_addrs_In ops a : In (DDerive a) ops -> In a (new_addrs ops).
Proof. induction ops as [|o ops IH]; cbn; [tauto|]. intros [->|I]; cbn; auto. destruct o; cbn; auto. Qed.

Lemma strictly_run q ops : d_data q <> [] -> forall d f, means d f -> NoDup (addrs d) -> strictly q d ->
  NoDup (new_addrs ops) -> ~ In (d_addr q) (new_addrs ops) -> (forall a, In a (new_addrs ops) -> ~ In a (addrs d)) ->
  strictly q (dict_run iter ops d) /\ NoDup (addrs (dict_run iter ops d)).
Proof.
  intros NE. induction ops as [|o ops IH]; intros d f M N S ND NQ FR; cbn; auto.
  assert (FO : forall a, o = DDerive a -> In a (new_addrs (o :: ops)) /\ ~ In a (new_addrs ops)).
  { intros a ->. cbn in *. inversion ND; subst. auto. }
  assert (IN : forall a, In a (new_addrs ops) -> In a (new_addrs (o :: ops))).
  { intros a I. destruct o; cbn; auto. }
  destruct (strictly_step q d f o NE M N S) as (S1 & N1 & A1).
  { intros a E. destruct (FO a E) as [I _]. split; [now apply FR|]. intros E2. apply NQ. now rewrite E2. }
  apply (IH _ _ (dict_step_means d f o M)); auto.
  - destruct o; cbn in ND; auto. now inversion ND.
  - intros a I I2. apply A1 in I2. destruct I2 as [I2|E]; [exact (FR a (IN a I) I2)|]. now destruct (FO a E).
Qed.

Lemma step_addrs d o : NoDup (addrs d) -> (forall a, o = DDerive a -> ~ In a (addrs d)) ->
  NoDup (addrs (dict_step iter d o)).
Proof.
  intros N FR. destruct o as [key v|key v| |b]; cbn [dict_step].
  - destruct d as [b m p]. unfold d_set. destruct key as [k|]; [|auto].
    destruct (unsupported_key (Some k)); [auto|]. rewrite (addrs_same b (m_set m k v) m p). auto.
  - destruct d as [b m p]. unfold d_get_or_assign. destruct key as [k|]; [|auto].
    destruct (unsupported_key (Some k)); [auto|].
    destruct p as [p|]; destruct (m_find m k); try destruct (d_get p k); cbn [snd]; auto;
      rewrite (addrs_same b (m_set m k v) m _); auto.
  - assert (A : addrs (d_clear iter d) = [d_addr d]) by reflexivity. rewrite A. constructor; [auto|constructor].
  - apply derive_NoDup; auto.
Qed.
Lemma step_addrs_In d o x : In x (addrs (dict_step iter d o)) -> In x (addrs d) \/ o = DDerive x.
Proof.
  destruct o as [key v|key v| |b]; cbn [dict_step].
  - destruct d as [b m p]. unfold d_set. destruct key as [k|]; [|auto].
    destruct (unsupported_key (Some k)); [auto|]. rewrite (addrs_same b (m_set m k v) m p). auto.
  - destruct d as [b m p]. unfold d_get_or_assign. destruct key as [k|]; [|auto].
    destruct (unsupported_key (Some k)); [auto|].
    destruct p as [p|]; destruct (m_find m k); try destruct (d_get p k); cbn [snd]; auto;
      rewrite (addrs_same b (m_set m k v) m _); auto.
  - assert (A : addrs (d_clear iter d) = [d_addr d]) by reflexivity. rewrite A.
    intros [<-|[]]. left. unfold addrs. rewrite chain_eq. now left.
  - intros I. apply derive_addrs in I. destruct I as [->|I]; auto.
Qed.
Lemma run_addrs_In ops : forall d x, In x (addrs (dict_run iter ops d)) -> In x (addrs d) \/ In x (new_addrs ops).
Proof.
  induction ops as [|o ops IH]; intros d x; cbn; auto. intros I. apply IH in I. destruct I as [I|I].
  - apply step_addrs_In in I. destruct I as [I|E]; [auto|subst o; cbn; auto].
  - destruct o; cbn; auto.
Qed.
Lemma run_addrs_NoDup ops : forall d, NoDup (addrs d) -> NoDup (new_addrs ops) ->
  (forall a, In a (new_addrs ops) -> ~ In a (addrs d)) -> NoDup (addrs (dict_run iter ops d)).
Proof.
  induction ops as [|o ops IH]; intros d N ND FR; cbn; auto. apply IH.
  - apply step_addrs; auto. intros a ->. apply FR. now left.
  - destruct o; cbn in ND; auto. now inversion ND.
  - intros a I I2. apply step_addrs_In in I2. destruct I2 as [I2|E].
    + apply (FR a); auto. destruct o; cbn; auto.
    + subst o. cbn in ND. now inversion ND.
Qed.

(** A dict derived from [parent] and changed in any way *)
Lemma modified_run parent f a ops : means parent f -> NoDup (addrs parent) ->
  NoDup (a :: new_addrs ops) -> (forall x, In x (a :: new_addrs ops) -> ~ In x (addrs parent)) ->
  let d := dict_run iter ops (derive a parent) in
  NoDup (d_modified_keys iter d (Some parent)) /\
  (forall k, In k (d_modified_keys iter d (Some parent)) -> d_get d k <> None) /\
  (forall k, d_get d k <> d_get parent k -> In k (d_modified_keys iter d (Some parent))).
Proof.
  intros M N ND FR d. inversion ND as [|? ? ND1 ND2]; subst.
  assert (MD : means d (f_run ops f)) by (apply dict_run_means, derive_means, M).
  assert (NA0 : NoDup (addrs (derive a parent))) by (apply derive_NoDup; auto; apply FR; now left).
  assert (FR1 : forall x, In x (new_addrs ops) -> ~ In x (addrs (derive a parent))).
  { intros x I I2. apply derive_addrs in I2. destruct I2 as [->|I2]; [auto|]. apply (FR x); [now right|exact I2]. }
  generalize (first_non_empty_chain parent). destruct (first_non_empty parent) as [q|] eqn:EQ.
  - intros (pre & C & F & NE).
    assert (AQ : In (d_addr q) (addrs parent)).
    { unfold addrs. rewrite C, map_app, (chain_eq q). apply in_app_iff. right. now left. }
    assert (S0 : strictly q (derive a parent)).
    { left. unfold derive. destruct parent as [a0 [|kv m] p].
      - destruct pre as [|x pre].
        + cbn [app] in C. rewrite chain_eq, (chain_eq q) in C. injection C as E _. exfalso. apply NE. now rewrite <- E.
        + destruct (chain_top _ _ _ _ C) as [_ C2]. exists pre, (mkDict a [] p). rewrite chain_eq. cbn in C2 |- *. now rewrite C2.
      - exists pre, (mkDict a [] (Some (mkDict a0 (kv :: m) p))). rewrite chain_eq. cbn -[chain]. now rewrite C. }
    destruct (strictly_run q ops NE _ _ (derive_means a parent f M) NA0 S0 ND2) as [S1 N1]; auto.
    { intros I. apply (FR (d_addr q)); [now right|exact AQ]. }
    apply modified_ok; auto; [apply MD | apply M|]. intros q' E. rewrite EQ in E. injection E as <-.
    destruct (strictly_above _ _ S1) as [S|[NI K]]; auto. right. split; auto.
    intros k H. apply K. rewrite d_get_chain in H |- *. rewrite C in H. unfold maps in *. rewrite map_app, find_maps_app in H.
    assert (E : find_maps (map d_data pre) k = None) by (clear -F; induction F; cbn; auto; now rewrite H).
    now rewrite E in H.
  - intros F.
    assert (NAD : NoDup (addrs d)) by (apply run_addrs_NoDup; auto).
    apply modified_ok; auto; [apply MD | apply M|]. intros q E. congruence.
Qed.
End Iter.
