(** Lemmas about the file map, and about bags stored in files *)
From Coq Require Import String.
From Coq Require Import NArith List Bool PeanoNat Lia Relations.
From Verif Require Import StoreModel StoreSpec StoreNameProofs StoreClosureProofs.
Import ListNotations.
Local Open Scope nat_scope.

Lemma fname_eqb_spec a b : fname_eqb a b = true <-> a = b.
Proof.
  destruct a as [u i|n|n u], b as [v j|m|m v]; cbn;
    rewrite ?andb_true_iff, ?String.eqb_eq, ?Nat.eqb_eq, ?N.eqb_eq;
    split; intros H; try discriminate; try (destruct H; congruence);
    try (injection H; auto); congruence.
Qed.

Lemma path_eqb_spec p q : path_eqb p q = true <-> p = q.
Proof.
  destruct p as [d f], q as [d' f']. unfold path_eqb. cbn.
  rewrite andb_true_iff, String.eqb_eq, fname_eqb_spec. split.
  - intros [-> ->]. reflexivity.
  - intros [= -> ->]. auto.
Qed.

Lemma path_eqb_refl p : path_eqb p p = true.
Proof. now apply path_eqb_spec. Qed.

Lemma path_eqb_neq p q : p <> q -> path_eqb p q = false.
Proof.
  intros H. destruct (path_eqb p q) eqn:E; [|reflexivity].
  apply path_eqb_spec in E. contradiction.
Qed.

Lemma path_dec (p q : path) : {p = q} + {p <> q}.
Proof.
  destruct (path_eqb p q) eqn:E.
  - left. now apply path_eqb_spec.
  - right. intros ->. rewrite path_eqb_refl in E. discriminate.
Qed.

Section Files.
Context {Bag Custom : Type}.
Notation files := (@files Bag Custom).
Notation content := (@content Bag Custom).
Notation to_add := (@to_add Bag Custom).
Notation entry := (@entry Custom).
Notation meta := (@meta Custom).

Lemma look_unlink (fs : files) p q :
  look (unlink p fs) q = if path_eqb p q then None else look fs q.
Proof.
  unfold unlink.
  induction fs as [|[r c] fs IH]; cbn [filter look fst].
  - now destruct (path_eqb p q).
  - destruct (path_eqb r p) eqn:E; cbn [negb].
    + apply path_eqb_spec in E as ->. rewrite IH. now destruct (path_eqb p q).
    + cbn [look]. destruct (path_eqb r q) eqn:F.
      * apply path_eqb_spec in F as ->. rewrite path_eqb_neq; [reflexivity|].
        intros ->. rewrite path_eqb_refl in E. discriminate.
      * exact IH.
Qed.

Lemma look_put (fs : files) p c q :
  look (put p c fs) q = if path_eqb p q then Some c else look fs q.
Proof.
  unfold put. cbn [look]. destruct (path_eqb p q) eqn:E; [reflexivity|].
  now rewrite look_unlink, E.
Qed.

Lemma look_put_same (fs : files) p c : look (put p c fs) p = Some c.
Proof. now rewrite look_put, path_eqb_refl. Qed.

Lemma look_put_other (fs : files) p c q : q <> p -> look (put p c fs) q = look fs q.
Proof. intros H. rewrite look_put, path_eqb_neq; congruence. Qed.

Lemma look_move (fs : files) p q c r : look fs p = Some c -> p <> q ->
  look (move p q fs) r
  = if path_eqb q r then Some c else if path_eqb p r then None else look fs r.
Proof.
  intros E D. unfold move. rewrite E, look_put, look_unlink. reflexivity.
Qed.

Lemma listing_In (fs : files) d f : In f (listing fs d) <-> look fs (d, f) <> None.
Proof.
  unfold listing. induction fs as [|[[d' f'] c] fs IH]; cbn [filter map look fst snd].
  - split; [easy|intros H; now apply H].
  - destruct (String.eqb_spec d' d) as [->|D].
    + cbn [map In fst snd]. destruct (path_eqb (d, f') (d, f)) eqn:E.
      * apply path_eqb_spec in E. injection E as ->. split; [discriminate|auto].
      * rewrite <- IH. split; [|auto]. intros [ -> |H]; [|exact H].
        rewrite path_eqb_refl in E. discriminate.
    + rewrite path_eqb_neq by congruence. exact IH.
Qed.

Lemma greatest_In best l : In (greatest best l) (best :: l).
Proof.
  revert best; induction l as [|f l IH]; intros best; [now left|]. cbn [greatest].
  destruct (String.ltb (render best) (render f)).
  - right. apply IH.
  - destruct (IH best) as [H|H]; [left; exact H|right; now right].
Qed.

Lemma greatest_max : forall l best n0,
  (forall f, In f (best :: l) -> exists n, f = MetaFile n /\ (n < capacity)%N) ->
  greatest best l = MetaFile n0 ->
  forall n, In (MetaFile n) (best :: l) -> (n <= n0)%N.
Proof.
  induction l as [|f l IH]; intros best n0 H G n I.
  - cbn in G. destruct I as [I|[]]. subst best. injection I as ->. lia.
  - cbn [greatest] in G.
    destruct (H best) as (b & -> & B); [now left|].
    destruct (H f) as (a & -> & A); [right; now left|].
    rewrite name_order in G by assumption.
    destruct (N.ltb_spec b a) as [L|L].
    + assert (H2 : forall f, In f (MetaFile a :: l) -> exists n, f = MetaFile n /\ (n < capacity)%N)
        by (intros f F; apply H; now right).
      destruct I as [[= <-]|I].
      * pose proof (IH _ n0 H2 G a (or_introl eq_refl)). lia.
      * exact (IH _ n0 H2 G n I).
    + assert (H2 : forall f, In f (MetaFile b :: l) -> exists n, f = MetaFile n /\ (n < capacity)%N).
      { intros f [ <- |F]; apply H; [now left|right; now right]. }
      destruct I as [[= <-]|[[= <-]|I]].
      * exact (IH _ n0 H2 G b (or_introl eq_refl)).
      * pose proof (IH _ n0 H2 G b (or_introl eq_refl)). lia.
      * exact (IH _ n0 H2 G n (or_intror I)).
Qed.

(** The latest metadata of a directory *)
Theorem latest_name_some (fs : files) d f : latest_name fs d = Some f ->
  exists n, f = MetaFile n /\ (n < capacity)%N /\ look fs (d, MetaFile n) <> None
    /\ forall k, (k < capacity)%N -> look fs (d, MetaFile k) <> None -> (k <= n)%N.
Proof.
  unfold latest_name.
  destruct (filter (fun f => matches_pattern (render f)) (listing fs d)) as [|g l] eqn:E;
    [discriminate|].
  intros [= <-].
  assert (H : forall f, In f (g :: l) -> exists n, f = MetaFile n /\ (n < capacity)%N).
  { intros f F. rewrite <- E in F. apply filter_In in F as [_ F].
    apply matches_pattern_iff in F as (n & A & B). eauto. }
  pose proof (greatest_In g l) as GI.
  destruct (H _ GI) as (n & G & L). exists n. split; [exact G|]. split; [exact L|]. split.
  - rewrite G, <- E in GI. apply filter_In in GI as [GI _]. now apply listing_In.
  - intros k K P. apply (greatest_max l g n H G). rewrite <- E. apply filter_In.
    split; [now apply listing_In|]. apply matches_pattern_iff. eauto.
Qed.

Theorem latest_name_none (fs : files) d : latest_name fs d = None ->
  forall k, (k < capacity)%N -> look fs (d, MetaFile k) = None.
Proof.
  unfold latest_name.
  destruct (filter (fun f => matches_pattern (render f)) (listing fs d)) as [|g l] eqn:E;
    [|discriminate].
  intros _ k K. destruct (look fs (d, MetaFile k)) eqn:F; [|reflexivity]. exfalso.
  assert (I : In (MetaFile k) []).
  { rewrite <- E. apply filter_In. split; [apply listing_In; congruence|].
    apply matches_pattern_iff. eauto. }
  easy.
Qed.

(** ** Stored bags *)

Definition keeps (fs fs' : files) : Prop :=
  (forall p b, look fs p = Some (BagContent b) -> look fs' p = Some (BagContent b))
  /\ (forall d n c, look fs (d, MetaFile n) = Some c -> look fs' (d, MetaFile n) = Some c).

Lemma keeps_refl fs : keeps fs fs.
Proof. split; auto. Qed.

Lemma stored_entries_keeps (fs fs' : files) d es : forall l,
  keeps fs fs' -> stored_entries fs d es = Some l -> stored_entries fs' d es = Some l.
Proof.
  induction es as [|e es IH]; intros l K; cbn; [auto|].
  unfold stored_entry.
  destruct (look fs (entry_path d e)) as [[b|m|]|] eqn:E; try discriminate.
  rewrite (proj1 K _ _ E).
  destruct (stored_entries fs d es) as [l'|]; [|discriminate].
  rewrite (IH l' K eq_refl). auto.
Qed.

Lemma stored_keeps (fs fs' : files) d m l :
  keeps fs fs' -> stored fs d m = Some l -> stored fs' d m = Some l.
Proof. apply stored_entries_keeps. Qed.

Definition of_item (x : to_add) : string * list string * option Custom :=
  (a_name x, a_deps x, a_custom x).
Definition of_entry (e : entry) : string * list string * option Custom :=
  (e_name e, e_deps e, e_custom e).

Lemma stored_entries_same (fs : files) d es : forall l,
  stored_entries fs d es = Some l -> map of_item l = map of_entry es.
Proof.
  induction es as [|e es IH]; intros l; cbn; [intros [= <-]; reflexivity|].
  unfold stored_entry.
  destruct (look fs (entry_path d e)) as [[b|m|]|]; try discriminate.
  destruct (stored_entries fs d es) as [l'|]; [|discriminate].
  intros [= <-]. cbn. rewrite (IH l' eq_refl). reflexivity.
Qed.

Lemma stored_entries_app (fs : files) d es1 es2 l1 l2 :
  stored_entries fs d es1 = Some l1 -> stored_entries fs d es2 = Some l2 ->
  stored_entries fs d (es1 ++ es2) = Some (l1 ++ l2).
Proof.
  revert l1; induction es1 as [|e es1 IH]; intros l1; cbn.
  - intros [= <-] H. exact H.
  - destruct (stored_entry fs d e) as [x|]; [|discriminate].
    destruct (stored_entries fs d es1) as [l'|]; [|discriminate].
    intros [= <-] H. rewrite (IH l' eq_refl H). reflexivity.
Qed.

Lemma map_of_name (l : list to_add) (es : list entry) :
  map of_item l = map of_entry es -> map a_name l = map e_name es.
Proof.
  revert es; induction l as [|x l IH]; intros [|e es] E; cbn in *; try discriminate; [reflexivity|].
  injection E as E1 E2 E3 E4. f_equal; auto.
Qed.

Definition items_ok (l : list to_add) : Prop :=
  unique_names l /\ dependencies_first l.

Lemma items_entries_ok (l : list to_add) (es : list entry) :
  map of_item l = map of_entry es -> (items_ok l <-> entries_ok es).
Proof.
  intros E. unfold items_ok, entries_ok, unique_names.
  rewrite (map_of_name l es E). split; intros [N D]; (split; [exact N|]).
  - intros es1 e es2 H s S. subst es. rewrite map_app in E. symmetry in E.
    cbn in E.
    assert (X : exists l1 x l2, l = l1 ++ x :: l2 /\ map of_item l1 = map of_entry es1
      /\ of_item x = of_entry e).
    { clear - E. revert l E. induction es1 as [|e1 es1 IH]; intros [|x l] E; cbn in *; try discriminate.
      - exists [], x, l. split; [reflexivity|]. split; [reflexivity|].
        unfold of_item, of_entry in *. congruence.
      - injection E as E1 E2 E3 E4. destruct (IH l E4) as (l1 & y & l2 & -> & A & B).
        exists (x :: l1), y, l2. split; [reflexivity|]. split; [|exact B].
        cbn. rewrite A. unfold of_item, of_entry. congruence. }
    destruct X as (l1 & x & l2 & -> & A & B).
    rewrite <- (map_of_name l1 es1 A). apply (D l1 x l2 eq_refl).
    unfold of_item, of_entry in B. injection B as _ B _. now rewrite B.
  - intros l1 x l2 H s S. subst l. rewrite map_app in E. cbn in E.
    assert (X : exists es1 e es2, es = es1 ++ e :: es2 /\ map of_item l1 = map of_entry es1
      /\ of_item x = of_entry e).
    { clear - E. revert es E. induction l1 as [|y l1 IH]; intros [|e es] E; cbn in *; try discriminate.
      - exists [], e, es. split; [reflexivity|]. split; [reflexivity|].
        unfold of_item, of_entry in *. congruence.
      - injection E as E1 E2 E3 E4. destruct (IH es E4) as (es1 & e' & es2 & -> & A & B).
        exists (e :: es1), e', es2. split; [reflexivity|]. split; [|exact B].
        cbn. rewrite A. unfold of_item, of_entry. congruence. }
    destruct X as (es1 & e & es2 & -> & A & B).
    rewrite (map_of_name l1 es1 A). apply (D es1 e es2 eq_refl).
    unfold of_item, of_entry in B. injection B as _ B _. now rewrite <- B.
Qed.

Lemma depends_entries (l : list to_add) (es : list entry) a b :
  map of_item l = map of_entry es -> (depends l a b <-> entry_depends es a b).
Proof.
  intros E. unfold depends, entry_depends. split.
  - intros (x & I & <- & B). apply (in_map of_item) in I. rewrite E in I.
    apply in_map_iff in I as (e & H & I). unfold of_item, of_entry in H.
    injection H as H1 H2 _. exists e. rewrite H1, H2. auto.
  - intros (e & I & <- & B). apply (in_map of_entry) in I. rewrite <- E in I.
    apply in_map_iff in I as (x & H & I). unfold of_item, of_entry in H.
    injection H as H1 H2 _. exists x. rewrite H1, H2. auto.
Qed.

Lemma needed_entries (l : list to_add) (m : meta) names deps x :
  map of_item l = map of_entry (m_bags m) ->
  (needed l names deps x <-> entries_needed m names deps x).
Proof.
  intros E. unfold needed, entries_needed, depends_star, entries_star.
  assert (R1 : forall a b, clos_refl_trans string (depends l) a b ->
    clos_refl_trans string (entry_depends (m_bags m)) a b).
  { intros a b. apply clos_impl. intros y z. now apply depends_entries. }
  assert (R2 : forall a b, clos_refl_trans string (entry_depends (m_bags m)) a b ->
    clos_refl_trans string (depends l) a b).
  { intros a b. apply clos_impl. intros y z. now apply depends_entries. }
  split; intros (a & R & A); exists a; (split; [auto|]);
    destruct A as [A|(D & n & I & S)]; auto; right; (split; [exact D|]); exists n; auto.
Qed.

(** ** Validation of new bags *)

Lemma items_ok_app_snoc (l : list to_add) x :
  items_ok l -> ~ In (a_name x) (map a_name l) ->
  (forall s, In s (a_deps x) -> In s (map a_name l)) -> items_ok (l ++ [x]).
Proof.
  intros [N D] F S. split.
  - unfold unique_names. rewrite map_app. now apply NoDup_snoc.
  - intros before y after E s I.
    destruct after as [|z after'] using rev_ind.
    + apply app_inj_tail in E as [-> ->]. auto.
    + clear IHafter'.
      change (before ++ y :: after' ++ [z]) with (before ++ (y :: after') ++ [z]) in E.
      rewrite app_assoc in E. apply app_inj_tail in E as [E _].
      exact (D before y after' E s I).
Qed.

Lemma validate_sound bags : forall (l : list to_add) available,
  items_ok l -> (forall s, In s available <-> In s (map a_name l)) ->
  validate available bags = None -> items_ok (l ++ bags).
Proof.
  induction bags as [|b bags IH]; intros l av OK H; cbn.
  - now rewrite app_nil_r.
  - destruct (has_name (a_name b) av) eqn:F; [discriminate|].
    apply has_name_false in F. rewrite H in F.
    destruct (forallb (fun s => has_name s av) (a_deps b)) eqn:D; [|discriminate].
    cbn [negb]. intros V. change (b :: bags) with ([b] ++ bags). rewrite app_assoc.
    apply (IH _ (a_name b :: av)).
    + apply items_ok_app_snoc; [exact OK|exact F|].
      intros s S. rewrite forallb_forall in D. apply H, has_name_In. now apply D.
    + intros s. cbn. rewrite map_app, in_app_iff, H. cbn. intuition.
    + exact V.
Qed.

Lemma validate_complete bags : forall (l : list to_add) available,
  items_ok (l ++ bags) -> (forall s, In s available <-> In s (map a_name l)) ->
  validate available bags = None.
Proof.
  induction bags as [|b bags IH]; intros l av OK H; cbn; [reflexivity|].
  assert (F : has_name (a_name b) av = false).
  { apply has_name_false. rewrite H. destruct OK as [N _]. unfold unique_names in N.
    rewrite map_app in N. cbn in N. apply NoDup_remove_2 in N. intros I. apply N.
    apply in_app_iff. auto. }
  rewrite F.
  replace (forallb (fun s => has_name s av) (a_deps b)) with true.
  2:{ symmetry. apply forallb_forall. intros s S. apply has_name_In, H.
      exact (proj2 OK l b bags eq_refl s S). }
  cbn [negb]. apply (IH (l ++ [b])).
  - rewrite <- app_assoc. exact OK.
  - intros s. cbn. rewrite map_app, in_app_iff, H. cbn. intuition.
Qed.

Lemma items_ok_nil : items_ok [].
Proof. split; [constructor|]. intros [|] ? ? E; discriminate. Qed.

(** ** Selections *)

Lemma NoDup_map_filter {A B} (f : A -> B) (p : A -> bool) l :
  NoDup (map f l) -> NoDup (map f (filter p l)).
Proof.
  induction l as [|x l IH]; cbn; intros N; [constructor|].
  inversion N as [|? ? N1 N2]; subst. destruct (p x); [|auto]. cbn. constructor; [|auto].
  intros I. apply N1. apply in_map_iff in I as (y & E & I). apply filter_In in I as [I _].
  rewrite <- E. now apply in_map.
Qed.

Lemma filter_split {A} (p : A -> bool) (l : list A) : forall before x after,
  filter p l = before ++ x :: after ->
  exists l1 l2, l = l1 ++ x :: l2 /\ filter p l1 = before.
Proof.
  induction l as [|y l IH]; intros before x after E; cbn in E.
  - destruct before; discriminate.
  - destruct (p y) eqn:P.
    + destruct before as [|z before]; cbn in E; injection E as -> E.
      * exists [], l. auto.
      * destruct (IH _ _ _ E) as (l1 & l2 & -> & F). exists (z :: l1), l2.
        split; [reflexivity|]. cbn. rewrite P. congruence.
    + destruct (IH _ _ _ E) as (l1 & l2 & -> & F). exists (y :: l1), l2.
      split; [reflexivity|]. cbn. now rewrite P.
Qed.

Lemma selection_ok (l sel : list to_add) names deps :
  items_ok l -> selection l names deps sel -> items_ok sel.
Proof.
  intros [N D] (keep & -> & K). split.
  - now apply NoDup_map_filter.
  - intros before x after E s S.
    destruct (filter_split keep l before x after E) as (l1 & l2 & L & <-).
    assert (I : In s (map a_name l1)) by (eapply D; eauto).
    apply in_map_iff in I as (y & <- & I). apply in_map. apply filter_In. split; [exact I|].
    apply K; [rewrite L; apply in_app_iff; auto|].
    assert (X : needed l names deps (a_name x)).
    { apply K; [rewrite L; apply in_app_iff; right; now left|].
      assert (In x (filter keep l)) by (rewrite E; apply in_app_iff; right; now left).
      now apply filter_In in H. }
    destruct X as (a & R & A). exists a. split; [|exact A].
    eapply rt_trans; [exact R|]. apply rt_step. exists x.
    split; [rewrite L; apply in_app_iff; right; now left|auto].
Qed.

Lemma selection_of_names (l : list to_add) (m : meta) names deps cl :
  map of_item l = map of_entry (m_bags m) ->
  (forall x, In x cl <-> entries_needed m names deps x) ->
  selection l names deps (filter (fun x => has_name (a_name x) cl) l).
Proof.
  intros E H. exists (fun x => has_name (a_name x) cl). split; [reflexivity|].
  intros x _. rewrite has_name_In, H. symmetry. now apply needed_entries.
Qed.

Lemma selection_unique (l s1 s2 : list to_add) names deps :
  selection l names deps s1 -> selection l names deps s2 -> s1 = s2.
Proof.
  intros (k1 & -> & K1) (k2 & -> & K2). apply filter_ext_in. intros x I.
  destruct (k1 x) eqn:E1, (k2 x) eqn:E2; auto; exfalso.
  - apply (K1 x I) in E1. apply (K2 x I) in E1. congruence.
  - apply (K2 x I) in E2. apply (K1 x I) in E2. congruence.
Qed.

(** ** Loaded bags *)


Definition loaded_ok (l : list to_add) (loaded : list (string * Bag)) : Prop :=
  forall s b, In (s, b) loaded -> exists x, In x l /\ a_name x = s /\ a_bag x = b.

Lemma item_unique (l : list to_add) x y :
  unique_names l -> In x l -> In y l -> a_name x = a_name y -> x = y.
Proof.
  unfold unique_names.
  induction l as [|e es IH]; intros N I1 I2 E; [easy|].
  inversion N as [|? ? N1 N2]; subst.
  destruct I1 as [ -> |I1], I2 as [ -> |I2]; auto.
  - exfalso. apply N1. rewrite E. now apply in_map.
  - exfalso. apply N1. rewrite <- E. now apply in_map.
Qed.

Lemma filter_names_map (l : list to_add) (f : string -> bool) :
  filter f (map a_name l) = map a_name (filter (fun x => f (a_name x)) l).
Proof.
  induction l as [|x l IH]; cbn; [reflexivity|]. destruct (f (a_name x)); cbn; congruence.
Qed.

Lemma bags_to_extract_ok (m : meta) (l : list to_add) loaded :
  map of_item l = map of_entry (m_bags m) -> items_ok l -> loaded_ok l loaded ->
  forall sel, incl sel l -> (forall x, In x sel -> In (a_name x) (map fst loaded)) ->
  bags_to_extract m loaded (map a_name sel) = Some (map without_custom sel).
Proof.
  intros E OK LO. induction sel as [|x sel IH]; intros I H; cbn; [reflexivity|].
  rewrite IH; [|intros y Y; apply I; now right|intros y Y; apply H; now right].
  assert (Ix : In x l) by (apply I; now left).
  assert (F : find (fun y : string * Bag => String.eqb (fst y) (a_name x)) loaded
              = Some (a_name x, a_bag x)).
  { destruct (find _ loaded) as [[s b]|] eqn:F.
    - apply find_some in F as [F1 F2]. cbn in F2. apply String.eqb_eq in F2. subst s.
      destruct (LO _ _ F1) as (y & Y & N & <-).
      rewrite (item_unique l y x (proj1 OK) Y Ix N). reflexivity.
    - exfalso. specialize (H x (or_introl eq_refl)).
      apply in_map_iff in H as ([s b] & E1 & I1). cbn in E1. subst s.
      apply (find_none _ _ F) in I1. cbn in I1. rewrite String.eqb_refl in I1. discriminate. }
  rewrite F.
  assert (D : dependency_relation m (a_name x) = Some (a_deps x)).
  { apply (in_map of_item) in Ix. rewrite E in Ix. apply in_map_iff in Ix as (e & H1 & H2).
    unfold of_item, of_entry in H1. injection H1 as E1 E2 _. rewrite <- E1, <- E2.
    apply dependency_relation_ok; [|exact H2]. apply (items_entries_ok l); auto. }
  rewrite D. reflexivity.
Qed.

(** the file of a stored bag *)
Lemma stored_file (fs : files) d es : forall l, stored_entries fs d es = Some l ->
  forall e, In e es -> exists x, In x l /\ of_item x = of_entry e
    /\ look fs (entry_path d e) = Some (BagContent (a_bag x)).
Proof.
  induction es as [|e es IH]; intros l E e' I; [easy|]. cbn in E.
  unfold stored_entry in E.
  destruct (look fs (entry_path d e)) as [[b|m|]|] eqn:L; try discriminate.
  destruct (stored_entries fs d es) as [l'|]; [|discriminate].
  injection E as <-. destruct I as [ <- |I].
  - eexists. split; [now left|]. split; [reflexivity|]. exact L.
  - destruct (IH l' eq_refl e' I) as (x & A & B & C). exists x. split; [now right|auto].
Qed.

Lemma stored_path (fs : files) (g : @manager Custom) l s :
  stored fs (g_dir g) (g_meta g) = Some l -> In s (map a_name l) ->
  exists p x, bag_filepath g s = Some p /\ In x l /\ a_name x = s
    /\ look fs p = Some (BagContent (a_bag x)).
Proof.
  intros S I. unfold bag_filepath.
  pose proof (stored_entries_same _ _ _ _ S) as E.
  rewrite (map_of_name l _ E) in I. apply in_map_iff in I as (e0 & N0 & I0).
  destruct (find _ (m_bags (g_meta g))) as [e|] eqn:F.
  - apply find_some in F as [F1 F2]. apply String.eqb_eq in F2.
    destruct (stored_file _ _ _ _ S e F1) as (x & X1 & X2 & X3).
    exists (entry_path (g_dir g) e), x. split; [reflexivity|]. split; [exact X1|].
    split; [|exact X3]. unfold of_item, of_entry in X2. congruence.
  - exfalso. apply (find_none _ _ F) in I0. cbn in I0. rewrite N0, String.eqb_refl in I0.
    discriminate.
Qed.

(** ** Branches *)

Lemma stored_branch (fs : files) (g : @manager Custom) d cl : forall l es,
  stored_entries fs (g_dir g) es = Some l ->
  stored_entries fs d
    (map (fun e => Entry (e_name e) (e_file e) (e_deps e) (e_custom e)
            (match e_dir e with Some d => Some d | None => Some (g_dir g) end))
       (filter (fun e => has_name (e_name e) cl) es))
  = Some (filter (fun x => has_name (a_name x) cl) l).
Proof.
  intros l es; revert l; induction es as [|e es IH]; intros l E; cbn in *.
  - injection E as <-. reflexivity.
  - unfold stored_entry in E.
    destruct (look fs (entry_path (g_dir g) e)) as [[b|m|]|] eqn:L; try discriminate.
    destruct (stored_entries fs (g_dir g) es) as [l'|]; [|discriminate].
    injection E as <-. cbn [filter a_name].
    destruct (has_name (e_name e) cl); [|now apply IH].
    cbn [map stored_entries]. rewrite (IH l' eq_refl). unfold stored_entry, entry_path.
    cbn [e_dir e_file e_name e_deps e_custom].
    unfold entry_path in L.
    destruct (e_dir e) as [d'|]; rewrite L; reflexivity.
Qed.

(** ** New bags *)

Lemma stored_new (fs : files) d u bags : forall i,
  (forall k b, nth_error bags k = Some b ->
     look fs (d, BagFile u (i + k)) = Some (BagContent (a_bag b))) ->
  stored_entries fs d (new_entries u i bags) = Some bags.
Proof.
  induction bags as [|b bags IH]; intros i H; cbn; [reflexivity|].
  unfold stored_entry, entry_path. cbn [e_dir e_file].
  pose proof (H 0 b eq_refl) as H0. rewrite Nat.add_0_r in H0. rewrite H0.
  rewrite IH.
  - cbn. destruct b; reflexivity.
  - intros k x K. specialize (H (S k) x K). rewrite Nat.add_succ_r in H. exact H.
Qed.

End Files.
